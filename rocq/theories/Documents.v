(** Types made by the converters can be written as documents and read back (proofs only). *)
From Coq Require Import String Ascii List NArith ZArith QArith Bool Lia Permutation.
From Verif Require Import PyVal PyValFacts RType Registry FromDict ToDict Nullable RoundTrip RegistryFacts NullableFacts
  SpecTypes SpecDb DbapiFacts BigQueryFacts DbRanges Hive SpecHive HiveFacts HiveMore.
Import ListNotations.
Open Scope nat_scope.
Open Scope string_scope.
Open Scope list_scope.

Lemma bits_validate b : between b 1 2147483647 -> validate_bits b = Ok tt.
Proof.
  intros (q & N & L & H). unfold validate_bits, py_lt_z, py_gt_z. rewrite N.
  apply Qle_bool_iff in L, H. cbn [rbind]. rewrite L. cbn [negb rbind]. rewrite H. reflexivity.
Qed.
Lemma len_validate l v : length_ok l v -> validate_len l v = Ok tt.
Proof.
  unfold validate_len. intros [[-> T]|(q & N & L & H)].
  - rewrite T. reflexivity.
  - assert (E : is_none l = false) by (destruct l; try reflexivity; discriminate N).
    rewrite E, andb_false_r. unfold py_lt_z, py_gt_z. rewrite N.
    apply Qle_bool_iff in L, H. cbn [rbind]. rewrite L. cbn [negb rbind]. rewrite H. reflexivity.
Qed.
Lemma tree_validate : forall t, tree_within_limits t -> validate t = Ok tt.
Proof.
  induction t using rtype_ind'; intros T; apply tree_iff in T as [W F]; cbn [children within_limits] in *; cbn [validate];
    auto using bits_validate, len_validate.
  - inversion F; subst. rewrite (len_validate _ _ W). cbn [rbind]. auto.
  - inversion F as [|? ? A F1]; inversion F1; subst. rewrite IHt1 by auto. cbn [rbind]. auto.
  - induction H as [|x l Hx Hl IH]; auto. inversion F; subst. rewrite Hx by auto. cbn [rbind]. auto.
Qed.

(** Attributes that a document can carry; no alias, no proxy. *)
Definition attr_node (t : rtype) : Prop :=
  let c := get_c t in
  dwf (c_extra c) /\ (forall k, In k (dkeys (c_extra c)) -> ~ In k (std_keys ++ reserved t)) /\
  pwf (c_logical c) /\ c_alias c = PNone /\ pwf (c_doc c) /\ Forall pwf (attrs_of t) /\ is_proxy t = false.

Lemma documented_twf : forall t, every attr_node t -> tree_within_limits t -> twf t.
Proof.
  intros t.
  assert (N : forall t, attr_node t -> tree_within_limits t -> node_ok t).
  { intros u ([D1 D2] & K & L & A & Dc & At & Px) T. apply tree_validate in T. unfold node_ok. rewrite A.
    repeat (split; [first [assumption|constructor]|]). destruct u; try exact I. discriminate. }
  unfold twf. induction t using rtype_ind'; intros E T; pose proof (N _ (E _ (node_self _)) T) as NK;
    apply every_iff in E as [_ F]; apply tree_iff in T as [_ G]; cbn [children] in *; split; auto.
  - inversion F; inversion G; subst; auto.
  - inversion F as [|? ? A F1]; inversion G as [|? ? B G1]; inversion F1; inversion G1; subst; auto.
  - apply nodes_list. rewrite Forall_forall in *. auto.
  - apply nodes_list. rewrite Forall_forall in *. auto.
Qed.
Lemma no_alias_reg : forall t, every attr_node t -> forall R, reg_tree t R = (R, Ok tt).
Proof.
  assert (RN : forall t R, attr_node t -> reg_node t R = (R, Ok tt)).
  { intros t R (_ & _ & _ & A & _). unfold reg_node. rewrite A. reflexivity. }
  assert (RL : forall l, Forall (fun t => every attr_node t -> forall R, reg_tree t R = (R, Ok tt)) l ->
     Forall (every attr_node) l -> forall R, reg_list l R = (R, Ok tt)).
  { induction 1 as [|x l Hx Hl IH]; intros F R; auto. inversion F; subst. cbn [reg_list]. unfold mbind.
    rewrite Hx by auto. auto. }
  induction t using rtype_ind'; intros E R; pose proof (E _ (node_self _)) as NK;
    apply every_iff in E as [_ F]; cbn [children] in *; cbn [reg_tree].
  all: unfold mbind at 1; rewrite ?reg_list_eq.
  all: try (apply (RN _ R NK)).
  - inversion F; subst. rewrite IHt by auto. apply (RN _ R NK).
  - inversion F as [|? ? A F1]; inversion F1; subst. unfold mbind at 1. rewrite IHt1 by auto. rewrite IHt2 by auto. apply (RN _ R NK).
  - rewrite (RL fs H F). apply (RN _ R NK).
  - rewrite (RL ts H F). apply (RN _ R NK).
Qed.
Theorem documented : forall t, every attr_node t -> tree_within_limits t ->
  exists d, to_dict false false t = Ok d /\ forall R, from_dict d R = (R, Ok t).
Proof.
  intros t E T. exists (raw_dict t). split; [apply to_dict_raw|]. intros R.
  apply raw_roundtrip_okB; [now apply documented_twf|now apply no_alias_reg].
Qed.

(** ** Hive *)
Lemma dwf_nil : dwf [].
Proof. split; constructor. Qed.
Lemma fine_attr t l x d e : fine d e -> get_c t = mkC l PNone d (x ++ e) -> pwf l ->
  dwf x -> (forall k, In k (dkeys x) -> ~ In k ("name" :: std_keys ++ reserved t)) ->
  Forall pwf (attrs_of t) -> is_proxy t = false -> attr_node t.
Proof.
  intros [DL NO] G L [D1 D2] K At Px. unfold attr_node. rewrite G. cbn [c_extra c_logical c_alias c_doc].
  split; [|split; [|split; [auto|split; [auto|split; [|auto]]]]].
  - destruct NO as [->|(n & ->)]; [rewrite app_nil_r; split; auto|].
    split.
    + unfold dkeys in *. rewrite map_app. cbn [map fst]. apply Permutation_NoDup with ("name" :: map fst x); [apply Permutation_cons_append|].
      constructor; auto. intros I. apply K in I. cbn in I. tauto.
    + apply Forall_app. split; auto. constructor; [constructor|constructor].
  - intros k I. unfold dkeys in I. rewrite map_app, in_app_iff in I. destruct I as [I|I].
    + apply K in I. cbn [In] in I. tauto.
    + destruct NO as [->|(n & ->)]; cbn in I; [tauto|]. destruct I as [<-|[]]. destruct t; cbn; intuition discriminate.
  - destruct DL as [->|(s & ->)]; constructor.
Qed.

Lemma wrap_attr c : dwf (c_extra c) -> pwf (c_logical c) -> pwf (c_alias c) -> pwf (c_doc c) ->
  dwf (c_extra (wrap_attrs c)).
Proof.
  intros D L A Dc. cbn [wrap_attrs c_extra]. split; [constructor; [intros []|constructor]|].
  constructor; [|constructor]. cbn [snd]. apply dwf_pwf. cbn [dupd fold_left fst snd]. auto using dwf_dset.
Qed.
Lemma hive_attrs : forall h d e t, fine d e -> hive_parse d e h = Ok t -> every attr_node t.
Proof.
  assert (KD : forall (x : list (string * pyval)), dwf x -> forall k, In k (dkeys (ddel "doc" (ddel "name" (ddel "default" x)))) -> In k (dkeys x)).
  { intros x D k I. rewrite !ddel_keys in I. tauto. }
  intros h d e t F H.
  refine (every_parse attr_node (fun _ => True) _ _ _ _ _ _ _ _ _ _ _ _ _ _ _ h d e t F I H); clear h d e t F H.
  - intros t (D & K & L & A & Dc & At & Px). unfold after_pop, attr_node.
    rewrite get_set_c. cbn [c_extra c_logical c_alias c_doc].
    assert (D2 : dwf (ddel "name" (ddel "default" (c_extra (get_c t))))) by auto using dwf_ddel.
    split; [auto using dwf_ddel|]. split.
    + intros k I. apply KD in I; auto. specialize (K k I). destruct t; exact K.
    + split; auto. split; auto. split; [apply dwf_kwarg; [constructor|auto]|]. destruct t; auto.
  - intros t ts (D & K & L & A & Dc & At & Px) U. unfold attr_node, union_labels.
    cbn [get_c c_extra c_logical c_alias c_doc attrs_of].
    assert (E : exists l, match dget "name" (c_extra (get_c t)) with Some n => [("name", n)] | None => [] end = l
       /\ (l = [] \/ exists n, l = [("name", n)] /\ pwf n)).
    { destruct (dget "name" (c_extra (get_c t))) as [n|] eqn:En; eexists; split; try reflexivity; auto.
      right. eexists. split; eauto. eapply dwf_dget; eauto. }
    destruct E as (l & -> & El).
    assert (KW : pwf (kwarg "default" PNone (c_extra (get_c t)))) by (apply dwf_kwarg; [constructor|auto]).
    split; [|split; [|split; [constructor|split; [auto|split; [auto|split; [constructor|auto]]]]]].
    + destruct El as [->|(n & -> & W)]; split; cbn.
      * repeat constructor. intros [].
      * repeat constructor. auto.
      * repeat constructor; cbn; intuition discriminate.
      * repeat constructor; auto.
    + intros k I. destruct El as [->|(n & -> & W)]; cbn in I; cbn; intuition (subst; discriminate).
  - unfold attr_node. cbn. repeat split; try constructor. intros k [].
  - intros c ts ts' X. exact X.
  - intros c v l r v' (D & K & L & A & Dc & At & Px). cbn [get_c] in *. unfold attr_node. cbn [get_c attrs_of].
    split; [apply wrap_attr; auto; rewrite A; constructor|].
    split; [|cbn [c_logical c_alias c_doc wrap_attrs]; repeat split; repeat constructor].
    intros k [<-|[]]. cbn. intuition discriminate.
  - intros c k v k' v' (D & K & L & A & Dc & At & Px). cbn [get_c] in *. unfold attr_node. cbn [get_c attrs_of].
    split; [apply wrap_attr; auto; rewrite A; constructor|].
    split; [|cbn [c_logical c_alias c_doc wrap_attrs]; repeat split; repeat constructor].
    intros k0 [<-|[]]. cbn. intuition discriminate.
  - intros c fs fs' X. exact X.
  - intros p d e F _. destruct p; unfold hive_prim; cbv beta iota zeta;
    first [apply (fine_attr _ PNone [] d e F); [reflexivity|..]; [constructor|apply dwf_nil|intros k []|cbn; repeat constructor|reflexivity]
      | match goal with |- attr_node ?t => match t with context [mkC ?l PNone d (?x ++ e)] =>
      apply (fine_attr t l x d e F eq_refl);
        [constructor
        |split; [cbn; repeat constructor; cbn; intuition discriminate|repeat (apply Forall_cons; [constructor|]); apply Forall_nil]
        |cbn; intros k; intuition (subst; try discriminate)|cbn; repeat constructor|reflexivity] end end].
  - intros p s d e F _. apply (fine_attr _ (PStr "build.recap.Decimal") [("precision", PInt p); ("scale", PInt s)] d e F);
      [reflexivity|constructor| |cbn; intros k; intuition (subst; try discriminate)|cbn; repeat constructor|reflexivity].
    split; cbn; repeat constructor; cbn; intuition discriminate.
  - intros n d e F _. apply (fine_attr _ PNone [] d e F); [reflexivity|constructor|apply dwf_nil|intros k []|cbn; repeat constructor|reflexivity].
  - intros n d e F _. apply (fine_attr _ PNone [] d e F); [reflexivity|constructor|apply dwf_nil|intros k []|cbn; repeat constructor|reflexivity].
  - intros hk hv _. split; auto. split; auto. intros d e k v F.
    apply (fine_attr _ PNone [] d e F); [reflexivity|constructor|apply dwf_nil|intros ? []|cbn; repeat constructor|reflexivity].
  - intros h _. split; auto. intros d e v F.
    apply (fine_attr _ PNone [] d e F); [reflexivity|constructor|apply dwf_nil|intros ? []|cbn; repeat constructor|reflexivity].
  - intros hs _. split; [apply Forall_forall; auto|]. intros d e ts F.
    apply (fine_attr _ PNone [("default", PNone)] d e F);
      [reflexivity|constructor| |cbn; intros k; intuition (subst; try discriminate)|cbn; repeat constructor|reflexivity].
    split; cbn; repeat constructor; cbn; intuition discriminate.
  - intros ns hs _. split; [apply Forall_forall; auto|]. intros d e fs F.
    apply (fine_attr _ PNone [] d e F); [reflexivity|constructor|apply dwf_nil|intros ? []|cbn; repeat constructor|reflexivity].
Qed.

Theorem hive_documented : forall name cols t, Forall (fun c => hive_sizes (hc_type c)) cols ->
  hive_to_recap name cols = Ok t ->
  exists d, to_dict false false t = Ok d /\ forall R, from_dict d R = (R, Ok t).
Proof.
  intros name cols t S H. unfold hive_to_recap in H.
  destruct (rmap hive_column cols) as [fs|] eqn:E; cbn [rbind] in H; [|discriminate].
  injection H; intros; subst t. clear H.
  assert (F2 : Forall2 (fun c f => hive_column c = Ok f) cols fs) by (eapply rmap_forall2; [|exact E]; auto).
  apply documented.
  - apply every_iff. split.
    + apply (fine_attr _ PNone [] PNone [("name", PStr name)]);
        [split; [left; reflexivity|right; eauto]|reflexivity|constructor|apply dwf_nil|intros k []|constructor|reflexivity].
    + cbn [children]. clear E S. induction F2; constructor; auto.
      eapply hive_attrs; [apply column_fine|exact H].
  - apply tree_iff. split; [exact I|]. cbn [children]. clear E. induction F2; constructor; inversion S; subst; auto.
    eapply hive_limits; eauto.
Qed.
