(** Facts about resolve and about the shape of parsed types (proofs only). *)
From Coq Require Import String Ascii List ZArith QArith Bool Lia.
From Verif Require Import PyVal PyValFacts RType Regex Registry FromDict FromDictFacts RoundTrip
  SpecTypes RegexFacts RegistryFacts Nullable NullableFacts.
Import ListNotations.
Open Scope nat_scope.
Open Scope string_scope.
Open Scope list_scope.

(** ** resolve *)
Lemma data_not_opaque t k : data_name k -> opaque_attr t k = false.
Proof.
  intros [H P]. unfold opaque_attr. rewrite P.
  assert (N : forall s, In s not_data -> String.eqb k s = false).
  { intros s Hs. apply eqb_neq_s. intros ->. auto. }
  unfold str_in. simpl existsb. rewrite !N by (simpl; tauto). simpl.
  destruct t; simpl; rewrite ?N by (simpl; tauto); auto.
Qed.

Lemma set_attr_spec t k v : data_name k ->
  exists u, set_attr t k v = Ok u /\ same_shape t u /\
    forall k', k' <> "extra_attrs" -> attribute u k' = if String.eqb k' k then Some v else attribute t k'.
Proof.
  intros D. unfold set_attr. rewrite data_not_opaque by auto.
  assert (NE : String.eqb k "extra_attrs" = false).
  { apply eqb_neq_s. intros ->. apply (proj1 D). simpl; tauto. }
  rewrite NE.
  assert (Q : forall a b : string, a <> b -> String.eqb a b = false) by (intros; now apply eqb_neq_s).
  destruct (String.eqb_spec k "logical"); [|destruct (String.eqb_spec k "alias"); [|destruct (String.eqb_spec k "doc")]].
  1-3: subst; eexists; split; [reflexivity|]; split; [destruct t; split; reflexivity|];
    intros k' _; unfold attribute;
    match goal with |- context [String.eqb k' "logical"] => destruct (String.eqb_spec k' "logical") end;
    try (subst; destruct t; reflexivity);
    destruct (String.eqb_spec k' "alias"); try (subst; destruct t; reflexivity);
    destruct (String.eqb_spec k' "doc"); try (subst; destruct t; reflexivity);
    destruct t; reflexivity.
  assert (G : forall k' d, dget k' (dset k v d) = if String.eqb k' k then Some v else dget k' d)
    by (intros; apply dget_dset).
  destruct t; simpl;
    repeat match goal with
    | |- context [if String.eqb k ?s then _ else _] => destruct (String.eqb_spec k s); [subst k|]
    end;
    (eexists; split; [reflexivity|]; split; [split; reflexivity|]; intros k' NX; unfold attribute; simpl;
     rewrite ?G;
     repeat match goal with
     | |- context [String.eqb k' ?s] => destruct (String.eqb_spec k' s); subst; try congruence
     end; rewrite ?Q by congruence; auto).
Qed.

Lemma same_shape_trans a b c : same_shape a b -> same_shape b c -> same_shape a c.
Proof. unfold same_shape. intros [-> ->]. auto. Qed.

Lemma set_attrs_spec e : forall t, NoDup (dkeys e) -> (forall k, In k (dkeys e) -> data_name k) ->
  exists u, set_attrs t e = Ok u /\ same_shape t u /\
    forall k, k <> "extra_attrs" ->
      attribute u k = match dget k e with Some v => Some v | None => attribute t k end.
Proof.
  induction e as [|[k v] e IH]; intros t ND D; simpl.
  - exists t. repeat split; auto.
  - inversion ND as [|? ? Hni ND']; subst. simpl in D.
    destruct (set_attr_spec t k v) as (t1 & E1 & S1 & A1); [auto|].
    destruct (IH t1) as (u & E & S & A); auto.
    rewrite E1. simpl. exists u. split; auto. split; [eapply same_shape_trans; eauto|].
    intros k' NX. rewrite A, A1 by auto.
    destruct (String.eqb_spec k' k) as [->|]; auto.
    destruct (dget k e) eqn:Eg; auto. apply dget_In_key in Eg. now elim Hni.
Qed.

Lemma forget_children R l : map forget (map (freeze R) l) = map forget l.
Proof. rewrite map_map. apply map_ext. intros. apply forget_freeze. Qed.

Lemma freeze_same_shape R t : same_shape t (freeze R t).
Proof.
  destruct t; simpl; unfold same_shape; simpl; rewrite ?forget_freeze, ?forget_children; auto.
  destruct reg; auto.
Qed.

Lemma attribute_freeze R t k : attribute (freeze R t) k = attribute t k.
Proof. destruct t; try destruct reg; reflexivity. Qed.

Lemma stored_shape R t : same_shape t (stored R t).
Proof.
  unfold stored. eapply same_shape_trans; [apply (freeze_same_shape R)|].
  destruct (freeze R t); split; reflexivity.
Qed.

Lemma attribute_stored R t k : k <> "alias" -> k <> "doc" -> k <> "default" ->
  attribute (stored R t) k = attribute t k.
Proof.
  intros N1 N2 N3. unfold stored. rewrite get_c_freeze. rewrite <- (attribute_freeze R t k).
  assert (G : dget k (ddel "default" (c_extra (get_c t))) = dget k (c_extra (get_c t))).
  { rewrite dget_ddel, eqb_neq_s; auto. }
  unfold attribute. rewrite (eqb_neq_s k "alias"), (eqb_neq_s k "doc") by auto.
  destruct t; simpl in *; try destruct reg; simpl; rewrite ?G; auto.
Qed.

Lemma attribute_stored_alias R t : attribute (stored R t) "alias" = Some PNone.
Proof. unfold stored. destruct (freeze R t); reflexivity. Qed.
Lemma attribute_stored_doc R t : attribute (stored R t) "doc" = Some PNone.
Proof. unfold stored. destruct (freeze R t); reflexivity. Qed.
Lemma attribute_stored_default R t : attribute (stored R t) "default" = None.
Proof.
  unfold stored.
  assert (G : dget "default" (ddel "default" (c_extra (get_c (freeze R t)))) = None) by (rewrite dget_ddel; auto).
  unfold attribute. destruct (freeze R t); simpl in *; auto.
Qed.

(** What a reference resolves to after its target was registered at any earlier time. *)
Lemma resolve_spec t R R1 E c a :
  register_alias t R = (R1, Ok tt) -> c_alias (get_c t) = PStr a ->
  c_alias c = PStr a -> NoDup (dkeys (c_extra c)) ->
  (forall k, In k (dkeys (c_extra c)) -> data_name k) ->
  exists u, resolve (R1 ++ E) (TProxy c None) = Ok u /\ same_shape t u /\
    forall k, k <> "extra_attrs" ->
      attribute u k =
        match dget k (c_extra c) with
        | Some v => Some v
        | None => if String.eqb k "alias" then Some PNone else if String.eqb k "doc" then Some PNone
                  else if String.eqb k "default" then None else attribute t k
        end.
Proof.
  intros H Ha Hc ND D. apply register_alias_spec in H as (b & Hb & Hn & _ & ->).
  rewrite Ha in Hb. injection Hb as <-.
  simpl. rewrite Hc. unfold from_alias.
  assert (G : dget a ((R ++ [(a, stored R t)]) ++ E) = Some (stored R t)).
  { rewrite !dget_app. apply dget_None in Hn. rewrite Hn. simpl. now rewrite String.eqb_refl. }
  rewrite G. simpl rbind.
  destruct (set_attrs_spec (c_extra c) (freeze ((R ++ [(a, stored R t)]) ++ E) (stored R t)) ND D)
    as (u & Eu & Su & Au).
  exists u. split; auto. split.
  - eapply same_shape_trans; [apply (stored_shape R)|]. eapply same_shape_trans; [|exact Su].
    apply freeze_same_shape.
  - intros k NX. rewrite Au by auto. destruct (dget k (c_extra c)); auto.
    rewrite attribute_freeze.
    destruct (String.eqb_spec k "alias") as [->|]; [apply attribute_stored_alias|].
    destruct (String.eqb_spec k "doc") as [->|]; [apply attribute_stored_doc|].
    destruct (String.eqb_spec k "default") as [->|]; [apply attribute_stored_default|].
    now apply attribute_stored.
Qed.

(** ** Unfolding a recursive type *)
Lemma freeze_proxies R t c r : node_of (TProxy c r) (freeze R t) ->
  r = Some R \/ exists r0, r = Some r0 /\ node_of (TProxy c (Some r0)) t.
Proof.
  assert (L : forall ts, Forall (fun t => node_of (TProxy c r) (freeze R t) ->
     r = Some R \/ exists r0, r = Some r0 /\ node_of (TProxy c (Some r0)) t) ts ->
     forall x, In x (map (freeze R) ts) -> node_of (TProxy c r) x ->
     r = Some R \/ exists r0 y, r = Some r0 /\ In y ts /\ node_of (TProxy c (Some r0)) y).
  { intros ts F x Hx Hn. apply in_map_iff in Hx as (y & <- & Hy).
    rewrite Forall_forall in F. destruct (F y Hy Hn) as [|(r0 & E & N)]; [now left|].
    right. exists r0, y. auto. }
  assert (S : forall (ts : list rtype) (x : rtype), children x = ts ->
     (r = Some R \/ exists r0 y, r = Some r0 /\ In y ts /\ node_of (TProxy c (Some r0)) y) ->
     r = Some R \/ exists r0, r = Some r0 /\ node_of (TProxy c (Some r0)) x).
  { intros ts x <- [|(r0 & y & E & Hy & N)]; [now left|]. right. exists r0. split; auto.
    eapply node_child; eauto. }
  induction t using rtype_ind'; simpl; intros HH;
    try (inversion HH; subst; simpl in *; tauto).
  - inversion HH as [|? x Hx Hn]; subst. eapply (S [t]); [reflexivity|].
    eapply (L [t]); eauto.
  - inversion HH as [|? x Hx Hn]; subst. eapply (S [t1; t2]); [reflexivity|].
    eapply (L [t1; t2]); eauto.
  - inversion HH as [|? x Hx Hn]; subst. eapply (S fs); [reflexivity|]. eapply L; eauto.
  - inversion HH as [|? x Hx Hn]; subst. eapply (S ts); [reflexivity|]. eapply L; eauto.
  - destruct r0 as [r0|].
    + inversion HH; subst; [|simpl in *; tauto]. right. exists r0. split; auto; constructor.
    + inversion HH; subst; [|simpl in *; tauto]. now left.
Qed.

Lemma node_of_set_c s t c : is_proxy t = false -> is_proxy s = true -> node_of s (set_c t c) -> node_of s t.
Proof.
  intros Pt Ps H. inversion H; subst.
  - destruct t; discriminate.
  - eapply node_child; [|eauto]. destruct t; auto.
Qed.

(** No reference inside a freshly parsed type points to a private registry. *)
Lemma twf_live t c r : twf t -> node_of (TProxy c r) t -> r = None.
Proof.
  intros W N. apply (nodes_node_of _ _ _ N) in W. apply nodes_here in W.
  destruct W as (_ & _ & _ & _ & _ & _ & _ & _ & H & _). exact H.
Qed.

Lemma children_set_c t c : children (set_c t c) = children t.
Proof. destruct t; reflexivity. Qed.

Lemma set_attr_children t k v u : set_attr t k v = Ok u -> children u = children t.
Proof.
  unfold set_attr. destruct (opaque_attr t k); [discriminate|].
  repeat match goal with
  | |- (if ?b then _ else _) = _ -> _ => destruct b
  end; try (intros [= <-]; apply children_set_c).
  - destruct v; try discriminate. intros [= <-]. apply children_set_c.
  - destruct t; repeat match goal with
    | |- (if ?b then _ else _) = _ -> _ => destruct b
    end; intros [= <-]; reflexivity.
Qed.
Lemma set_attrs_children e : forall t u, set_attrs t e = Ok u -> children u = children t.
Proof.
  induction e as [|[k v] e IH]; simpl; intros t u H.
  - congruence.
  - apply rbind_Ok in H as (t1 & H1 & H2). apply set_attr_children in H1. rewrite <- H1. eauto.
Qed.

Lemma children_freeze R t : children (freeze R t) = map (freeze R) (children t).
Proof. destruct t; try destruct reg; reflexivity. Qed.

Lemma freeze_freeze R R' t : freeze R' (freeze R t) = freeze R t.
Proof.
  induction t using rtype_ind'; simpl; try congruence.
  - f_equal. rewrite map_map. apply map_ext_in. rewrite Forall_forall in H. auto.
  - f_equal. rewrite map_map. apply map_ext_in. rewrite Forall_forall in H. auto.
  - destruct r; reflexivity.
Qed.

(** A reference back to the alias inside a resolved type never resolves again: it
    points to the registry as it was before the alias was added. *)
Lemma second_unfolding t R R1 E a c u c2 r2 x :
  twf t -> register_alias t R = (R1, Ok tt) -> c_alias (get_c t) = PStr a ->
  c_alias c = PStr a -> resolve (R1 ++ E) (TProxy c None) = Ok u ->
  In x (children u) -> node_of (TProxy c2 r2) x -> c_alias c2 = PStr a ->
  forall Rlive, resolve Rlive (TProxy c2 r2) = Err TypeError.
Proof.
  intros W H Ha Hc HR Hx HN Hc2 Rl. apply register_alias_spec in H as (b & Hb & Hn & _ & ->).
  rewrite Ha in Hb. injection Hb as <-.
  simpl in HR. rewrite Hc in HR. unfold from_alias in HR.
  assert (G : dget a ((R ++ [(a, stored R t)]) ++ E) = Some (stored R t)).
  { rewrite !dget_app. apply dget_None in Hn. rewrite Hn. simpl. now rewrite String.eqb_refl. }
  rewrite G in HR. simpl in HR. apply set_attrs_children in HR. rewrite HR in Hx.
  rewrite children_freeze in Hx. apply in_map_iff in Hx as (y & <- & Hy).
  unfold stored in Hy. rewrite children_set_c, children_freeze in Hy.
  apply in_map_iff in Hy as (z & <- & Hz). rewrite freeze_freeze in HN.
  assert (r2 = Some R) as ->.
  { apply freeze_proxies in HN as [->|(r0 & _ & HN)]; auto.
    assert (HT : node_of (TProxy c2 (Some r0)) t) by (eapply node_child; eauto).
    apply (twf_live t) in HT; [discriminate|auto]. }
  simpl. rewrite Hc2. unfold from_alias. apply dget_None in Hn. now rewrite Hn.
Qed.

(** ** Fields and members are kept in order *)
Definition parses (x : pyval) (t : rtype) : Prop := exists R R', from_dict x R = (R', Ok t).

Lemma mmap_parses l : forall R R' ts, mmap from_dict l R = (R', Ok ts) -> Forall2 parses l ts.
Proof.
  induction l as [|x l IH]; intros R R' ts H.
  - apply mmap_nil_Ok in H as [_ ->]. constructor.
  - apply mmap_Ok_cons in H as (R1 & y & ys & H1 & H2 & ->). constructor; eauto.
    exists R, R1. auto.
Qed.

Lemma kwarg_ddel k k' dv d : k <> k' -> kwarg k dv (ddel k' d) = kwarg k dv d.
Proof. intros N. unfold kwarg. now rewrite dget_ddel, eqb_neq_s. Qed.

Lemma bind_extra taken d c k : bind_common taken d = Ok c ->
  k <> "logical" -> k <> "alias" -> k <> "doc" -> dget k (c_extra c) = dget k d.
Proof.
  intros H N1 N2 N3. apply bind_common_inv in H as [_ ->]. simpl.
  rewrite !dget_ddel, !eqb_neq_s; auto.
Qed.

Lemma rename_other k d : k <> "bytes" -> k <> "bytes_" -> dget k (rename_bytes d) = dget k d.
Proof.
  intros N1 N2. unfold rename_bytes. destruct (dget "bytes" d); auto.
  rewrite dget_dset, dget_ddel, !eqb_neq_s; auto.
Qed.

(** Attributes that from_dict never interprets below the optional shorthand. *)
Lemma built_extra rec d R R' t k : built rec d R R' t ->
  k = "name" \/ k = "default" -> dget k (c_extra (get_c t)) = dget k d.
Proof.
  intros H K. destruct H; simpl;
    match goal with HB : bind_common _ _ = Ok _ |- _ =>
      rewrite (bind_extra _ _ _ _ HB) by (destruct K; subst; discriminate) end;
    rewrite ?dget_ddel; rewrite ?rename_other by (destruct K; subst; discriminate);
    rewrite ?dget_ddel; destruct K; subst; reflexivity.
Qed.

Lemma from_dict_name d R R' t : from_dict (PDict d) R = (R', Ok t) ->
  kwarg "name" PNone (c_extra (get_c t)) = kwarg "name" PNone d.
Proof.
  intros H. apply from_dict_inv in H as [d0 d' R1 E0 _ Ed B _ _]. injection E0 as <-.
  unfold kwarg at 1. rewrite (built_extra _ _ _ _ _ _ B (or_introl eq_refl)).
  change (kwarg "name" PNone d' = kwarg "name" PNone d).
  apply desugar_inv in Ed as [[_ ->]|(v & nm & df & e & _ & _ & Enm & _ & H)].
  - now apply kwarg_ddel.
  - simpl in H. destruct H as [-> H]. unfold kwarg at 1. rewrite dget_dset. simpl.
    destruct (is_none nm) eqn:EN.
    + apply is_none_true in EN. rewrite <- Enm, EN.
      assert (dget "name" e = None) as ->; auto.
      destruct H as [[_ ->]|[_ (tys & _ & [[_ ->]|(l & _ & _ & ->)])]]; auto.
      * rewrite !dget_ddel. reflexivity.
      * rewrite dget_dset, !dget_ddel. reflexivity.
    + rewrite dget_dset. simpl. auto.
Qed.

Definition not_optional (d : list (string * pyval)) : Prop :=
  match dget "optional" d with Some v => truthy v = false | None => True end.

Lemma desugar_plain d d' : not_optional d -> desugar d = Ok d' -> d' = ddel "optional" d.
Proof.
  unfold not_optional, desugar. intros H E. destruct (dget "optional" d).
  - rewrite H in E. simpl in E. congruence.
  - simpl in E. congruence.
Qed.

Lemma struct_fields d l R R' t :
  not_optional d -> dget "type" d = Some (PStr "struct") -> dget "fields" d = Some (PList l) ->
  from_dict (PDict d) R = (R', Ok t) -> exists c fs, t = TStruct c fs /\ Forall2 parses l fs.
Proof.
  intros NO ET EF H. apply from_dict_inv in H as [d0 d' R1 E0 _ Ed B _ _]. injection E0 as <-.
  apply desugar_plain in Ed; auto. subst d'.
  destruct B; unfold tn in *;
    repeat match goal with Ht : dget "type" (ddel "optional" d) = _ |- _ =>
      rewrite dget_ddel in Ht; simpl in Ht; rewrite ET in Ht; try discriminate Ht; injection Ht as ? end; subst.
  - unfold kwarg in H0. rewrite !dget_ddel in H0. simpl in H0. rewrite EF in H0. injection H0 as <-.
    exists c, fs. split; auto. eapply mmap_parses; eauto.
  - elim H0. simpl. tauto.
Qed.

Lemma filter_docs l : forallb is_doc l = true -> filter is_doc l = l.
Proof.
  induction l as [|x l IH]; simpl in *; auto. intros E. apply andb_true_iff in E as [-> E].
  f_equal. auto.
Qed.

Lemma union_members d l R R' t :
  not_optional d ->
  (dget "type" d = Some (PStr "union") /\ dget "types" d = Some (PList l))
  \/ (dget "type" d = Some (PList l) /\ forallb is_doc l = true) ->
  from_dict (PDict d) R = (R', Ok t) -> exists c ts, t = TUnion c ts /\ Forall2 parses l ts.
Proof.
  intros NO ET H. apply from_dict_inv in H as [d0 d' R1 E0 _ Ed B _ _]. injection E0 as <-.
  apply desugar_plain in Ed; auto. subst d'.
  destruct ET as [[ET EF]|[ET EF]]; destruct B; unfold tn in *;
    repeat match goal with Ht : dget "type" (ddel "optional" d) = _ |- _ =>
      rewrite dget_ddel in Ht; simpl in Ht; rewrite ET in Ht; try discriminate Ht; injection Ht as ? end; subst.
  - rewrite !dget_ddel in H0. simpl in H0. rewrite EF in H0. injection H0 as <-.
    simpl in H1. injection H1 as <-. exists c, ts. split; auto. eapply mmap_parses; eauto.
  - elim H0. simpl. tauto.
  - exists c, ts. split; auto.
    rewrite filter_docs in H0 by auto. eapply mmap_parses; eauto.
Qed.

Lemma list_members l R R' t : from_dict (PList l) R = (R', Ok t) ->
  exists c ts, t = TUnion c ts /\ Forall2 parses l ts.
Proof.
  intros H. apply from_dict_inv in H as [d0 d' R1 E0 _ Ed B _ _]. injection E0 as <-.
  injection Ed as <-. destruct B; unfold tn in *;
    repeat match goal with Ht : dget "type" _ = _ |- _ => simpl in Ht; try discriminate Ht end.
  - injection H0 as <-. simpl in H1. injection H1 as <-. exists c, ts. split; auto. eapply mmap_parses; eauto.
  - injection H as <-. elim H0. simpl. tauto.
Qed.

(** The optional shorthand. *)
Lemma optional_shorthand d v R R' t :
  dget "optional" d = Some v -> truthy v = true -> kwarg "type" PNone d <> PStr "union" ->
  from_dict (PDict d) R = (R', Ok t) ->
  exists c n u, t = TUnion c [n; u] /\ n = TNull c0 /\
    from_dict (PDict (ddel "default" (ddel "name" (ddel "optional" d)))) R = (R', Ok u) /\
    c_alias c = PNone /\ c_logical c = PNone /\ c_doc c = PNone /\
    dget "default" (c_extra c) = Some (kwarg "default" PNone d) /\
    kwarg "name" PNone (c_extra c) = kwarg "name" PNone d /\
    (forall k, In k (dkeys (c_extra c)) -> k = "default" \/ k = "name").
Proof.
  intros EO TR NU H. pose proof (from_dict_name _ _ _ _ H) as HN.
  apply from_dict_inv in H as [d0 d' R1 E0 _ Ed B V A]. injection E0 as <-.
  apply desugar_inv in Ed as [[E _]|(v' & nm & df & e & _ & _ & Enm & Edf & H)].
  { rewrite EO, TR in E. discriminate. }
  simpl in H. destruct H as [Ed' [[_ Ee]|[E _]]]; [|now elim NU].
  assert (ET : dget "type" d' = Some (PStr "union")).
  { rewrite Ed', dget_dset. simpl. destruct (is_none nm); [|rewrite dget_dset; simpl]; rewrite Ee; reflexivity. }
  assert (EY : dget "types" d' = Some (PList [PStr "null"; PDict (ddel "default" (ddel "name" (ddel "optional" d)))])).
  { rewrite Ed', dget_dset. simpl. destruct (is_none nm); [|rewrite dget_dset; simpl]; rewrite Ee; reflexivity. }
  assert (ED : dget "default" d' = Some df) by (rewrite Ed', dget_dset; reflexivity).
  assert (KD : forall k, In k (dkeys d') -> In k ["type"; "types"; "name"; "default"]).
  { intros k Hk. rewrite Ed' in Hk. apply dset_keys in Hk as [Hk| ->]; [|simpl; tauto].
    destruct (is_none nm); [|apply dset_keys in Hk as [Hk| ->]; [|simpl; tauto]]; rewrite Ee in Hk; simpl in *; tauto. }
  assert (G : forall k, k = "default" \/ k = "name" -> dget k (c_extra (get_c t)) = dget k d').
  { intros k K. eapply built_extra; eauto. tauto. }
  destruct B as [| | | | | | | | | | |? ? c vv l ts T1 T2 T3 T4 T5|? ? ? T1 HW]; unfold tn in *;
    try (match goal with Ht : dget "type" d' = _ |- _ => rewrite ET in Ht; discriminate Ht end).
  2:{ rewrite ET in T1. injection T1 as <-. elim HW. simpl. tauto. }
  rewrite dget_ddel in T2. simpl in T2. rewrite EY in T2. injection T2 as <-.
  simpl in T3. injection T3 as <-.
  apply mmap_Ok_cons in T4 as (R2 & n & ys & T6 & T4 & ->).
  apply mmap_Ok_cons in T4 as (R3 & u & ys' & T7 & T4 & ->).
  apply mmap_nil_Ok in T4 as [T4 ->]. subst R3.
  cbn [from_dict psize from_dict_f] in T6.
  injection T6 as <- <-.
  assert (CA : c_alias c = PNone /\ c_logical c = PNone /\ c_doc c = PNone).
  { apply bind_common_inv in T5 as [_ ->]. simpl.
    assert (KK : forall k, ~ In k ["type"; "types"; "name"; "default"] -> dget k (ddel "types" (ddel "type" d')) = None).
    { intros k Hk. apply dget_None. rewrite !ddel_keys. intros [[Hk' _] _]. apply KD in Hk'. tauto. }
    unfold kwarg. rewrite !KK by (simpl; intuition discriminate). auto. }
  destruct CA as (CA & CL & CD). simpl in A. rewrite CA in A. simpl in A. subst R'.
  exists c, (TNull c0), u. repeat split; auto.
  - simpl in G. rewrite G by auto. rewrite ED. congruence.
  - intros k Hk. apply bind_common_inv in T5 as [_ ->]. simpl in Hk. rewrite !ddel_keys in Hk.
    destruct Hk as [[[[[Hk K1] K2] _] _] _]. apply KD in Hk. simpl in Hk.
    destruct Hk as [<-|[<-|[<-|[<-|[]]]]]; tauto.
Qed.
