(** Registry effect of from_dict and of histories of register_alias (proofs only). *)
From Coq Require Import String Ascii List ZArith QArith Bool Lia.
From Verif Require Import PyVal PyValFacts RType Regex RegexFacts Registry FromDict ToDict
  FromDictFacts RoundTrip SpecTypes.
Import ListNotations.
Open Scope nat_scope.
Open Scope string_scope.
Open Scope list_scope.

(** ** Nodes *)
Lemma nodes_children P t : nodes P t -> Forall (nodes P) (children t).
Proof.
  destruct t; simpl; intros H; try (constructor; fail); try (destruct H as [_ H]).
  - constructor; auto.
  - destruct H. repeat constructor; auto.
  - now apply nodes_list.
  - now apply nodes_list.
Qed.

Lemma nodes_node_of P s t : node_of s t -> nodes P t -> nodes P s.
Proof.
  induction 1 as [|t c Hc H IH]; auto. intros N. apply IH.
  apply nodes_children in N. rewrite Forall_forall in N. auto.
Qed.

Lemma validate_bits_spec b : validate_bits b = Ok tt -> between b 1 2147483647.
Proof.
  unfold validate_bits, py_lt_z, py_gt_z, between. destruct (num_of b) as [q|]; simpl; [|discriminate].
  destruct (Qle_bool _ q) eqn:E1; simpl; [|discriminate].
  destruct (Qle_bool q _) eqn:E2; simpl; [|discriminate].
  intros _. exists q. rewrite Qle_bool_iff in E1, E2. auto.
Qed.

Lemma validate_len_spec l v : validate_len l v = Ok tt -> length_ok l v.
Proof.
  unfold validate_len, py_lt_z, py_gt_z, length_ok, between.
  destruct (is_none l) eqn:En.
  - apply is_none_true in En. subst l. destruct (truthy v) eqn:E; simpl; [auto|discriminate].
  - rewrite andb_false_r. destruct (num_of l) as [q|]; simpl; [|discriminate].
    destruct (Qle_bool _ q) eqn:E1; simpl; [|discriminate].
    destruct (Qle_bool q _) eqn:E2; simpl; [|discriminate].
    intros _. right. exists q. rewrite Qle_bool_iff in E1, E2. auto.
Qed.

Lemma validate_limits t : validate t = Ok tt -> within_limits t.
Proof.
  destruct t; simpl; auto using validate_bits_spec, validate_len_spec.
  intros H. apply rbind_Ok in H as ([] & H & _). auto using validate_len_spec.
Qed.

Theorem from_dict_limits j R R' t s :
  pwf j -> from_dict j R = (R', Ok t) -> node_of s t -> within_limits s.
Proof.
  intros W H Hs. destruct (from_dict_okA _ _ _ _ W H) as [Wt _].
  apply (nodes_node_of _ _ _ Hs) in Wt. apply nodes_here in Wt.
  destruct Wt as (_ & _ & _ & _ & _ & _ & _ & V & _). now apply validate_limits.
Qed.

(** ** Registration *)
Lemma forget_freeze R t : forget (freeze R t) = forget t.
Proof.
  induction t using rtype_ind'; simpl; try congruence.
  - f_equal. rewrite map_map. apply map_ext_Forall. exact H.
  - f_equal. rewrite map_map. apply map_ext_Forall. exact H.
  - destruct r; reflexivity.
Qed.

Lemma forget_set_c t c : forget (set_c t c) = set_c (forget t) c.
Proof. destruct t; reflexivity. Qed.
Lemma get_c_freeze R t : get_c (freeze R t) = get_c t.
Proof. destruct t; try reflexivity. now destruct reg. Qed.

Lemma forget_stored R t : forget (stored R t) = forget (without_label t).
Proof.
  unfold stored, without_label. rewrite !forget_set_c, forget_freeze, get_c_freeze. reflexivity.
Qed.

Lemma register_alias_spec t R R' :
  register_alias t R = (R', Ok tt) <->
  exists a, c_alias (get_c t) = PStr a /\ ~ In a (dkeys R) /\ dotted_name a /\
            R' = R ++ [(a, stored R t)].
Proof.
  unfold register_alias. split.
  - destruct (c_alias (get_c t)) eqn:E; try discriminate.
    destruct (dmem s R) eqn:Em; [discriminate|]. destruct (re_match alias_regex s) eqn:Er; [|discriminate].
    intros [= <-]. exists s. split; auto. split; [now apply dmem_false|].
    split; auto. now apply alias_regex_spec.
  - intros (a & -> & Hn & Hd & ->). apply dmem_false in Hn. rewrite Hn.
    apply alias_regex_spec in Hd. now rewrite Hd.
Qed.

Lemma register_alias_fail t R R' e : register_alias t R = (R', Err e) -> R' = R.
Proof.
  unfold register_alias. destruct (c_alias (get_c t)); try congruence.
  destruct (dmem s R); try congruence. destruct (re_match alias_regex s); congruence.
Qed.

(** Effect of a successful computation on the registry. *)
Definition eff (P : rtype -> Prop) (R R' : registry) (defs : list pyval) : Prop :=
  exists E, R' = R ++ E /\ map PStr (dkeys E) = defs /\ NoDup (dkeys E) /\
    (forall a, In a (dkeys E) -> ~ In a (dkeys R) /\ dotted_name a) /\
    (forall a e, In (a, e) E ->
       exists s, P s /\ is_proxy s = false /\ c_alias (get_c s) = PStr a /\
                 forget e = forget (without_label s)).

Lemma eff_nil P R : eff P R R [].
Proof.
  exists []. rewrite app_nil_r. split; [auto|]. split; [auto|]. split; [apply NoDup_nil|].
  split; simpl; tauto.
Qed.

Lemma NoDup_app' {A} (l1 l2 : list A) :
  NoDup l1 -> NoDup l2 -> (forall x, In x l2 -> ~ In x l1) -> NoDup (l1 ++ l2).
Proof.
  induction l1 as [|x l IH]; simpl; auto. intros N1 N2 H. inversion N1; subst.
  constructor; auto.
  - rewrite in_app_iff. intros [H0|H0]; auto. apply (H x H0). auto.
  - apply IH; auto. intros y Hy Hy'. apply (H y Hy). auto.
Qed.

Lemma eff_app P R R1 R2 d1 d2 :
  eff P R R1 d1 -> eff P R1 R2 d2 -> eff P R R2 (d1 ++ d2).
Proof.
  intros (E1 & -> & H1 & N1 & D1 & S1) (E2 & -> & H2 & N2 & D2 & S2).
  exists (E1 ++ E2). rewrite app_assoc. split; auto.
  rewrite dkeys_app, map_app, H1, H2. split; auto.
  assert (X : forall a, In a (dkeys E2) -> ~ In a (dkeys R) /\ ~ In a (dkeys E1) /\ dotted_name a).
  { intros a Ha. destruct (D2 a Ha) as [X Y]. rewrite dkeys_app, in_app_iff in X. tauto. }
  split; [|split].
  - apply NoDup_app'; auto. intros x Hx. apply (X x Hx).
  - intros a. rewrite in_app_iff. intros [H|H]; [auto|]. destruct (X a H) as (? & ? & ?). auto.
  - intros a e. rewrite in_app_iff. intros [H|H]; eauto.
Qed.

Lemma eff_impl (P Q : rtype -> Prop) R R' d : (forall s, P s -> Q s) -> eff P R R' d -> eff Q R R' d.
Proof.
  intros I (E & A & B & C & D & S). exists E. repeat (split; auto).
  intros a e H. destruct (S a e H) as (s & ? & ?). eauto.
Qed.

Definition own_alias (t : rtype) : list pyval :=
  match t with
  | TProxy _ _ => []
  | _ => match c_alias (get_c t) with PNone => [] | a => [a] end
  end.

Lemma reg_node_eff t R R' :
  reg_node t R = (R', Ok tt) -> eff (eq t) R R' (own_alias t).
Proof.
  unfold reg_node, own_alias. intros H.
  destruct (is_proxy t) eqn:Ep.
  - rewrite andb_false_r in H. apply ret_Ok in H as [-> _].
    destruct t; try discriminate. apply eff_nil.
  - assert (Eo : match t with TProxy _ _ => [] | _ => match c_alias (get_c t) with PNone => [] | a => [a] end end
               = match c_alias (get_c t) with PNone => [] | a => [a] end) by (destruct t; auto; discriminate).
    rewrite Eo. rewrite andb_true_r in H. destruct (c_alias (get_c t)) eqn:Ea; simpl in H;
      try (apply register_alias_spec in H as (a & Ha & Hn & Hd & ->); rewrite Ea in Ha; try discriminate).
    + apply ret_Ok in H as [-> _]. apply eff_nil.
    + injection Ha as ->. exists [(a, stored R t)]. split; auto. split; auto.
      split; [simpl; constructor; auto; constructor|]. split.
      * simpl. intros b [<-|[]]. auto.
      * simpl. intros b e [[= <- <-]|[]]. exists t. repeat split; auto. apply forget_stored.
Qed.

Lemma defined_app t : defined_aliases t = flat_map defined_aliases (children t) ++ own_alias t.
Proof.
  destruct t; simpl; auto; rewrite ?app_nil_r; auto.
Qed.

Definition okR (t : rtype) : Prop := forall R R',
  reg_tree t R = (R', Ok tt) -> eff (fun s => node_of s t) R R' (defined_aliases t).

Lemma reg_list_eff (Q : rtype -> Prop) l : Forall okR l ->
  (forall t s, In t l -> node_of s t -> Q s) -> forall R R',
  reg_list l R = (R', Ok tt) -> eff Q R R' (flat_map defined_aliases l).
Proof.
  induction 1 as [|t l Ht Hl IH]; intros HQ R R' G; simpl in G.
  - apply ret_Ok in G as [-> _]. apply eff_nil.
  - apply mbind_Ok in G as (R1 & [] & G1 & G2). simpl. eapply eff_app.
    + eapply eff_impl; [|apply Ht; eauto]. intros s. apply HQ. now left.
    + apply IH; auto. intros t' s Ht'. apply HQ. now right.
Qed.

Lemma reg_tree_children t R : reg_tree t R = (_ <- reg_list (children t) ;; reg_node t)%mon R.
Proof.
  destruct t; cbn [reg_tree children]; try reflexivity.
  - simpl. unfold mbind. destruct (reg_tree t R) as [R1 [[]|]]; reflexivity.
  - simpl. unfold mbind. destruct (reg_tree t1 R) as [R1 [[]|]]; auto.
    destruct (reg_tree t2 R1) as [R2 [[]|]]; reflexivity.
Qed.

Lemma node_of_child s t c : In c (children t) -> node_of s c -> node_of s t.
Proof. intros. eapply node_child; eauto. Qed.

Lemma okR_step t : Forall okR (children t) -> okR t.
Proof.
  intros H R R' G. rewrite reg_tree_children in G. apply mbind_Ok in G as (R1 & [] & G1 & G2).
  rewrite defined_app. eapply eff_app.
  - eapply reg_list_eff; eauto. intros. eapply node_child; eauto.
  - eapply eff_impl; [|apply reg_node_eff; eauto]. intros s <-. constructor.
Qed.

Lemma okR_all t : okR t.
Proof. induction t using rtype_ind'; apply okR_step; simpl; auto. Qed.

Theorem from_dict_eff j R R' t :
  pwf j -> from_dict j R = (R', Ok t) -> eff (fun s => node_of s t) R R' (defined_aliases t).
Proof. intros W H. destruct (from_dict_okA _ _ _ _ W H) as [_ G]. now apply okR_all. Qed.

(** ** The registry only grows, also when parsing fails *)
Definition mono {A} (m : M A) : Prop := forall R, exists E, fst (m R) = R ++ E.

Lemma mono_ret {A} (a : A) : mono (ret a).
Proof. intros R. exists []. simpl. now rewrite app_nil_r. Qed.
Lemma mono_fail {A} e : mono (@fail A e).
Proof. intros R. exists []. simpl. now rewrite app_nil_r. Qed.
Lemma mono_lift {A} (r : res A) : mono (lift r).
Proof. intros R. exists []. simpl. now rewrite app_nil_r. Qed.
Lemma mono_bind {A B} (m : M A) (f : A -> M B) : mono m -> (forall a, mono (f a)) -> mono (mbind m f).
Proof.
  intros Hm Hf R. unfold mbind. destruct (Hm R) as [E HE]. destruct (m R) as [R1 [a|e]]; simpl in *.
  - subst R1. destruct (Hf a (R ++ E)) as [E' HE']. exists (E ++ E'). now rewrite app_assoc.
  - eauto.
Qed.
Lemma mono_mmap {A B} (f : A -> M B) l : (forall a, mono (f a)) -> mono (mmap f l).
Proof. intros H. induction l; simpl; auto using mono_ret, mono_bind. Qed.
Lemma mono_register t : mono (register_alias t).
Proof.
  intros R. destruct (register_alias t R) as [R' [[]|e]] eqn:E; simpl.
  - apply register_alias_spec in E as (a & _ & _ & _ & ->). eauto.
  - apply register_alias_fail in E. subst. exists []. now rewrite app_nil_r.
Qed.
Lemma mono_build rec d : (forall x, mono (rec x)) -> mono (build rec d).
Proof.
  intros H. unfold build.
  repeat match goal with
    | |- mono (match ?x with _ => _ end) => destruct x
    end; auto using mono_ret, mono_fail, mono_lift, mono_bind, mono_mmap.
Qed.
Lemma mono_finish t : mono (finish t).
Proof.
  unfold finish. apply mono_bind; auto using mono_lift. intros _.
  destruct (_ && _); auto using mono_ret. apply mono_bind; auto using mono_register, mono_ret.
Qed.
Lemma mono_from_dict_f n j : mono (from_dict_f n j).
Proof.
  revert j. induction n as [|n IH]; intros j; simpl; [apply mono_fail|].
  apply mono_bind; [apply mono_lift|]. intros d.
  destruct (is_none _); [apply mono_fail|].
  apply mono_bind; [apply mono_lift|]. intros d'.
  apply mono_bind; [now apply mono_build|]. intros t. apply mono_finish.
Qed.

(** ** Histories of register_alias *)
Definition call (R : registry) (t : rtype) : registry := fst (register_alias t R).
Definition run (h : list rtype) (R : registry) : registry := fold_left call h R.

Lemma dget_app_old {V} a (R E : list (string * V)) e : dget a R = Some e -> dget a (R ++ E) = Some e.
Proof. intros H. rewrite dget_app. now rewrite H. Qed.

Lemma run_keeps h : forall R a e, dget a R = Some e -> dget a (run h R) = Some e.
Proof.
  induction h as [|t h IH]; intros R a e H; simpl; auto.
  apply IH. unfold call. destruct (mono_register t R) as [E ->]. now apply dget_app_old.
Qed.

Definition names (a : string) (t : rtype) : bool :=
  match c_alias (get_c t) with PStr b => String.eqb a b | _ => false end.

Lemma call_other R t a : names a t = false -> dget a (call R t) = dget a R.
Proof.
  unfold call, names. intros N. destruct (register_alias t R) as [R' [[]|e]] eqn:E; simpl.
  - apply register_alias_spec in E as (b & Hb & _ & _ & ->). rewrite Hb in N.
    rewrite dget_app. simpl. rewrite N. now destruct (dget a R).
  - apply register_alias_fail in E. now subst.
Qed.

Theorem run_spec h : forall R a, dget a R = None ->
  match dget a (run h R) with
  | None => dotted_name a -> find (names a) h = None
  | Some e => dotted_name a /\ exists t, find (names a) h = Some t /\ forget e = forget (without_label t)
  end.
Proof.
  induction h as [|t h IH]; intros R a Ha; simpl.
  - rewrite Ha. auto.
  - destruct (names a t) eqn:En.
    + unfold call. destruct (register_alias t R) as [R' [[]|e]] eqn:E.
      * apply register_alias_spec in E as (b & Hb & Hn & Hd & ->).
        assert (b = a). { unfold names in En. rewrite Hb in En. now apply String.eqb_eq in En. }
        subst b. rewrite (run_keeps h _ a (stored R t)).
        -- split; auto. exists t. split; auto. apply forget_stored.
        -- simpl. rewrite dget_app, Ha. simpl. now rewrite String.eqb_refl.
      * assert (ND : ~ dotted_name a).
        { intros Hd. unfold names in En. destruct (c_alias (get_c t)) eqn:Eb; try discriminate.
          apply String.eqb_eq in En. subst s.
          assert (register_alias t R = (R ++ [(a, stored R t)], Ok tt)); [|congruence].
          apply register_alias_spec. exists a. repeat split; auto. now apply dget_None. }
        apply register_alias_fail in E. subst R'. simpl. specialize (IH R a Ha).
        destruct (dget a (run h R)); [|intros; tauto]. destruct IH as [? _]. tauto.
    + apply IH. now rewrite call_other.
Qed.
