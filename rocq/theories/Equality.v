(** Equality of types is equality of their parts (C11); the built-in types (C81). *)
From Coq Require Import String Ascii List NArith ZArith QArith Bool Lia.
From Verif Require Import PyVal PyValFacts RType Registry FromDict RoundTrip Nullable NullableFacts SpecTypes.
Import ListNotations.
Open Scope nat_scope.
Open Scope string_scope.
Open Scope list_scope.

Lemma number_of v q : number v q <-> num_of v = Some q.
Proof.
  split; [intros []; reflexivity|]. destruct v as [|[]| | | | |]; cbn; intros [= <-]; constructor.
Qed.
Lemma F2_iff {A B} (P Q : A -> B -> Prop) l : (forall x y, In x l -> (P x y <-> Q x y)) -> forall l', Forall2 P l l' <-> Forall2 Q l l'.
Proof.
  induction l as [|x l IH]; intros H l'; (split; intros F; inversion F; subst; constructor); try (apply H; auto; now left);
    (apply IH; [intros; apply H; now right|assumption]).
Qed.
Lemma F2_iff2 {A B} (P Q : A -> B -> Prop) (R : B -> Prop) l : (forall x y, In x l -> R y -> (P x y <-> Q x y)) -> forall l', Forall R l' -> Forall2 P l l' <-> Forall2 Q l l'.
Proof.
  induction l as [|x l IH]; intros H l' FR; (split; intros F; inversion F; subst; inversion FR; subst; constructor); try (apply H; auto; now left);
    (apply IH; [intros; apply H; auto; now right|assumption|assumption]).
Qed.
Lemma py_eq_same a : forall b, pwf a -> pwf b -> (py_eq a b = true <-> val_same a b).
Proof.
  assert (NUM : forall a b x, num_of a = Some x -> (py_eq a b = true <-> val_same a b)).
  { clear a. intros a b x N. rewrite py_eq_num by congruence. rewrite N. split.
    - destruct (num_of b) as [y|] eqn:M; [|discriminate]. intros E. apply Qeq_bool_iff in E. eapply vs_num; eauto; now apply number_of.
    - intros S. inversion S as [|? ? q r N1 N2 E| | |]; subst; try discriminate. apply number_of in N1, N2. rewrite N2.
      assert (x = q) by congruence. subst. now apply Qeq_bool_iff. }
  induction a as [| b | z | q | s | l IH | d IH] using pyval_ind'; intros y Wa Wb.
  - split.
    + intros E. apply py_eq_none_inv in E. subst. constructor.
    + intros S. inversion S as [|? ? q r N _ _| | |]; subst; [reflexivity|inversion N].
  - destruct b; eapply NUM; reflexivity.
  - eapply NUM; reflexivity.
  - eapply NUM; reflexivity.
  - split.
    + destruct y; try discriminate. cbn. intros E. apply String.eqb_eq in E. subst. constructor.
    + intros S. inversion S as [|? ? q r N _ _| | |]; subst; [inversion N|]. cbn. apply String.eqb_refl.
  - inversion Wa as [ | | | | |? Hw|]; subst. destruct y as [| | | | |l'|];
      try (split; [discriminate|intros S; inversion S as [|? ? q' r N _ _| | |]; subst; inversion N]).
    inversion Wb as [ | | | | |? Hw'|]; subst. rewrite py_eq_list, all2_spec.
    assert (E : Forall2 (fun x y => py_eq x y = true) l l' <-> Forall2 val_same l l').
    { apply (F2_iff2 _ _ pwf); auto. intros x y I W. rewrite Forall_forall in IH, Hw. apply IH; auto. }
    rewrite E. split; [now constructor|]. intros S. inversion S as [|? ? q r N _ _| | |]; subst; [inversion N|assumption].
  - inversion Wa as [ | | | | | |? ND Hw]; subst. destruct y as [| | | | | |d'];
      try (split; [discriminate|intros S; inversion S as [|? ? q' r N _ _| | |]; subst; inversion N]).
    inversion Wb as [ | | | | | |? ND' Hw']; subst. rewrite py_eq_dict, andb_true_iff, Nat.eqb_eq.
    rewrite Forall_forall in IH, Hw, Hw'. split.
    + intros [L S]. pose proof (dict_sub_incl _ _ S) as IN.
      assert (IN' : incl (dkeys d') (dkeys d)) by (apply NoDup_length_incl; auto; rewrite !keys_len; lia).
      constructor; [intros k; split; [apply IN|apply IN']|]. intros k v w G G'. unfold dict_sub in S. rewrite forallb_forall in S.
      apply dget_In in G as I. specialize (S (k, v) I). cbn in S. rewrite G' in S. apply (IH (k, v) I w); [exact (Hw (k, v) I)|exact (Hw' (k, w) (dget_In _ _ _ G'))|exact S].
    + intros S. inversion S as [|? ? q r N _ _| | |? ? K V]; subst; [inversion N|]. split.
      * rewrite <- (keys_len d), <- (keys_len d'). apply Nat.le_antisymm; apply NoDup_incl_length; auto; intros k I; now apply K.
      * unfold dict_sub. apply forallb_forall. intros [k v] I. cbn [fst snd]. assert (G : dget k d = Some v) by (apply In_dget; auto).
        assert (I' : In k (dkeys d')) by (apply K; exact (List.in_map fst _ _ I)). apply in_map_iff in I' as ([k' w] & E & I'). cbn in E. subst k'.
        rewrite (In_dget k w d') by auto. apply (IH (k, v) I w); [exact (Hw _ I)|exact (Hw' _ I')|]. eapply V; eauto. now apply In_dget.
Qed.
Lemma c_eq_same c c' : cwf c -> cwf c' -> (c_eq c c' = true <-> common_same c c').
Proof.
  intros (A & B & C & D) (A' & B' & C' & D'). apply dwf_pwf in D, D'. unfold c_eq, dict_eq, common_same.
  rewrite !andb_true_iff, !py_eq_same by auto. tauto.
Qed.
Lemma params_attrs t : params t = attrs_of t. Proof. destruct t; reflexivity. Qed.

(** One step of equality. *)
Definition same_step (t u : rtype) : Prop :=
  type_name t = type_name u /\ c_eq (get_c t) (get_c u) = true /\
  all2 py_eq (params t) (params u) = true /\ all2 rt_eq (children t) (children u) = true.
Lemma rt_eq_step t u : rt_eq t u = true <-> same_step t u.
Proof.
  unfold same_step. destruct t, u; try (split; [discriminate|intros [E _]; discriminate E]);
    try rewrite rt_eq_struct; try rewrite rt_eq_union; cbn [rt_eq type_name get_c params children all2];
    rewrite ?andb_true_iff, ?andb_true_r; tauto.
Qed.
Lemma rt_eq_same t : forall u, awf t -> awf u -> (rt_eq t u = true <-> type_same t u).
Proof.
  assert (X : forall t u, awf t -> awf u ->
    (forall x y, In x (children t) -> awf x -> awf y -> (rt_eq x y = true <-> type_same x y)) -> (rt_eq t u = true <-> type_same t u)).
  { clear t. intros t u Wt Wu H. apply awf_inv in Wt as [[Ct At] Kt], Wu as [[Cu Au] Ku]. rewrite <- params_attrs in At, Au.
    rewrite rt_eq_step. unfold same_step. rewrite c_eq_same by auto. rewrite !all2_spec.
    rewrite (F2_iff2 _ val_same pwf (params t)); auto.
    2:{ intros x y I W. apply py_eq_same; auto. rewrite Forall_forall in At. auto. }
    rewrite (F2_iff2 _ type_same awf (children t)); auto.
    2:{ intros x y I W. apply H; auto. rewrite Forall_forall in Kt. auto. }
    split; [intros (A & B & C & D); now constructor|intros []; auto]. }
  induction t as [c|c|c b s|c b|c b v|c b v|c v l va IH|c k v IHk IHv|c fs IH|c s|c ts IH|c r] using rtype_ind';
    intros u Wt Wu; apply X; auto; intros x y I; cbn [children] in I; try (destruct I; fail).
  - destruct I as [<-|[]]; auto.
  - destruct I as [<-|[<-|[]]]; auto.
  - rewrite Forall_forall in IH. auto.
  - rewrite Forall_forall in IH. auto.
Qed.

Lemma builtin_widths a t : In (a, t) builtin_aliases -> a <> "uuid" -> ~ In a ["string32"; "bytes32"] ->
  has_width t (width a) /\ has_kind a t.
Proof.
  intros I U S. cbn [builtin_aliases In] in I.
  repeat (destruct I as [[= <- <-]|I];
    [try (exfalso; apply U; reflexivity); try (exfalso; apply S; cbn; tauto);
     (split; [vm_compute; reflexivity|]); repeat split; intros; try discriminate; eauto|]).
  destruct I.
Qed.
