(** Facts about Python values and dicts (proofs only). *)
From Coq Require Import String Ascii List ZArith QArith Bool Lia.
From Verif Require Import PyVal.
Import ListNotations.
Open Scope nat_scope.
Open Scope string_scope.
Open Scope list_scope.

Lemma eqb_sym_s (a b : string) : String.eqb a b = String.eqb b a.
Proof. apply String.eqb_sym. Qed.

Lemma eqb_neq_s (a b : string) : a <> b -> String.eqb a b = false.
Proof. intro. now apply String.eqb_neq. Qed.

Section DictFacts.
  Context {V : Type}.
  Implicit Types d e : list (string * V).

  Lemma dget_In k d v : dget k d = Some v -> In (k, v) d.
  Proof.
    induction d as [|[k' v'] d IH]; simpl; [discriminate|].
    destruct (String.eqb_spec k k') as [->|]; intros H.
    - injection H as ->. now left.
    - right; auto.
  Qed.

  Lemma dget_In_key k d v : dget k d = Some v -> In k (dkeys d).
  Proof. intros H%dget_In. change k with (fst (k, v)). now apply in_map. Qed.

  Lemma dget_None k d : dget k d = None <-> ~ In k (dkeys d).
  Proof.
    induction d as [|[k' v'] d IH]; simpl; [tauto|].
    destruct (String.eqb_spec k k') as [->|n].
    - split; [discriminate|intros H; exfalso; auto].
    - rewrite IH. split; intros H; [intros [->|]; auto|auto].
  Qed.

  Lemma In_dget k v d : NoDup (dkeys d) -> In (k, v) d -> dget k d = Some v.
  Proof.
    induction d as [|[k' v'] d IH]; simpl; [tauto|].
    intros ND. inversion ND as [|? ? Hn ND']; subst. intros [[= -> ->]|H].
    - now rewrite String.eqb_refl.
    - destruct (String.eqb_spec k k') as [->|]; [|auto].
      exfalso. apply Hn. change k' with (fst (k', v)). now apply in_map.
  Qed.

  Lemma dmem_true k d : dmem k d = true <-> In k (dkeys d).
  Proof.
    unfold dmem. destruct (dget k d) eqn:E.
    - split; auto. intros _. eapply dget_In_key; eauto.
    - split; [discriminate|]. intros H. now apply dget_None in E.
  Qed.

  Lemma dmem_false k d : dmem k d = false <-> ~ In k (dkeys d).
  Proof. rewrite <- dmem_true. destruct (dmem k d); split; congruence. Qed.

  Lemma dget_dset k k' v d :
    dget k (dset k' v d) = if String.eqb k k' then Some v else dget k d.
  Proof.
    induction d as [|[k2 v2] d IH]; simpl.
    - now destruct (String.eqb k k').
    - destruct (String.eqb_spec k' k2) as [->|n]; simpl.
      + destruct (String.eqb_spec k k2); auto.
      + rewrite IH. destruct (String.eqb_spec k k2) as [->|]; auto.
        rewrite eqb_neq_s; auto.
  Qed.

  Lemma dget_ddel k k' d :
    dget k (ddel k' d) = if String.eqb k k' then None else dget k d.
  Proof.
    induction d as [|[k2 v2] d IH]; simpl.
    - now destruct (String.eqb k k').
    - destruct (String.eqb_spec k' k2) as [->|n]; simpl.
      + rewrite IH. destruct (String.eqb_spec k k2); auto.
      + rewrite IH. destruct (String.eqb_spec k k2) as [->|]; auto.
        rewrite eqb_neq_s; auto.
  Qed.

  Lemma ddel_keys k d x : In x (dkeys (ddel k d)) <-> In x (dkeys d) /\ x <> k.
  Proof.
    unfold dkeys, ddel. rewrite !in_map_iff. split.
    - intros [[a b] [<- H]]. apply filter_In in H as [H1 H2]. simpl in *.
      split; [exists (a, b); auto|]. intros ->. now rewrite String.eqb_refl in H2.
    - intros [[[a b] [<- H]] n]. exists (a, b). split; auto.
      apply filter_In. simpl in *. split; auto. now rewrite eqb_neq_s by auto.
  Qed.

  Lemma filter_keys_NoDup (f : string * V -> bool) d :
    NoDup (dkeys d) -> NoDup (dkeys (filter f d)).
  Proof.
    induction d as [|x d IH]; simpl; auto.
    intros ND. inversion ND as [|? ? Hn ND']; subst.
    destruct (f x); simpl; auto. constructor; auto.
    intros H. apply Hn. unfold dkeys in *. apply in_map_iff in H as [y [<- Hy]].
    apply filter_In in Hy as [Hy _]. now apply in_map.
  Qed.

  Lemma ddel_NoDup k d : NoDup (dkeys d) -> NoDup (dkeys (ddel k d)).
  Proof. apply filter_keys_NoDup. Qed.

  Lemma ddel_notin k d : ~ In k (dkeys d) -> ddel k d = d.
  Proof.
    induction d as [|[k' v'] d IH]; simpl; auto. intros H.
    rewrite eqb_neq_s by auto. simpl. f_equal. auto.
  Qed.

  Lemma ddel_app k d e : ddel k (d ++ e) = ddel k d ++ ddel k e.
  Proof. apply filter_app. Qed.

  Lemma ddel_length k d : length (ddel k d) <= length d.
  Proof. unfold ddel. induction d; simpl; auto. destruct negb; simpl; lia. Qed.

  Lemma dset_keys k v d x : In x (dkeys (dset k v d)) <-> In x (dkeys d) \/ x = k.
  Proof.
    induction d as [|[k' v'] d IH]; simpl.
    - intuition.
    - destruct (String.eqb_spec k k') as [->|n]; simpl.
      + intuition (subst; auto).
      + rewrite IH. intuition.
  Qed.

  Lemma dset_NoDup k v d : NoDup (dkeys d) -> NoDup (dkeys (dset k v d)).
  Proof.
    induction d as [|[k' v'] d IH]; simpl.
    - intros _. constructor; auto; constructor.
    - intros ND. inversion ND as [|? ? Hn ND']; subst.
      destruct (String.eqb_spec k k') as [->|n]; simpl; constructor; auto.
      fold (dkeys (dset k v d)). rewrite dset_keys. intros [H| ->]; auto.
  Qed.

  Lemma dset_new k v d : ~ In k (dkeys d) -> dset k v d = d ++ [(k, v)].
  Proof.
    induction d as [|[k' v'] d IH]; simpl; auto. intros H.
    rewrite eqb_neq_s by auto. f_equal. auto.
  Qed.

  Lemma dset_app_l k v d e : In k (dkeys d) -> dset k v (d ++ e) = dset k v d ++ e.
  Proof.
    induction d as [|[k' v'] d IH]; simpl; [tauto|]. intros H.
    destruct (String.eqb_spec k k') as [->|]; auto. simpl. f_equal. apply IH.
    destruct H; congruence || auto.
  Qed.

  Lemma dset_app_r k v d e : ~ In k (dkeys d) -> dset k v (d ++ e) = d ++ dset k v e.
  Proof.
    induction d as [|[k' v'] d IH]; simpl; auto. intros H.
    rewrite eqb_neq_s by auto. f_equal. auto.
  Qed.

  Lemma dset_length k v d :
    length (dset k v d) = if dmem k d then length d else S (length d).
  Proof.
    unfold dmem. induction d as [|[k' v'] d IH]; simpl; auto.
    destruct (String.eqb k k'); simpl; auto.
    rewrite IH. now destruct (dget k d).
  Qed.

  Lemma dupd_app d e :
    NoDup (dkeys e) -> (forall k, In k (dkeys e) -> ~ In k (dkeys d)) -> dupd d e = d ++ e.
  Proof.
    unfold dupd. revert d. induction e as [|[k v] e IH]; simpl; intros d ND H.
    - now rewrite app_nil_r.
    - inversion ND as [|? ? Hn ND']; subst. rewrite dset_new by (apply H; auto).
      rewrite IH; auto.
      + now rewrite <- app_assoc.
      + intros k' Hk'. unfold dkeys. rewrite map_app, in_app_iff. simpl.
        intros [H1|[->|[]]]; [apply (H k'); auto|auto].
  Qed.

  Lemma dupd_NoDup d e : NoDup (dkeys d) -> NoDup (dkeys (dupd d e)).
  Proof.
    unfold dupd. revert d. induction e as [|[k v] e IH]; simpl; intros d ND; auto.
    apply IH. now apply dset_NoDup.
  Qed.

  Lemma dget_app k d e :
    dget k (d ++ e) = match dget k d with Some v => Some v | None => dget k e end.
  Proof. induction d as [|[k' v'] d IH]; simpl; auto. now destruct (String.eqb k k'). Qed.

  Lemma dkeys_app d e : dkeys (d ++ e) = dkeys d ++ dkeys e.
  Proof. apply map_app. Qed.

  Lemma Forall_dget (P : string * V -> Prop) k v d : Forall P d -> dget k d = Some v -> P (k, v).
  Proof. intros H E%dget_In. rewrite Forall_forall in H. auto. Qed.

  Lemma Forall_ddel (P : string * V -> Prop) k d : Forall P d -> Forall P (ddel k d).
  Proof. apply incl_Forall. unfold ddel. intros x H. now apply filter_In in H. Qed.

  Lemma Forall_dset (P : string * V -> Prop) k v d :
    (forall k', P (k', v)) -> Forall P d -> Forall P (dset k v d).
  Proof.
    intros Hv. induction d as [|[k' v'] d IH]; simpl; intros H.
    - constructor; auto.
    - inversion H; subst. destruct (String.eqb_spec k k') as [->|]; constructor; auto.
  Qed.
End DictFacts.

(** ** Sizes *)
Lemma psize_list l : psize (PList l) = S (lsize l).
Proof. reflexivity. Qed.
Lemma psize_dict d : psize (PDict d) = S (dsize d).
Proof. simpl. f_equal. induction d as [|[k v] d IH]; simpl; auto. Qed.
Lemma psize_pos v : 1 <= psize v.
Proof. destruct v; simpl; lia. Qed.

Lemma lsize_In x l : In x l -> psize x <= lsize l.
Proof.
  induction l; simpl; [tauto|]. intros [->|H]; [lia|]. specialize (IHl H). lia.
Qed.
Lemma dsize_In k x d : In (k, x) d -> psize x < dsize d.
Proof.
  induction d as [|[k' v'] d IH]; simpl; [tauto|]. intros [[= -> ->]|H]; [lia|].
  specialize (IH H). lia.
Qed.
Lemma dsize_dget k x d : dget k d = Some x -> psize x < dsize d.
Proof. intros H%dget_In. eapply dsize_In; eauto. Qed.
Lemma dsize_ddel k d : dsize (ddel k d) <= dsize d.
Proof.
  induction d as [|[k' v'] d IH]; simpl; auto. destruct String.eqb; simpl; lia.
Qed.
Lemma dsize_ddel_lt k v d : dget k d = Some v -> dsize (ddel k d) + S (psize v) <= dsize d.
Proof.
  induction d as [|[k' v'] d IH]; simpl; [discriminate|].
  destruct (String.eqb_spec k k') as [->|]; intros H; simpl.
  - injection H as ->. pose proof (dsize_ddel k' d). lia.
  - specialize (IH H). lia.
Qed.

(** ** Equality *)
Fixpoint all2 {A} (f : A -> A -> bool) (l l' : list A) : bool :=
  match l, l' with
  | [], [] => true
  | x :: xs, y :: ys => f x y && all2 f xs ys
  | _, _ => false
  end.

Lemma py_eq_list l l' : py_eq (PList l) (PList l') = all2 py_eq l l'.
Proof.
  simpl. revert l'. induction l as [|x l IH]; intros [|y l']; auto.
  simpl. now rewrite <- IH.
Qed.

Definition dict_sub (d d' : list (string * pyval)) : bool :=
  forallb (fun kv => match dget (fst kv) d' with
                     | Some w => py_eq (snd kv) w
                     | None => false
                     end) d.

Lemma py_eq_dict d d' :
  py_eq (PDict d) (PDict d') = Nat.eqb (length d) (length d') && dict_sub d d'.
Proof.
  simpl. f_equal. unfold dict_sub.
  induction d as [|[k v] d IH]; auto. simpl. now rewrite <- IH.
Qed.

Lemma all2_spec {A} (f : A -> A -> bool) l l' :
  all2 f l l' = true <-> Forall2 (fun x y => f x y = true) l l'.
Proof.
  revert l'. induction l as [|x l IH]; intros [|y l']; simpl; split; intros H;
    try discriminate; auto; try (inversion H; fail).
  - apply andb_true_iff in H as [H1 H2]. constructor; auto. now apply IH.
  - inversion H; subst. apply andb_true_iff. split; auto. now apply IH.
Qed.

Lemma Qeq_bool_comm' x y : Qeq_bool x y = Qeq_bool y x.
Proof. apply Qeq_bool_comm. Qed.

Lemma py_eq_refl v : pwf v -> py_eq v v = true.
Proof.
  induction v using pyval_ind'; intros W; auto.
  - destruct b; reflexivity.
  - simpl. apply Qeq_bool_refl.
  - simpl. apply Qeq_bool_refl.
  - simpl. apply String.eqb_refl.
  - rewrite py_eq_list. inversion W as [ | | | | |? Hw|]; subst.
    rewrite all2_spec. clear W. induction l; constructor.
    + inversion H; inversion Hw; subst; auto.
    + inversion H; inversion Hw; subst; auto.
  - rewrite py_eq_dict. inversion W as [ | | | | | |? ND Hw]; subst.
    rewrite Nat.eqb_refl. simpl. unfold dict_sub. apply forallb_forall.
    intros [k v] Hin. simpl. rewrite (In_dget k v); auto.
    rewrite Forall_forall in H, Hw. apply (H (k, v) Hin). apply (Hw (k, v) Hin).
Qed.

Lemma keys_len {V} (d : list (string * V)) : length (dkeys d) = length d.
Proof. apply map_length. Qed.

Lemma dict_sub_incl d d' : dict_sub d d' = true -> incl (dkeys d) (dkeys d').
Proof.
  unfold dict_sub. rewrite forallb_forall. intros H k Hk.
  apply in_map_iff in Hk as [[k' v] [<- Hin]]. specialize (H _ Hin). simpl in *.
  destruct (dget k' d') eqn:E; [|discriminate]. eapply dget_In_key; eauto.
Qed.

Lemma py_eq_sym_imp a : forall b, pwf a -> pwf b -> py_eq a b = true -> py_eq b a = true.
Proof.
  induction a using pyval_ind'; intros y Wa Wb E.
  - destruct y; try discriminate; auto.
  - destruct y; simpl in E; destruct b; try discriminate; simpl;
      try (rewrite Qeq_bool_comm'; exact E); destruct b0; try discriminate; auto.
  - destruct y; simpl in E; try discriminate.
    + destruct b; (simpl; rewrite Qeq_bool_comm'; exact E).
    + simpl. rewrite Qeq_bool_comm'; exact E.
    + simpl. rewrite Qeq_bool_comm'; exact E.
  - destruct y; simpl in E; try discriminate.
    + destruct b; (simpl; rewrite Qeq_bool_comm'; exact E).
    + simpl. rewrite Qeq_bool_comm'; exact E.
    + simpl. rewrite Qeq_bool_comm'; exact E.
  - destruct y; simpl in E; try discriminate. simpl. now rewrite String.eqb_sym.
  - destruct y as [| | | | |l'|]; try (simpl in E; discriminate).
    rewrite py_eq_list in *.
    rewrite all2_spec in *. inversion Wa as [ | | | | |? Hw1|]; subst.
    inversion Wb as [ | | | | |? Hw2|]; subst. clear Wa Wb.
    revert l' E Hw2. induction l as [|x l IH]; intros l' E Hw2; inversion E; subst; constructor.
    + inversion H; inversion Hw1; inversion Hw2; subst; auto.
    + inversion H; inversion Hw1; inversion Hw2; subst; auto.
  - destruct y as [| | | | | |d']; try (simpl in E; discriminate).
    rewrite py_eq_dict in *. apply andb_true_iff in E as [E1 E2].
    apply Nat.eqb_eq in E1. rewrite E1, Nat.eqb_refl. simpl.
    inversion Wa as [ | | | | | |? ND1 Hw1]; subst. inversion Wb as [ | | | | | |? ND2 Hw2]; subst.
    assert (I : incl (dkeys d') (dkeys d)).
    { apply NoDup_length_incl; auto using dict_sub_incl. rewrite !keys_len. lia. }
    unfold dict_sub in *. rewrite forallb_forall in *. intros [k w] Hin. simpl.
    assert (Hk : In k (dkeys d)) by (apply I; change k with (fst (k, w)); now apply in_map).
    apply in_map_iff in Hk as [[k' v] [Ek Hk]]. simpl in Ek. subst k'.
    rewrite (In_dget k v d) by auto.
    specialize (E2 _ Hk). simpl in E2. rewrite (In_dget k w d') in E2 by auto.
    rewrite Forall_forall in H, Hw1, Hw2.
    exact (H (k, v) Hk w (Hw1 (k, v) Hk) (Hw2 (k, w) Hin) E2).
Qed.

Lemma py_eq_sym a b : pwf a -> pwf b -> py_eq a b = py_eq b a.
Proof.
  intros Wa Wb. destruct (py_eq a b) eqn:E; destruct (py_eq b a) eqn:E'; auto.
  - apply py_eq_sym_imp in E; auto; congruence.
  - apply py_eq_sym_imp in E'; auto; congruence.
Qed.

Lemma Qeqb_trans x y z : Qeq_bool x y = true -> Qeq_bool y z = true -> Qeq_bool x z = true.
Proof. rewrite !Qeq_bool_iff. intros; now rewrite H. Qed.

Lemma py_eq_num a b : num_of a <> None -> py_eq a b =
  match num_of a, num_of b with Some x, Some y => Qeq_bool x y | _, _ => false end.
Proof. destruct a; simpl; try congruence; auto. Qed.

Lemma py_eq_true_num a b : py_eq a b = true -> num_of a <> None ->
  exists x y, num_of a = Some x /\ num_of b = Some y /\ Qeq_bool x y = true.
Proof.
  intros E H. rewrite py_eq_num in E by auto.
  destruct (num_of a) as [x|]; [|congruence]. destruct (num_of b) as [y|]; [|discriminate].
  eauto.
Qed.

Lemma py_eq_trans_num a b c :
  num_of a <> None -> py_eq a b = true -> py_eq b c = true -> py_eq a c = true.
Proof.
  intros H E1 E2. apply py_eq_true_num in E1 as (x & y & Ha & Hb & Q1); auto.
  apply py_eq_true_num in E2 as (y' & z & Hb' & Hc & Q2); [|congruence].
  rewrite py_eq_num by auto. rewrite Ha, Hc. rewrite Hb in Hb'. injection Hb' as <-.
  eapply Qeqb_trans; eauto.
Qed.

Lemma py_eq_trans a : forall b c, py_eq a b = true -> py_eq b c = true -> py_eq a c = true.
Proof.
  induction a using pyval_ind'; intros y z' E1 E2.
  - destruct y; try discriminate; auto.
  - eapply py_eq_trans_num; eauto. destruct b; discriminate.
  - eapply py_eq_trans_num; eauto. discriminate.
  - eapply py_eq_trans_num; eauto. discriminate.
  - destruct y; try discriminate. destruct z'; try discriminate. simpl in *.
    apply String.eqb_eq in E1, E2. subst. apply String.eqb_refl.
  - destruct y as [| | | | |l'|]; try (simpl in E1; discriminate).
    destruct z' as [| | | | |l2|]; try (simpl in E2; discriminate).
    rewrite py_eq_list in *. rewrite all2_spec in *.
    revert l' l2 E1 E2. induction l as [|x l IH]; intros l' l2 E1 E2; inversion E1; subst;
      inversion E2; subst; constructor; inversion H; subst; eauto.
  - destruct y as [| | | | | |d']; try (simpl in E1; discriminate).
    destruct z' as [| | | | | |d2]; try (simpl in E2; discriminate).
    rewrite py_eq_dict in *. apply andb_true_iff in E1 as [L1 S1], E2 as [L2 S2].
    apply Nat.eqb_eq in L1, L2. rewrite L1, L2, Nat.eqb_refl. simpl.
    unfold dict_sub in *. rewrite forallb_forall in *. intros [k v] Hin.
    specialize (S1 _ Hin). simpl in *. destruct (dget k d') as [w|] eqn:Ew; [|discriminate].
    specialize (S2 (k, w) (dget_In _ _ _ Ew)). simpl in S2.
    destruct (dget k d2) as [w2|]; [|discriminate].
    rewrite Forall_forall in H. apply (H (k, v) Hin w w2); auto.
Qed.

Lemma py_eq_str_inv v s : py_eq v (PStr s) = true -> v = PStr s.
Proof. destruct v; simpl; try discriminate; try (destruct b; discriminate).
  intros H%String.eqb_eq. now subst. Qed.
Lemma py_eq_none_inv v : py_eq PNone v = true -> v = PNone.
Proof. destruct v; simpl; try discriminate; auto. Qed.

Lemma is_none_true v : is_none v = true <-> v = PNone.
Proof. destruct v; simpl; split; congruence. Qed.
Lemma is_none_false v : is_none v = false <-> v <> PNone.
Proof. destruct v; simpl; split; congruence. Qed.

(** ** Results *)
Lemma rbind_Ok {A B} (x : res A) (f : A -> res B) b :
  rbind x f = Ok b -> exists a, x = Ok a /\ f a = Ok b.
Proof. destruct x; simpl; [eauto|discriminate]. Qed.

Lemma rmap_Ok {A B} (f : A -> res B) l l' :
  rmap f l = Ok l' <-> Forall2 (fun x y => f x = Ok y) l l'.
Proof.
  revert l'. induction l as [|x l IH]; intros l'; simpl; split; intros H.
  - injection H as <-. constructor.
  - inversion H; auto.
  - destruct (f x) eqn:E; [|discriminate]. destruct (rmap f l) eqn:E2; [|discriminate].
    injection H as <-. constructor; auto. now apply IH.
  - inversion H as [|? y ? ys Hy Hys]; subst. rewrite Hy. apply IH in Hys. now rewrite Hys.
Qed.

Lemma pwf_dget k v d : pwf (PDict d) -> dget k d = Some v -> pwf v.
Proof.
  intros W E. inversion W as [ | | | | | |? ND H]; subst. apply (Forall_dget _ _ _ _ H E).
Qed.
