(** Facts about make_nullable and about type equality (proofs only). *)
From Coq Require Import String Ascii List ZArith QArith Bool Lia.
From Verif Require Import PyVal PyValFacts RType FromDict Nullable RoundTrip SpecTypes RegistryFacts.
Import ListNotations.
Open Scope nat_scope.
Open Scope string_scope.
Open Scope list_scope.

(** No extra attribute collides with a constructor argument. *)
Definition no_clash (t : rtype) : Prop :=
  forall k, In k (dkeys (c_extra (get_c t))) -> ~ In k ("self" :: "type_" :: "doc" :: ctor_attrs t).

Lemma node_ok_no_clash t : node_ok t -> no_clash t.
Proof.
  intros (_ & HK & _) k Hk. specialize (HK k Hk).
  intros H. apply HK. destruct t; simpl in *; tauto.
Qed.

(** The type without doc, default and name. *)
Definition plain (t : rtype) : rtype :=
  let c := get_c t in
  set_c t (mkC (c_logical c) (c_alias c) PNone (ddel "name" (ddel "default" (c_extra c)))).

Lemma no_clash_dmem t k : no_clash t -> In k ("self" :: "type_" :: "doc" :: ctor_attrs t) ->
  dmem k (ddel "name" (ddel "default" (c_extra (get_c t)))) = false.
Proof.
  intros H Hk. apply dmem_false. rewrite !ddel_keys. intros [[Hk' _] _]. exact (H k Hk' Hk).
Qed.

Lemma no_clash_existsb t : no_clash t ->
  existsb (fun k => dmem k (ddel "name" (ddel "default" (c_extra (get_c t)))))
    ("self" :: "type_" :: ctor_attrs t) = false.
Proof.
  intros H. destruct existsb eqn:E; auto. apply existsb_exists in E as (k & Hk & Hm).
  rewrite (no_clash_dmem t k H) in Hm; [discriminate|]. simpl in *. tauto.
Qed.

Definition union_labels (t : rtype) : list (string * pyval) :=
  ("default", kwarg "default" PNone (c_extra (get_c t))) ::
  match dget "name" (c_extra (get_c t)) with Some n => [("name", n)] | None => [] end.

Lemma make_nullable_union c ts : no_clash (TUnion c ts) ->
  let e2 := ddel "name" (ddel "default" (c_extra c)) in
  let ts' := if existsb is_null ts then ts else TNull c0 :: ts in
  make_nullable (TUnion c ts) =
    (TUnion (mkC (c_logical c) (c_alias c) (c_doc c) e2) ts',
     Ok (TUnion (mkC (c_logical c) (c_alias c) (c_doc c) (e2 ++ union_labels (TUnion c ts))) ts')).
Proof.
  intros H. unfold make_nullable. rewrite no_clash_existsb by auto.
  rewrite (no_clash_dmem _ "doc" H) by (simpl; tauto). cbv zeta.
  unfold union_labels. cbn [get_c]. now rewrite dget_ddel.
Qed.

Lemma make_nullable_other t : no_clash t -> is_union t = false ->
  make_nullable t =
    (set_c t (mkC (c_logical (get_c t)) (c_alias (get_c t)) (c_doc (get_c t))
                  (ddel "name" (ddel "default" (c_extra (get_c t))))),
     Ok (TUnion (mkC PNone PNone (c_doc (get_c t)) (union_labels t))
                (if is_null t then [plain t] else [TNull c0; plain t]))).
Proof.
  intros H U.
  assert (ED : dmem "doc" (ddel "name" (ddel "default" (c_extra (get_c t)))) = false)
    by (apply (no_clash_dmem _ "doc" H); simpl; tauto).
  pose proof (no_clash_existsb _ H) as EX.
  assert (EK : kwarg "doc" PNone (ddel "name" (ddel "default" (c_extra (get_c t)))) = PNone).
  { unfold kwarg. unfold dmem in ED. now destruct dget. }
  assert (EE : ddel "doc" (ddel "name" (ddel "default" (c_extra (get_c t))))
             = ddel "name" (ddel "default" (c_extra (get_c t)))).
  { apply ddel_notin. now apply dmem_false. }
  unfold make_nullable, plain, union_labels. rewrite EX.
  destruct t; try discriminate U; cbn [get_c set_c] in *; rewrite EK, EE, dget_ddel; reflexivity.
Qed.

(** ** Equality *)
Definition cwf (c : common) : Prop :=
  pwf (c_logical c) /\ pwf (c_alias c) /\ pwf (c_doc c) /\ dwf (c_extra c).

(** Representation invariant of type objects: attribute dicts have unique keys. *)
Definition attrs_ok (t : rtype) : Prop := cwf (get_c t) /\ Forall pwf (attrs_of t).
Definition awf : rtype -> Prop := nodes attrs_ok.

Lemma node_ok_attrs t : node_ok t -> attrs_ok t.
Proof.
  intros (A & B & C & D & E & F & G & _). split; auto. repeat (split; auto).
Qed.

Lemma nodes_impl (P Q : rtype -> Prop) t : (forall x, P x -> Q x) -> nodes P t -> nodes Q t.
Proof.
  intros I. induction t using rtype_ind'; simpl; intros HN; destruct HN as [H1 H2]; split; auto.
  - destruct H2; auto.
  - apply nodes_list. apply nodes_list in H2. rewrite Forall_forall in *. auto.
  - apply nodes_list. apply nodes_list in H2. rewrite Forall_forall in *. auto.
Qed.

Lemma twf_awf t : twf t -> awf t.
Proof. apply nodes_impl. exact node_ok_attrs. Qed.

Lemma c_eq_refl c : cwf c -> c_eq c c = true.
Proof.
  intros (A & B & C & D). unfold c_eq, dict_eq. rewrite !py_eq_refl; auto.
  now apply dwf_pwf.
Qed.
Lemma c_eq_sym a b : cwf a -> cwf b -> c_eq a b = true -> c_eq b a = true.
Proof.
  intros (A & B & C & D) (A' & B' & C' & D'). unfold c_eq, dict_eq.
  apply dwf_pwf in D, D'. rewrite !andb_true_iff. intros (((H1 & H2) & H3) & H4).
  repeat split; now apply py_eq_sym_imp.
Qed.
Lemma c_eq_trans a b c : c_eq a b = true -> c_eq b c = true -> c_eq a c = true.
Proof.
  unfold c_eq, dict_eq. rewrite !andb_true_iff.
  intros (((H1 & H2) & H3) & H4) (((K1 & K2) & K3) & K4).
  repeat split; eapply py_eq_trans; eauto.
Qed.

Lemma rt_eq_struct c fs c' fs' :
  rt_eq (TStruct c fs) (TStruct c' fs') = c_eq c c' && all2 rt_eq fs fs'.
Proof. simpl. f_equal. revert fs'. induction fs as [|x l IH]; intros [|y l']; auto. simpl. now rewrite <- IH. Qed.
Lemma rt_eq_union c fs c' fs' :
  rt_eq (TUnion c fs) (TUnion c' fs') = c_eq c c' && all2 rt_eq fs fs'.
Proof. simpl. f_equal. revert fs'. induction fs as [|x l IH]; intros [|y l']; auto. simpl. now rewrite <- IH. Qed.

Lemma awf_inv t : awf t -> attrs_ok t /\ Forall awf (children t).
Proof.
  intros H. split; [now apply nodes_here|]. now apply nodes_children.
Qed.

Ltac fwf :=
  repeat match goal with
  | H : awf ?t |- _ => assert_fails (is_var t); apply awf_inv in H as [[? ?] ?]; simpl get_c in *; simpl children in *; simpl attrs_of in *
  | H : Forall _ (_ :: _) |- _ => inversion H; subst; clear H
  | H : _ && _ = true |- _ => apply andb_true_iff in H as [? ?]
  end.

Lemma all2_refl {A} (f : A -> A -> bool) l : Forall (fun x => f x x = true) l -> all2 f l l = true.
Proof. induction 1; simpl; auto. now rewrite H. Qed.

Lemma rt_eq_refl t : awf t -> rt_eq t t = true.
Proof.
  induction t using rtype_ind'; intros W;
    try (fwf; simpl; rewrite ?c_eq_refl, ?py_eq_refl by auto; simpl; auto; fail).
  - fwf. simpl. rewrite c_eq_refl, IHt, !py_eq_refl by auto. auto.
  - fwf. simpl. rewrite c_eq_refl, IHt1, IHt2 by auto. auto.
  - rewrite rt_eq_struct. fwf. rewrite c_eq_refl by auto. apply all2_refl.
    rewrite Forall_forall in *. auto.
  - rewrite rt_eq_union. fwf. rewrite c_eq_refl by auto. apply all2_refl.
    rewrite Forall_forall in *. auto.
Qed.

Lemma all2_sym (f : rtype -> rtype -> bool) (P : rtype -> Prop) l :
  Forall (fun x => forall y, P x -> P y -> f x y = true -> f y x = true) l ->
  Forall P l -> forall l', Forall P l' -> all2 f l l' = true -> all2 f l' l = true.
Proof.
  induction 1 as [|x l Hx Hl IH]; intros W [|y l'] W' E; simpl in *; auto; try discriminate.
  apply andb_true_iff in E as [E1 E2]. inversion W; inversion W'; subst.
  rewrite Hx by auto. simpl. apply IH; auto.
Qed.

Lemma rt_eq_sym_imp t : forall u, awf t -> awf u -> rt_eq t u = true -> rt_eq u t = true.
Proof.
  induction t using rtype_ind'; intros u Wt Wu E; destruct u; try discriminate E.
  1-6, 10, 12: simpl in *; fwf; rewrite ?andb_true_iff; repeat split; auto using c_eq_sym, py_eq_sym_imp.
  - simpl in *; fwf; rewrite ?andb_true_iff; repeat split; auto using c_eq_sym, py_eq_sym_imp.
  - simpl in *; fwf; rewrite ?andb_true_iff; repeat split; auto using c_eq_sym, py_eq_sym_imp.
  - rewrite rt_eq_struct in *. fwf. rewrite c_eq_sym by auto. simpl.
    eapply (all2_sym _ awf); eauto.
  - rewrite rt_eq_union in *. fwf. rewrite c_eq_sym by auto. simpl.
    eapply (all2_sym _ awf); eauto.
Qed.

Lemma all2_trans (f : rtype -> rtype -> bool) l :
  Forall (fun x => forall y z, f x y = true -> f y z = true -> f x z = true) l ->
  forall l' l2, all2 f l l' = true -> all2 f l' l2 = true -> all2 f l l2 = true.
Proof.
  induction 1 as [|x l Hx Hl IH]; intros [|y l'] [|z l2] E1 E2; simpl in *; auto; try discriminate.
  apply andb_true_iff in E1 as [? ?], E2 as [? ?]. rewrite (Hx y z) by auto. simpl. eauto.
Qed.

Lemma rt_eq_trans t : forall u v, rt_eq t u = true -> rt_eq u v = true -> rt_eq t v = true.
Proof.
  induction t using rtype_ind'; intros u v' E1 E2; destruct u; try discriminate E1;
    destruct v'; try discriminate E2.
  1-8, 10, 12: simpl in *;
    repeat match goal with H : _ && _ = true |- _ => apply andb_true_iff in H as [? ?] end;
    rewrite ?andb_true_iff; repeat split; eauto using c_eq_trans, py_eq_trans.
  - rewrite rt_eq_struct in *.
    repeat match goal with H : _ && _ = true |- _ => apply andb_true_iff in H as [? ?] end.
    rewrite andb_true_iff. split; [eapply c_eq_trans; eauto|]. eapply all2_trans; eauto.
  - rewrite rt_eq_union in *.
    repeat match goal with H : _ && _ = true |- _ => apply andb_true_iff in H as [? ?] end.
    rewrite andb_true_iff. split; [eapply c_eq_trans; eauto|]. eapply all2_trans; eauto.
Qed.

Lemma rt_eq_is_null t u : rt_eq t u = true -> is_null t = is_null u.
Proof. destruct t, u; simpl; auto; discriminate. Qed.

Lemma rt_eq_nullable t u : rt_eq t u = true -> is_nullable t = is_nullable u.
Proof.
  destruct t, u; try (simpl; auto; discriminate). rewrite rt_eq_union. rewrite andb_true_iff. intros [_ H].
  simpl. revert types0 H. induction types as [|x l IH]; intros [|y l'] H; try discriminate; auto.
  simpl in *. apply andb_true_iff in H as [H1 H2]. rewrite (rt_eq_is_null _ _ H1). f_equal. auto.
Qed.

(** ** Summary of make_nullable *)
Lemma ddel_id_keys k (d : list (string * pyval)) : ddel k d = d -> ~ In k (dkeys d).
Proof. intros E H. rewrite <- E in H. apply ddel_keys in H. tauto. Qed.

Lemma no_clash_result_union c ts ct : no_clash (TUnion ct ts) -> forall ts',
  c_extra c = ddel "name" (ddel "default" (c_extra ct)) ++ union_labels (TUnion ct ts) -> no_clash (TUnion c ts').
Proof.
  intros H ts' E k Hk. simpl in Hk. rewrite E in Hk. rewrite dkeys_app in Hk.
  apply in_app_iff in Hk as [Hk|Hk].
  - rewrite !ddel_keys in Hk. destruct Hk as [[Hk _] _]. exact (H k Hk).
  - unfold union_labels in Hk. simpl in Hk. destruct Hk as [<-|Hk].
    + simpl. intuition discriminate.
    + destruct (dget "name" (c_extra ct)); simpl in Hk; [|tauto]. destruct Hk as [<-|[]].
      simpl. intuition discriminate.
Qed.

Lemma labels_idem (e2 : list (string * pyval)) df nm :
  ~ In "default" (dkeys e2) -> ~ In "name" (dkeys e2) ->
  let nl := match nm with Some n => [("name", n)] | None => [] end in
  let e := e2 ++ ("default", df) :: nl in
  ddel "name" (ddel "default" e) = e2 /\ kwarg "default" PNone e = df /\ dget "name" e = nm.
Proof.
  intros N1 N2 nl e. unfold e. rewrite !ddel_app.
  rewrite (ddel_notin "default" e2), (ddel_notin "name" e2) by auto. split; [|split].
  - unfold nl. destruct nm; simpl; now rewrite app_nil_r.
  - unfold kwarg. rewrite dget_app. apply dget_None in N1. rewrite N1. reflexivity.
  - rewrite dget_app. apply dget_None in N2. rewrite N2. unfold nl. destruct nm; reflexivity.
Qed.

Lemma ddel_gone k (d : list (string * pyval)) : ~ In k (dkeys (ddel k d)).
Proof. rewrite ddel_keys. tauto. Qed.

Lemma make_nullable_again c ts e2 df nm :
  existsb is_null ts = true ->
  ~ In "default" (dkeys e2) -> ~ In "name" (dkeys e2) -> no_clash (TUnion c ts) ->
  c_extra c = e2 ++ ("default", df) :: match nm with Some n => [("name", n)] | None => [] end ->
  snd (make_nullable (TUnion c ts)) = Ok (TUnion c ts).
Proof.
  intros EX N1 N2 NC E. rewrite make_nullable_union by auto. cbn [snd]. rewrite EX.
  destruct (labels_idem e2 df nm N1 N2) as (L1 & L2 & L3). cbv zeta in L1, L2, L3.
  unfold union_labels. cbn [get_c]. rewrite E, L1, L2, L3. rewrite <- E. do 2 f_equal.
  now destruct c.
Qed.

Lemma make_nullable_spec t : no_clash t ->
  exists self' c ts, make_nullable t = (self', Ok (TUnion c ts)) /\
    existsb is_null ts = true /\
    c_doc c = c_doc (get_c t) /\
    dget "default" (c_extra c) = Some (match dget "default" (c_extra (get_c t)) with Some v => v | None => PNone end) /\
    dget "name" (c_extra c) = dget "name" (c_extra (get_c t)) /\
    match t with
    | TUnion ct ms =>
        ts = (if is_nullable t then ms else TNull c0 :: ms) /\
        c_logical c = c_logical ct /\ c_alias c = c_alias ct /\
        (forall k, k <> "default" -> dget k (c_extra c) = dget k (c_extra ct))
    | _ =>
        c_logical c = PNone /\ c_alias c = PNone /\
        (forall k, In k (dkeys (c_extra c)) -> k = "default" \/ k = "name") /\
        exists u, ts = (if is_nullable t then [u] else [TNull c0; u]) /\ same_shape t u /\
          attribute u "doc" = Some PNone /\ attribute u "default" = None /\ attribute u "name" = None /\
          (forall k, k <> "doc" -> k <> "default" -> k <> "name" -> attribute u k = attribute t k)
    end /\
    snd (make_nullable (TUnion c ts)) = Ok (TUnion c ts).
Proof.
  intros NC. destruct (is_union t) eqn:U.
  - destruct t; try discriminate. rewrite make_nullable_union by auto. cbv zeta.
    do 3 eexists. split; [reflexivity|].
    set (e2 := ddel "name" (ddel "default" (c_extra c))).
    assert (N1 : ~ In "default" (dkeys e2)).
    { unfold e2. rewrite ddel_keys. intros [H _]. now apply ddel_gone in H. }
    assert (N2 : ~ In "name" (dkeys e2)) by apply ddel_gone.
    assert (EX : existsb is_null (if existsb is_null types then types else TNull c0 :: types) = true).
    { destruct (existsb is_null types) eqn:E; auto. }
    cbn [get_c c_doc c_logical c_alias c_extra].
    destruct (labels_idem e2 (kwarg "default" PNone (c_extra c)) (dget "name" (c_extra c)) N1 N2) as (L1 & L2 & L3).
    cbv zeta in L1, L2, L3.
    repeat split; auto.
    + rewrite dget_app. pose proof N1 as N1'. apply dget_None in N1'. rewrite N1'. reflexivity.
    + intros k Hk. rewrite dget_app.
      destruct (String.eqb_spec k "name") as [->|Hn].
      * pose proof N2 as N2'. apply dget_None in N2'. rewrite N2'. unfold union_labels. simpl.
        destruct (dget "name" (c_extra c)) eqn:E; simpl; auto.
      * unfold e2. rewrite !dget_ddel, !eqb_neq_s by auto.
        destruct (dget k (c_extra c)) eqn:E; auto.
        unfold union_labels. simpl. rewrite eqb_neq_s by auto.
        destruct (dget "name" (c_extra c)); simpl; auto. rewrite eqb_neq_s by auto. auto.
    + eapply (make_nullable_again _ _ e2 _ (dget "name" (c_extra c))); eauto.
      * eapply no_clash_result_union; eauto.
      * reflexivity.
  - rewrite make_nullable_other by auto. do 3 eexists. split; [reflexivity|].
    cbn [get_c c_doc c_logical c_alias c_extra].
    assert (EX : existsb is_null (if is_null t then [plain t] else [TNull c0; plain t]) = true).
    { destruct t; reflexivity. }
    assert (KL : forall k, In k (dkeys (union_labels t)) -> k = "default" \/ k = "name").
    { intros k. unfold union_labels. simpl. destruct (dget "name" (c_extra (get_c t))); simpl; intuition auto. }
    assert (G1 : dget "default" (ddel "name" (ddel "default" (c_extra (get_c t)))) = None).
    { apply dget_None. rewrite ddel_keys. intros [H _]. now apply ddel_gone in H. }
    assert (G2 : dget "name" (ddel "name" (ddel "default" (c_extra (get_c t)))) = None).
    { apply dget_None. apply ddel_gone. }
    assert (MAIN : exists u, (if is_null t then [plain t] else [TNull c0; plain t])
        = (if is_nullable t then [u] else [TNull c0; u]) /\ same_shape t u /\
          attribute u "doc" = Some PNone /\ attribute u "default" = None /\ attribute u "name" = None /\
          (forall k, k <> "doc" -> k <> "default" -> k <> "name" -> attribute u k = attribute t k)).
    { exists (plain t). split; [destruct t; try discriminate U; reflexivity|].
      split; [unfold plain; destruct t; split; reflexivity|].
      split; [destruct t; reflexivity|].
      split; [destruct t; cbn [attribute plain set_c get_c c_extra String.eqb Ascii.eqb Bool.eqb] in *; auto|].
      split; [destruct t; cbn [attribute plain set_c get_c c_extra String.eqb Ascii.eqb Bool.eqb] in *; auto|].
      intros k K1 K2 K3.
      assert (GG : forall d : list (string * pyval), dget k (ddel "name" (ddel "default" d)) = dget k d)
        by (intros; rewrite !dget_ddel, !eqb_neq_s; auto).
      unfold attribute, plain. rewrite (eqb_neq_s k "doc") by auto.
      destruct t; cbn [set_c get_c c_extra c_logical c_alias]; rewrite ?GG; reflexivity. }
    assert (AG : forall ts, existsb is_null ts = true ->
       snd (make_nullable (TUnion (mkC PNone PNone (c_doc (get_c t)) (union_labels t)) ts))
       = Ok (TUnion (mkC PNone PNone (c_doc (get_c t)) (union_labels t)) ts)).
    { intros ts Hts. eapply (make_nullable_again _ _ [] _ (dget "name" (c_extra (get_c t)))); auto.
      - intros k Hk. cbn [get_c c_extra] in Hk. apply KL in Hk as [->| ->]; simpl; intuition discriminate.
      - reflexivity. }
    split; [auto|]. split; [auto|]. split; [reflexivity|].
    split; [unfold union_labels; simpl; destruct (dget "name" (c_extra (get_c t))); reflexivity|].
    split; [|auto].
    destruct t; try discriminate U; repeat (split; [auto; fail|]); exact MAIN.
Qed.

Lemma parsed_no_clash j R R' t : pwf j -> from_dict j R = (R', Ok t) -> no_clash t.
Proof.
  intros W H. destruct (from_dict_okA _ _ _ _ W H) as [T _]. apply node_ok_no_clash. now apply nodes_here.
Qed.
Lemma parsed_awf j R R' t : pwf j -> from_dict j R = (R', Ok t) -> awf t.
Proof.
  intros W H. destruct (from_dict_okA _ _ _ _ W H) as [T _]. now apply twf_awf.
Qed.

Lemma ddel2_id (d : list (string * pyval)) :
  ddel "name" (ddel "default" d) = d <-> ~ In "default" (dkeys d) /\ ~ In "name" (dkeys d).
Proof.
  split.
  - intros E. split; intros H; rewrite <- E in H.
    + apply ddel_keys in H as [H _]. now apply ddel_gone in H.
    + now apply ddel_gone in H.
  - intros [H1 H2]. rewrite (ddel_notin "default" d), ddel_notin; auto.
Qed.

Lemma mkC_id c e : mkC (c_logical c) (c_alias c) (c_doc c) e = c <-> e = c_extra c.
Proof. destruct c; simpl; split; intros H; [now injection H|now subst]. Qed.

Lemma make_nullable_receiver t : no_clash t ->
  (fst (make_nullable t) = t <->
   ~ In "default" (dkeys (c_extra (get_c t))) /\ ~ In "name" (dkeys (c_extra (get_c t))) /\
   (is_union t = false \/ is_nullable t = true)).
Proof.
  intros NC. destruct (is_union t) eqn:U.
  - destruct t; try discriminate. rewrite make_nullable_union by auto. cbn [fst get_c is_nullable].
    rewrite <- and_assoc, <- ddel2_id. split.
    + intros [= E1 E2]. apply (f_equal c_extra) in E1. simpl in E1. split; auto. right.
      destruct (existsb is_null types) eqn:E; auto. apply (f_equal (@length _)) in E2. simpl in E2. lia.
    + intros [E1 [|E2]]; [discriminate|]. rewrite E2, E1. now destruct c.
  - rewrite make_nullable_other by auto. cbn [fst].
    rewrite <- and_assoc, <- ddel2_id. split.
    + intros E. apply (f_equal (fun x => c_extra (get_c x))) in E. destruct t; simpl in *; auto.
    + intros [E _]. rewrite E. destruct t; simpl; now destruct c.
Qed.
