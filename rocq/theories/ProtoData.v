(** Messages of proto files as values of the types read from them, and back (proofs only). *)
From Coq Require Import String Ascii List NArith ZArith QArith Bool Lia.
From Verif Require Import PyVal PyValFacts RType Registry RegistryFacts FromDict FromDictFacts RoundTrip Url Avro SpecAvro AvroProps JsonSchema
  SpecTypes SpecJson JsonProps DbapiFacts SpecDb SpecInstances SpecRows AvroData AvroDataBack
  Proto SpecProto ProtoRead ProtoFrame ProtoShape ProtoRefs ProtoOrder SpecProtoData.
Import ListNotations.
Open Scope nat_scope.
Open Scope string_scope.
Open Scope list_scope.

(** ** Types with the same values *)
Section Same.
  Variable env : string -> rtype -> Prop.
  Definition same (t t' : rtype) : Prop := forall v, holds env t v <-> holds env t' v.
  Lemma same_refl t : same t t.
  Proof. intros v. tauto. Qed.
  Lemma same_trans t1 t2 t3 : same t1 t2 -> same t2 t3 -> same t1 t3.
  Proof. intros A B v. rewrite (A v). apply B. Qed.
  Lemma same_sym t1 t2 : same t1 t2 -> same t2 t1.
  Proof. intros A v. symmetry. apply A. Qed.

  Lemma get_set_c t c : get_c (set_c t c) = c.
  Proof. now destruct t. Qed.
  Lemma set_set_c t c c' : set_c (set_c t c) c' = set_c t c'.
  Proof. now destruct t. Qed.
  Lemma same_set_c t c : same_meaning c t -> same t (set_c t c).
  Proof.
    intros [L A X] v. split; [now apply holds_set_c|]. intros H. rewrite <- (set_own t), <- (set_set_c t c).
    apply holds_set_c; rewrite ?get_set_c, ?is_proxy_set_c; auto.
    - intros P. symmetry. now apply A.
    - intros k I. symmetry. now apply X.
  Qed.
  Lemma thaw R t v : holds env (freeze R t) v -> holds env t v.
  Proof.
    revert v. induction t as [t IH] using parts_ind. intros v H. destruct t as [| | | | | |c t l va|c k t|c fs| |c ts|c [R0|]]; cbn [freeze children] in *; auto.
    - inversion H; subst. constructor; auto. intros x I. apply IH; [now left|]. auto.
    - inversion H; subst. constructor; intros a b I; (apply IH; [cbn; tauto|]); eauto.
    - inversion H as [| | | | | | | | | | | |? ? r L N V| | |]; subst. rewrite map_length in L. constructor; auto.
      + intros i f n d E1 E2. specialize (N i (freeze R f) n d). rewrite nth_error_map, E1 in N. specialize (N eq_refl E2).
        unfold extra in *. now rewrite get_c_freeze' in N.
      + intros i f n d E1 E2. apply IH; [now apply nth_error_In in E1|]. apply (V i _ n); auto. now rewrite nth_error_map, E1.
    - inversion H; subst. match goal with H : In _ (map _ _) |- _ => apply in_map_iff in H as (t0 & <- & I) end. eapply h_union; eauto.
    - inversion H; subst. eapply h_proxy; eauto.
  Qed.
  Lemma same_freeze R t : same t (freeze R t).
  Proof. intros v. split; [apply holds_freeze|apply thaw]. Qed.
  Lemma same_stored R t : is_proxy t = false -> same t (stored R t).
  Proof.
    intros P. unfold stored. eapply same_trans; [apply (same_freeze R)|]. apply same_set_c. split; cbn [c_logical c_alias c_extra]; auto.
    - rewrite (proj2 (freeze_common R t)), P. discriminate.
    - intros k I. rewrite dget_ddel. cbn in I. destruct I as [<-|[<-|[<-|[]]]]; reflexivity.
  Qed.
  (** Parts with the same values and names. *)
  Definition alike (t t' : rtype) : Prop := same t t' /\ dget "name" (c_extra (get_c t)) = dget "name" (c_extra (get_c t')).
  Lemma alike_refl t : alike t t.
  Proof. split; auto using same_refl. Qed.
  Lemma alike_sym t t' : alike t t' -> alike t' t.
  Proof. intros [A B]. split; auto using same_sym. Qed.
  Lemma list_same c t t' l va : same t t' -> same (TList c t l va) (TList c t' l va).
  Proof. intros A v. split; intros H; inversion H; subst; constructor; auto; intros; apply A; auto. Qed.
  Lemma map_same c k k' t t' : same k k' -> same t t' -> same (TMap c k t) (TMap c k' t').
  Proof. intros A B v. split; intros H; inversion H; subst; constructor; intros; (apply A || apply B); eauto. Qed.
  Lemma Forall2_nth {A B} (P : A -> B -> Prop) l l' : Forall2 P l l' -> forall i y, nth_error l' i = Some y -> exists x, nth_error l i = Some x /\ P x y.
  Proof. induction 1; intros [|i] y0 E; try discriminate; cbn in *; eauto. injection E as <-. eauto. Qed.
  Lemma struct_half c fs fs' v : Forall2 alike fs fs' -> holds env (TStruct c fs) v -> holds env (TStruct c fs') v.
  Proof.
    intros F H. inversion H as [| | | | | | | | | | | |? ? r L N V| | |]; subst. apply h_struct; [apply Forall2_len in F; congruence| |].
    - intros i f' n d E1 E2. destruct (Forall2_nth _ _ _ F _ _ E1) as (f & E & [S M]). unfold extra. rewrite <- M. eapply N; eauto.
    - intros i f' n d E1 E2. destruct (Forall2_nth _ _ _ F _ _ E1) as (f & E & [S M]). apply S. eapply V; eauto.
  Qed.
  Lemma Forall2_sym {A} (P : A -> A -> Prop) l l' : (forall x y, P x y -> P y x) -> Forall2 P l l' -> Forall2 P l' l.
  Proof. induction 2; constructor; auto. Qed.
  Lemma struct_same c fs fs' : Forall2 alike fs fs' -> same (TStruct c fs) (TStruct c fs').
  Proof. intros F v. split; apply struct_half; auto. apply Forall2_sym; auto using alike_sym. Qed.
  Lemma Forall2_in {A B} (P : A -> B -> Prop) l l' : Forall2 P l l' -> forall x, In x l -> exists y, In y l' /\ P x y.
  Proof.
    induction 1 as [|x y l l' H F IH]; intros z I; [destruct I|]. destruct I as [<-|I]; [exists y; split; [now left|auto]|].
    destruct (IH _ I) as (y' & J & Q). exists y'. split; [now right|auto].
  Qed.
  Lemma union_half c fs fs' v : Forall2 alike fs fs' -> holds env (TUnion c fs) v -> holds env (TUnion c fs') v.
  Proof. intros F H. inversion H; subst. destruct (Forall2_in _ _ _ F _ H2) as (y & I & S & _). eapply h_union; eauto. now apply S. Qed.
  Lemma union_same c fs fs' : Forall2 alike fs fs' -> same (TUnion c fs) (TUnion c fs').
  Proof. intros F v. split; apply union_half; auto. apply Forall2_sym; auto using alike_sym. Qed.
End Same.

(** ** Resolving references keeps the values *)
Definition part_of (R0 R : registry) : Prop := forall a u, dget a R0 = Some u -> dget a R = Some u.
(** At most a name. *)
Definition bare (c : common) : Prop := c_extra c = [] \/ exists v, c_extra c = [("name", v)].
Inductive good (R : registry) : rtype -> Prop :=
| good_node t : is_proxy t = false -> Forall (good R) (children t) -> good R t
| good_live c : bare c -> good R (TProxy c None)
| good_ref c R0 : bare c -> part_of R0 R -> good R (TProxy c (Some R0)).
Definition calm (R : registry) (t : rtype) : Prop := good R t /\ is_proxy t = false /\ dget "name" (c_extra (get_c t)) = None.
Definition good_reg (R : registry) : Prop := forall a u, dget a R = Some u -> calm R u.

Lemma good_kids R t : good R t -> Forall (good R) (children t).
Proof. destruct 1; auto; constructor. Qed.
Lemma good_mono R R' t : part_of R R' -> good R t -> good R' t.
Proof.
  intros P. induction t as [t IH] using parts_ind. intros H. destruct H as [t N F|c S|c R0 S Q]; [|now apply good_live|].
  - apply good_node; auto. rewrite Forall_forall in *. auto.
  - apply good_ref; auto. intros a u E. auto.
Qed.
Lemma good_freeze R R1 t : part_of R1 R -> good R t -> good R (freeze R1 t).
Proof.
  intros P. induction t as [t IH] using parts_ind. intros H. destruct H as [t N F|c S|c R0 S Q].
  - apply good_node; [now rewrite (proj2 (freeze_common R1 t))|]. rewrite freeze_children. rewrite Forall_forall in *. intros y I.
    apply in_map_iff in I as (x & <- & I). auto.
  - now apply good_ref.
  - now apply good_ref.
Qed.
Lemma good_set_c R t c : is_proxy t = false -> good R t -> good R (set_c t c).
Proof. intros P G. apply good_node; [now rewrite is_proxy_set_c|]. apply good_kids in G. now destruct t. Qed.
Lemma set_attrs_bare c : bare c -> forall t t', set_attrs t (c_extra c) = Ok t' ->
  t' = set_c t (mkC (c_logical (get_c t)) (c_alias (get_c t)) (c_doc (get_c t)) (dupd (c_extra (get_c t)) (c_extra c))).
Proof.
  intros [-> | (v & ->)] t t' H.
  - injection H as <-. unfold dupd. cbn [fold_left]. destruct t as [[]|[]|[]|[]|[]|[]|[]|[]|[]|[]|[]|[]]; reflexivity.
  - cbn [set_attrs] in H. apply rbind_Ok in H as (u & E & H). injection H as <-. destruct t; cbn in E; now injection E as <-.
Qed.
Lemma dget_bare k c (d : list (string * pyval)) : bare c -> k <> "name" -> dget k (dupd d (c_extra c)) = dget k d.
Proof. intros [-> | (v & ->)] N; [reflexivity|]. unfold dupd. cbn [fold_left fst snd]. rewrite dget_dset. now rewrite (proj2 (String.eqb_neq _ _) N). Qed.
Lemma name_bare c (d : list (string * pyval)) : bare c -> dget "name" d = None -> dget "name" (dupd (dupd d (c_extra c)) (c_extra c)) = dget "name" (c_extra c).
Proof.
  intros [-> | (v & ->)] N; [exact N|]. unfold dupd. cbn [fold_left fst snd]. rewrite !dget_dset. reflexivity.
Qed.
Lemma count_not_name k : In k counts -> k <> "name".
Proof. intros I ->. cbn in I. intuition discriminate. Qed.

Section Resolving.
  Variable R : registry.
  Hypothesis GR : good_reg R.
  Let env : string -> rtype -> Prop := fun a u => dget a R = Some u.

  Lemma kids_common prox s t r : px_kids prox R s t = Ok r -> get_c (fst r) = get_c t.
  Proof.
    rewrite px_kids_eq. cbv zeta. destruct t; intros H; try (injection H as <-; reflexivity);
      apply rbind_Ok in H as (q & _ & H); try (injection H as <-; reflexivity).
    apply rbind_Ok in H as (q2 & _ & H). injection H as <-. reflexivity.
  Qed.
  Lemma fuel_common n s t r : px_f n R s t = Ok r -> get_c (fst r) = get_c t.
  Proof. destruct n; apply kids_common. Qed.
  Definition keeps_values (f : marks -> rtype -> res (rtype * marks)) (t : rtype) : Prop := forall s r, f s t = Ok r -> same env t (fst r).
  Lemma alias_same c o a u : c_alias c = PStr a -> dget a R = Some u -> same env (TProxy c o) u.
  Proof.
    intros A E v. split; intros H.
    - inversion H as [| | | | | | | | | | | | | | |? ? a' t' ? A' E' HT]; subst. unfold env in E'. congruence.
    - eapply h_proxy; eauto.
  Qed.
  Lemma enter_alike kids prox t s r : (forall u, good R u -> is_proxy u = false -> keeps_values prox u) ->
    (forall s t r, prox s t = Ok r -> get_c (fst r) = get_c t) -> (forall s r, kids s t = Ok r -> get_c (fst r) = get_c t) ->
    (is_proxy t = false -> keeps_values kids t) -> good R t ->
    px_enter kids prox R s t = Ok r -> alike env t (fst r).
  Proof.
    intros KP CP CK KK G H. rewrite px_enter_eq in H. apply rbind_Ok in H as (q & H & E). injection E as <-. cbn [fst].
    destruct (is_proxy t) eqn:P.
    - destruct t as [| | | | | | | | | | |c o]; try discriminate. unfold px_step in H. destruct (c_alias c) as [| | | |a| |] eqn:A; try discriminate.
      destruct (str_in a (fst s) || str_in a (snd s)); [injection H as <-; apply alike_refl|].
      apply rbind_Ok in H as (t0 & RS & H). cbv zeta in H. cbn [resolve] in RS. rewrite A in RS. apply rbind_Ok in RS as (u & FA & RS).
      assert (PO : part_of (proxy_reg R o) R) by (inversion G; subst; cbn; [discriminate|intros ? ? X; exact X|auto]).
      assert (B : bare c) by (inversion G; subst; [discriminate|auto|auto]).
      unfold from_alias in FA. destruct (dget a (proxy_reg R o)) as [u'|] eqn:D; [|discriminate]. injection FA as ->.
      apply PO in D. destruct (GR _ _ D) as (GU & PU & NU). apply set_attrs_bare in RS; auto. rewrite get_c_freeze' in RS.
      set (u0 := freeze (proxy_reg R o) u) in *. assert (GU0 : get_c u0 = get_c u) by apply get_c_freeze'.
      assert (PU0 : is_proxy u0 = false) by (unfold u0; now rewrite (proj2 (freeze_common _ _))).
      assert (SU : same env (TProxy c o) u0) by (eapply same_trans; [eapply alias_same; eauto|apply same_freeze]).
      match type of H with prox _ ?x = _ => set (w := x) in * end.
      assert (SW : same env u0 w).
      { unfold w. rewrite RS, get_set_c, set_set_c. cbn [c_logical c_alias c_doc c_extra]. apply same_set_c. split; cbn [c_logical c_alias c_extra].
        - now rewrite ?GU0.
        - rewrite PU0. discriminate.
        - intros k I. rewrite ?GU0. rewrite !dget_bare; auto using count_not_name. }
      assert (GW : good R w).
      { unfold w. rewrite RS, set_set_c. apply good_set_c; auto. now apply good_freeze. }
      assert (PW : is_proxy w = false) by (unfold w; rewrite RS, set_set_c; now rewrite is_proxy_set_c).
      split.
      + eapply same_trans; [exact SU|]. eapply same_trans; [exact SW|]. eapply KP; eauto.
      + rewrite (CP _ _ _ H). unfold w. rewrite RS, !get_set_c. cbn [c_extra get_c]. symmetry. now apply name_bare.
    - assert (ST : px_step kids prox R s t = (s' <- see t s ;; kids s' t)%res) by (destruct t; try discriminate; reflexivity).
      rewrite ST in H. apply rbind_Ok in H as (s' & _ & H). split; [eapply KK; eauto|]. now rewrite (CK _ _ H).
  Qed.

  Lemma all_alike enter l : (forall x s r, In x l -> enter s x = Ok r -> alike env x (fst r)) ->
    forall s r, px_all enter l s = Ok r -> Forall2 (alike env) l (fst r).
  Proof.
    induction l as [|x l IH]; intros H s r E; [injection E as <-; constructor|]. rewrite px_all_cons in E.
    apply rbind_Ok in E as (q & E1 & E). apply rbind_Ok in E as (q2 & E2 & E). injection E as <-. constructor.
    - eapply H; eauto. now left.
    - eapply IH; eauto. intros y s' r' I. apply H. now right.
  Qed.
  Lemma kids_same prox : (forall u, good R u -> is_proxy u = false -> keeps_values prox u) ->
    (forall s t r, prox s t = Ok r -> get_c (fst r) = get_c t) ->
    forall t, good R t -> is_proxy t = false -> keeps_values (px_kids prox R) t.
  Proof.
    intros KP CP t. induction t as [t IH] using parts_ind. intros G P s r H.
    assert (EN : forall x s r, In x (children t) -> px_enter (px_kids prox R) prox R s x = Ok r -> alike env x (fst r)).
    { intros x s0 r0 I E. assert (GX : good R x) by (apply good_kids in G; rewrite Forall_forall in G; auto).
      refine (enter_alike _ _ x s0 r0 KP CP _ _ GX E); [intros; eapply kids_common; eauto|]. intros PX. now apply IH. }
    rewrite px_kids_eq in H. cbv zeta in H. destruct t; cbn [children] in EN; try (injection H as <-; apply same_refl).
    - apply rbind_Ok in H as (q & E & H). injection H as <-. apply list_same. eapply EN; eauto. now left.
    - apply rbind_Ok in H as (q & E & H). apply rbind_Ok in H as (q2 & E2 & H). injection H as <-. apply map_same; eapply EN; eauto; cbn; auto.
    - apply rbind_Ok in H as (q & E & H). injection H as <-. apply struct_same. eapply all_alike; eauto.
    - apply rbind_Ok in H as (q & E & H). injection H as <-. apply union_same. eapply all_alike; eauto.
  Qed.
  Lemma fuel_same n t : good R t -> is_proxy t = false -> keeps_values (px_f n R) t.
  Proof.
    revert t. induction n as [|n IH]; intros t G P.
    - cbn [px_f]. apply kids_same; auto; discriminate.
    - cbn [px_f]. apply kids_same; auto. apply fuel_common.
  Qed.
  Lemma resolve_same t t' : good R t -> is_proxy t = false -> pr_resolve R t = Ok t' -> same env t t'.
  Proof.
    intros G P H. unfold pr_resolve in H. cbv zeta in H. apply rbind_Ok in H as (r & E & H). injection H as <-.
    refine (proj1 (enter_alike _ _ _ _ _ _ _ _ _ G E)).
    - intros. now apply fuel_same.
    - apply fuel_common.
    - intros s r0. apply fuel_common.
    - intros _. now apply fuel_same.
  Qed.
End Resolving.
