(** The struct that to_recap returns and the message it comes from. *)
From Coq Require Import String Ascii List NArith ZArith QArith Bool Lia.
From Verif Require Import PyVal PyValFacts RType Registry RegistryFacts Regex FromDict RoundTrip Url Avro SpecAvro AvroProps JsonSchema SpecTypes SpecJson JsonProps DbapiFacts Proto SpecProto ProtoWrite ProtoRead ProtoFrame.
Import ListNotations.
Open Scope nat_scope.
Open Scope string_scope.
Open Scope list_scope.

(** ** Resolution keeps the shape *)
Inductive follows : rtype -> rtype -> Prop :=
| follows_same t : children t = [] -> follows t t
| follows_list c v v' l va : follows v v' -> follows (TList c v l va) (TList c v' l va)
| follows_map c k k' v v' : follows k k' -> follows v v' -> follows (TMap c k v) (TMap c k' v')
| follows_struct c fs fs' : Forall2 follows fs fs' -> follows (TStruct c fs) (TStruct c fs')
| follows_union c fs fs' : Forall2 follows fs fs' -> follows (TUnion c fs) (TUnion c fs')
| follows_ref c r t' : c_alias (get_c t') = c_alias c ->
    (NoDup (dkeys (c_extra c)) -> forall k v, dget k (c_extra c) = Some v -> dget k (c_extra (get_c t')) = Some v) ->
    follows (TProxy c r) t'.
Lemma follows_common t t' : follows t t' -> is_proxy t = false -> get_c t' = get_c t.
Proof. destruct 1; auto. discriminate. Qed.
Lemma set_c_common t c : get_c (set_c t c) = c.
Proof. now destruct t. Qed.
Lemma kids_common prox R s t r : px_kids prox R s t = Ok r -> get_c (fst r) = get_c t.
Proof.
  rewrite px_kids_eq. cbv zeta. destruct t; intros H; try (injection H as <-; reflexivity).
  - apply rbind_Ok in H as (q & _ & H). injection H as <-. reflexivity.
  - apply rbind_Ok in H as (q & _ & H). apply rbind_Ok in H as (q2 & _ & H). injection H as <-. reflexivity.
  - apply rbind_Ok in H as (q & _ & H). injection H as <-. reflexivity.
  - apply rbind_Ok in H as (q & _ & H). injection H as <-. reflexivity.
Qed.
Lemma px_common n R s t r : px_f n R s t = Ok r -> get_c (fst r) = get_c t.
Proof. destruct n; apply kids_common. Qed.
Lemma enter_ref kids prox R s c o r : (forall s t r, prox s t = Ok r -> get_c (fst r) = get_c t) ->
  px_enter kids prox R s (TProxy c o) = Ok r -> follows (TProxy c o) (fst r).
Proof.
  intros P H. rewrite px_enter_eq in H. apply rbind_Ok in H as (q & H & E). injection E as <-. cbn [fst].
  unfold px_step in H. destruct (c_alias c) as [| | | |a| |] eqn:A; try discriminate.
  destruct (_ || _); [injection H as <-; cbn [fst]; constructor; auto|].
  apply rbind_Ok in H as (t0 & _ & H). apply P in H. rewrite set_c_common in H. apply follows_ref.
  - now rewrite H, A.
  - intros ND k v G. rewrite H. cbn. rewrite dget_dupd; auto. now rewrite G.
Qed.
Lemma px_all_follows enter l : (forall x s r, In x l -> enter s x = Ok r -> follows x (fst r)) ->
  forall s r, px_all enter l s = Ok r -> Forall2 follows l (fst r).
Proof.
  induction l as [|x l IH]; intros H s r K; [injection K as <-; constructor|]. rewrite px_all_cons in K.
  apply rbind_Ok in K as (q & K1 & K). apply rbind_Ok in K as (q2 & K2 & K). injection K as <-. constructor.
  - eapply H; eauto. now left.
  - eapply IH; eauto. intros; eapply H; eauto. now right.
Qed.
Lemma kids_follows prox R : (forall s t r, prox s t = Ok r -> get_c (fst r) = get_c t) ->
  forall t s r, px_kids prox R s t = Ok r -> follows t (fst r).
Proof.
  intros P t. induction t as [t IH] using parts_ind. intros s r H.
  assert (EN : forall x s r, In x (children t) -> px_enter (px_kids prox R) prox R s x = Ok r -> follows x (fst r)).
  { intros x s0 r0 I K. destruct (is_proxy x) eqn:PX.
    - destruct x; try discriminate. eapply enter_ref; eauto.
    - rewrite px_enter_eq in K. apply rbind_Ok in K as (q & K & E). injection E as <-. cbn [fst].
      assert (K' : (s' <- see x s0 ;; px_kids prox R s' x)%res = Ok q) by (unfold px_step in K; destruct x; try exact K; discriminate).
      apply rbind_Ok in K' as (s' & _ & K'). eapply IH; eauto. }
  rewrite px_kids_eq in H. cbv zeta in H. destruct t as [| | | | | |c v l va|c k v|c fs| |c ts|c o]; cbn [children] in *;
    try (injection H as <-; now constructor).
  - apply rbind_Ok in H as (q & K & H). injection H as <-. apply follows_list. eapply EN; eauto. now left.
  - apply rbind_Ok in H as (q & K & H). apply rbind_Ok in H as (q2 & K2 & H). injection H as <-. apply follows_map; eapply EN; eauto; cbn; auto.
  - apply rbind_Ok in H as (q & K & H). injection H as <-. apply follows_struct. eapply px_all_follows; eauto.
  - apply rbind_Ok in H as (q & K & H). injection H as <-. apply follows_union. eapply px_all_follows; eauto.
Qed.
Lemma resolve_follows R c fs t' : pr_resolve R (TStruct c fs) = Ok t' -> exists fs', t' = TStruct c fs' /\ Forall2 follows fs fs'.
Proof.
  unfold pr_resolve. cbv zeta. intros H. apply rbind_Ok in H as (r & H & E). injection E as <-. rewrite px_enter_eq in H.
  apply rbind_Ok in H as (q & H & E). injection E as <-. cbn [fst]. unfold px_step in H. apply rbind_Ok in H as (s' & _ & H).
  cbn [px_f] in H. apply kids_follows in H; [|apply px_common]. inversion H; subst; eauto. destruct fs; [|discriminate]. exists []. auto.
Qed.

(** ** Reading a field *)
Lemma scalar_some ty t : pr_scalar ty = Some t -> In ty proto_scalars.
Proof.
  unfold pr_scalar. intros H. repeat (match type of H with (if String.eqb ty ?s then _ else _) = _ => destruct (String.eqb_spec ty s) as [->|_];
    [cbn; tauto|] end). discriminate.
Qed.
Lemma scalar_in ty : In ty proto_scalars -> exists t, pr_scalar ty = Some t /\ scalar_reads ty t /\ children t = [] /\ get_c t = mkC (c_logical (get_c t)) PNone PNone (c_extra (get_c t)) /\ is_proxy t = false.
Proof.
  intros I. cbn [In proto_scalars] in I.
  repeat (destruct I as [<-|I]; [eexists; split; [vm_compute; reflexivity|]; (split; [constructor; vm_compute; (reflexivity || discriminate)|auto])|]). destruct I.
Qed.
Lemma refers_dot p ty : refers p ty (if substr_in "." ty then ty else (p ++ "." ++ ty)%string).
Proof.
  unfold refers, dotless. destruct (substr_in "." ty) eqn:E.
  - right. split; auto. apply substr_spec in E as (a & b & ->). intros N. now apply (N a b).
  - left. split; auto. intros a b ->. assert (X : substr_in "." (a ++ "." ++ b) = true) by (apply substr_spec; eauto). congruence.
Qed.
(** The type before resolution. *)
Lemma type_inv p ty t : pr_type (Some p) ty = Ok t ->
  (In ty proto_scalars /\ scalar_reads ty t /\ children t = [] /\ is_proxy t = false /\ pr_scalar ty = Some t) \/
  (~ In ty proto_scalars /\ exists a, refers p ty a /\ t = TProxy (mkC PNone (PStr a) PNone []) None).
Proof.
  unfold pr_type. destruct (pr_scalar ty) as [u|] eqn:E.
  - intros [= ->]. left. apply scalar_some in E as I. destruct (scalar_in _ I) as (w & E' & W & C & _ & P). rewrite E in E'. injection E' as <-. tauto.
  - intros H. right. split; [intros I; destruct (scalar_in _ I) as (w & E' & _); congruence|].
    apply rbind_Ok in H as (a & A & H). injection H as <-. exists a. split; auto.
    pose proof (refers_dot p ty) as F. destruct (substr_in "." ty); cbn in A; injection A as <-; exact F.
Qed.
Lemma follows_scalar t t' : follows t t' -> children t = [] -> is_proxy t = false -> t' = t.
Proof. destruct 1; intros C P; try discriminate; auto; cbn in C; subst; inversion H; auto. Qed.
Lemma type_follows p ty t k t' : pr_type (Some p) ty = Ok t -> follows (set_c t (mkC (c_logical (get_c t)) (c_alias (get_c t)) (c_doc (get_c t)) k)) t' -> type_reads p ty t'.
Proof.
  intros T F. destruct (type_inv _ _ _ T) as [(I & S & C & P & _)|(I & a & Ra & ->)].
  - left. split; auto. apply follows_scalar in F; [|now destruct t|now destruct t]. subst t'. destruct S; cbn [set_c get_c]; solve [constructor; auto].
  - right. split; auto. exists a. split; auto. cbn in F. inversion F; subst; unfold aliased; auto.
Qed.
Lemma same_common t : set_c t (mkC (c_logical (get_c t)) (c_alias (get_c t)) (c_doc (get_c t)) (c_extra (get_c t))) = t.
Proof. destruct t; cbn; destruct c; reflexivity. Qed.
Lemma type_follows' p ty t t' : pr_type (Some p) ty = Ok t -> follows t t' -> type_reads p ty t'.
Proof. intros T F. eapply type_follows; eauto. rewrite same_common. exact F. Qed.
Lemma null_follows t' : follows (TNull c0) t' -> t' = TNull c0.
Proof. intros F. apply follows_scalar in F; auto. Qed.
Lemma extra_name t n : NoDup (dkeys (c_extra (get_c t))) -> forall t', follows (set_extra_key "name" n t) t' -> has_name t' n.
Proof.
  intros ND t' F. unfold has_name. assert (D : dget "name" (dset "name" n (c_extra (get_c t))) = Some n) by (rewrite dget_dset; reflexivity).
  destruct (is_proxy t) eqn:P.
  - destruct t as [| | | | | | | | | | |c o]; try discriminate. unfold set_extra_key in F. cbn in F.
    inversion F as [ | | | | |? ? ? _ K]; subst; cbn in *; auto. apply K; auto.
    now apply dset_NoDup.
  - apply follows_common in F; [|unfold set_extra_key; now destruct t]. rewrite F. unfold set_extra_key. now rewrite set_c_common.
Qed.

Lemma field_follows p n ty c t t' : pr_field (Some p) n ty c = Ok t -> follows t t' -> field_reads p (EField n 0 ty c) t'.
Proof.
  unfold pr_field. intros H F. apply rbind_Ok in H as (u & T & H). injection H as <-.
  assert (NU : NoDup (dkeys (c_extra (get_c u)))).
  { destruct (type_inv _ _ _ T) as [(_ & _ & _ & _ & S)|(_ & a & _ & ->)]; [|constructor].
    clear - S. unfold pr_scalar in S. repeat (match type of S with (if ?b then _ else _) = _ => destruct b;
      [injection S as <-; cbn; repeat constructor; cbn; intuition discriminate|] end). discriminate. }
  cbn [field_reads]. split.
  - eapply extra_name; [|exact F].
    destruct (repeated c), (required c); try (repeat constructor; cbn; tauto); auto.
    all: destruct (is_null u); [unfold set_extra_key; rewrite set_c_common; cbn [c_extra]; now apply dset_NoDup|repeat constructor; cbn; tauto].
  - destruct c as [[| |]|]; cbn [repeated required] in F.
    + left. split; auto. cbn [value_reads]. eapply type_follows; eauto.
    + right. split; [discriminate|]. split.
      * destruct (is_null u) eqn:N; [destruct u; try discriminate; apply follows_scalar in F; try reflexivity; subst t'; unfold null_default; cbn; now rewrite dget_dset, dget_dset|].
        apply follows_common in F; [|reflexivity]. unfold null_default. rewrite F. reflexivity.
      * destruct (is_null u) eqn:N.
        -- left. destruct (type_inv _ _ _ T) as [(I & S & C & P & _)|(I & a & Ra & ->)]; [|discriminate].
           split; [inversion S; subst; try discriminate; reflexivity|]. split; [discriminate|].
           destruct u; try discriminate. apply follows_scalar in F; try reflexivity. now subst t'.
        -- right. cbn in F. inversion F as [ | | | |? ? fs' F2|]; subst; [discriminate|].
           inversion F2 as [|? ? ? ? A1 A2]; subst. inversion A2 as [|? ? ? ? A3 A4]; subst. inversion A4; subst. apply null_follows in A1. subst.
           eexists _, _. split; [reflexivity|]. cbn [value_reads]. eapply type_follows'; eauto.
    + right. split; [discriminate|]. cbn in F. inversion F as [ | | | |? ? fs' F2|]; subst; [discriminate|]. split; [reflexivity|].
      right. inversion F2 as [|? ? ? ? A1 A2]; subst. inversion A2 as [|? ? ? ? A3 A4]; subst. inversion A4; subst. apply null_follows in A1. subst.
      eexists _, _. split; [reflexivity|]. cbn [value_reads]. inversion A3; subst; [discriminate|]. eexists _, _, _, _. split; [reflexivity|]. eapply type_follows'; eauto.
    + right. split; [discriminate|]. split.
      * destruct (is_null u) eqn:N; [destruct u; try discriminate; apply follows_scalar in F; try reflexivity; subst t'; unfold null_default; cbn; now rewrite dget_dset, dget_dset|].
        apply follows_common in F; [|reflexivity]. unfold null_default. rewrite F. reflexivity.
      * destruct (is_null u) eqn:N.
        -- left. destruct (type_inv _ _ _ T) as [(I & S & C & P & _)|(I & a & Ra & ->)]; [|discriminate].
           split; [inversion S; subst; try discriminate; reflexivity|]. split; [discriminate|].
           destruct u; try discriminate. apply follows_scalar in F; try reflexivity. now subst t'.
        -- right. cbn in F. inversion F as [ | | | |? ? fs' F2|]; subst; [discriminate|].
           inversion F2 as [|? ? ? ? A1 A2]; subst. inversion A2 as [|? ? ? ? A3 A4]; subst. inversion A4; subst. apply null_follows in A1. subst.
           eexists _, _. split; [reflexivity|]. cbn [value_reads]. eapply type_follows'; eauto.
Qed.
Lemma map_follows p n k v t t' i : pr_map (Some p) n k v = Ok t -> follows t t' -> field_reads p (EMapField n i k v) t'.
Proof.
  unfold pr_map. intros H F. apply rbind_Ok in H as (tk & K & H). destruct (match tk with TInt _ _ _ => _ | _ => _ end); [|discriminate].
  apply rbind_Ok in H as (tv & V & H). injection H as <-. inversion F as [ | | | |? ? fs' F2|]; subst; [discriminate|].
  inversion F2 as [|? ? ? ? A1 A2]; subst. inversion A2 as [|? ? ? ? A3 A4]; subst. inversion A4; subst. apply null_follows in A1. subst.
  cbn [field_reads]. split; [|split; [reflexivity|]].
  - intros N. unfold has_name. cbn. destruct n; try reflexivity. congruence.
  - inversion A3; subst; [discriminate|]. eexists _, _, _, _. split; [reflexivity|]. split; eapply type_follows'; eauto.
Qed.
Lemma oneof_follows p n l t t' : pr_oneof (Some p) n l = Ok t -> follows t t' -> field_reads p (EOneOf n l) t'.
Proof.
  rewrite pr_oneof_eq. intros H F. apply rbind_Ok in H as (ts & O & H). injection H as <-. inversion F as [ | | | |? ? fs' F2|]; subst; [discriminate|].
  inversion F2 as [|? ? ? ? A1 A2]; subst. apply null_follows in A1. subst. cbn [field_reads].
  split; [reflexivity|]. split; [reflexivity|]. eexists _, _. split; [reflexivity|]. clear F F2.
  revert ts l' O A2. induction l as [|x l IH]; intros ts l' O A2; [injection O as <-; inversion A2; constructor|].
  destruct x; cbn [filter]; try exact (IH ts l' O A2). cbn [oneof_members] in O. apply rbind_Ok in O as (u & U & O). apply rbind_Ok in O as (us & O & E). injection E as <-.
  inversion A2 as [|? ? ? ? A3 A4]; subst. constructor; [|now apply (IH us)].
  pose proof (field_follows _ _ _ _ _ _ U A3) as G. cbn [field_reads] in G. destruct G as [G [(_ & V)|(N & _)]]; [|congruence]. split; auto.
Qed.
Lemma fields_follow p els : forall R R1 fs fs', read_elements (Some p) els R = (R1, Ok fs) -> Forall2 follows fs fs' ->
  Forall2 (field_reads p) (filter is_member els) fs'.
Proof.
  induction els as [|x els IH]; intros R R1 fs fs' H F; [injection H as <- <-; inversion F; constructor|].
  rewrite read_elements_cons in H. unfold mbind in H. destruct (read_element (Some p) x R) as [R2 [f|e]] eqn:E; [|discriminate].
  destruct (read_elements (Some p) els R2) as [R3 [gs|e]] eqn:E2; [|discriminate]. injection H as <- <-.
  apply Forall2_app_inv_l in F as (f' & gs' & F1 & F2 & ->). specialize (IH _ _ _ _ E2 F2).
  destruct x; cbn [filter is_member read_element] in *.
  - apply mbind_lift in E as (u & U & E). injection E as <- <-. inversion F1 as [|? ? ? ? A3 A4]; subst. inversion A4; subst. constructor; auto.
    eapply field_follows; eauto.
  - apply mbind_lift in E as (u & U & E). injection E as <- <-. inversion F1 as [|? ? ? ? A3 A4]; subst. inversion A4; subst. constructor; auto.
    eapply map_follows; eauto.
  - apply mbind_lift in E as (u & U & E). injection E as <- <-. inversion F1 as [|? ? ? ? A3 A4]; subst. inversion A4; subst. constructor; auto.
    eapply oneof_follows; eauto.
  - unfold mbind in E. destruct (pr_message _ _ _) as [R4 [u|e]]; [|discriminate]. injection E as <- <-. inversion F1; subst. exact IH.
  - unfold mbind in E. destruct (pr_enum _ _ _ _) as [R4 [u|e]]; [|discriminate]. injection E as <- <-. inversion F1; subst. exact IH.
  - injection E as <- <-. inversion F1; subst. exact IH.
Qed.
Lemma elements_root p l : forall R R1 root t, pr_elements (Some p) l root R = (R1, Ok (Some t)) ->
  root = Some t \/ root = None /\ exists n els R0 R2, first_message (body l) = Some (n, els) /\ pr_message (Some p) (EMessage n els) R0 = (R2, Ok t).
Proof.
  induction l as [|x l IH]; intros R R1 root t H; [injection H as <- ->; auto|]. cbn [pr_elements] in H. destruct x as [q|e|].
  - apply IH in H. exact H.
  - assert (B : body (FElement e :: l) = e :: body l) by reflexivity. rewrite B. destruct e; try (apply IH in H; exact H).
    + unfold mbind in H. destruct (pr_message (Some p) (EMessage name els) R) as [R2 [u|e]] eqn:E; [|discriminate].
      apply IH in H as [H|[H _]]; destruct root; try discriminate; auto. injection H as <-. right. split; auto. cbn [first_message]. eauto 8.
    + unfold mbind in H. destruct (pr_enum _ _ _ _) as [R2 [u|e]]; [|discriminate]. apply IH in H. exact H.
  - apply IH in H. exact H.
Qed.
(** C85 *)
Theorem first_message_read l p s t : first_package l = Some p -> snd (pr_to l s) = Ok t ->
  exists n els c fs, first_message (body l) = Some (n, els) /\ t = TStruct c fs /\ aliased t (p ++ "." ++ n)%string /\
    Forall2 (field_reads p) (filter is_member els) fs.
Proof.
  intros P H. unfold pr_to in H. rewrite (parse_packaged _ _ s P) in H.
  destruct (pr_elements (Some p) l None (reg s)) as [R [[u|]|e]] eqn:E; cbn [fst snd reg] in H; try discriminate.
  apply rbind_Ok in H as (v & V & H). apply elements_root in E as [E|(_ & n & els & R0 & R2 & F & M)]; [discriminate|].
  rewrite pr_message_eq in M. unfold mbind in M. destruct (read_elements (Some p) els R0) as [R3 [fs|e]] eqn:RE; [|discriminate].
  cbn [lift qualify] in M. cbv zeta in M. destruct (register_alias _ _) as [R4 [w|e]]; [|discriminate]. injection M as <- <-.
  apply resolve_follows in V as (fs' & -> & F2). injection H as <-. exists n, els. eexists _, _. split; auto. split; [reflexivity|]. split; [reflexivity|].
  eapply fields_follow; eauto.
Qed.
