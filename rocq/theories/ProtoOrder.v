(** References between the messages of a file, and the order of declarations. *)
From Coq Require Import String Ascii List NArith ZArith QArith Bool Lia Permutation.
From Verif Require Import PyVal PyValFacts RType Registry RegistryFacts Regex RegexFacts FromDict RoundTrip Url Avro SpecAvro AvroProps JsonSchema SpecTypes SpecJson JsonProps DbapiFacts BigQueryFacts Proto SpecProto ProtoWrite ProtoRead ProtoFrame ProtoShape.
Import ListNotations.
Open Scope nat_scope.
Open Scope string_scope.
Open Scope list_scope.

(** No exception, apart from fuel, which never runs out. *)
Definition nte {A} (r : res A) : Prop := forall e, r = Err e -> e = OutOfFuel.
Lemma nte_rbind {A B} (r : res A) (f : A -> res B) : nte r -> (forall a, r = Ok a -> nte (f a)) -> nte (rbind r f).
Proof. unfold nte. intros H K. destruct r as [a|x]; cbn; [exact (K a eq_refl)|]. intros e [= <-]. exact (H x eq_refl). Qed.
(** Attributes that the converter can give to a type. *)
Definition tame (c : common) : Prop := c_alias c = PNone \/ exists a, c_alias c = PStr a.
Definition slim (c : common) : Prop := forall k, In k (dkeys (c_extra c)) -> k = "name" \/ k = "default".

(** [closed ok t]: the references of [t] are in [ok] or can be followed. *)
Inductive closed : list string -> rtype -> Prop :=
| closed_node ok t : is_proxy t = false -> tame (get_c t) -> (forall x, In x (children t) -> closed ok x) -> closed ok t
| closed_skip ok c r a : c_alias c = PStr a -> In a ok -> closed ok (TProxy c r)
| closed_ref ok c R a u : c_alias c = PStr a -> slim c -> dget a R = Some u -> is_proxy u = false -> settled u -> closed (a :: ok) u ->
    closed ok (TProxy c (Some R)).
Lemma closed_weaken ok t : closed ok t -> forall ok', incl ok ok' -> closed ok' t.
Proof.
  induction 1 as [ok t P T _ IH|ok c r a A I|ok c R a u A L0 G P S _ IH]; intros ok' L.
  - apply closed_node; auto.
  - eapply closed_skip; eauto.
  - eapply closed_ref; eauto. apply IH. intros x [<-|X]; [now left|right; auto].
Qed.
Lemma closed_same_children ok t t' : closed ok t -> is_proxy t = false -> is_proxy t' = false -> tame (get_c t') ->
  children t' = children t -> closed ok t'.
Proof. intros C P P' T E. inversion C; subst; try discriminate. apply closed_node; auto. now rewrite E. Qed.
Lemma attr_children t k v t' : set_attr t k v = Ok t' -> children t' = children t /\ is_proxy t' = is_proxy t.
Proof.
  unfold set_attr. intros H. destruct (opaque_attr t k); [discriminate|].
  repeat (match type of H with
          | (if ?b then _ else _) = _ => destruct b
          | match ?t with _ => _ end = _ => destruct t; try discriminate
          | Ok _ = Ok _ => injection H as <-
          end); cbn; auto; destruct t; auto.
Qed.
Lemma attrs_children l : forall t t', set_attrs t l = Ok t' -> children t' = children t /\ is_proxy t' = is_proxy t.
Proof.
  induction l as [|[k v] l IH]; intros t t' H; cbn [set_attrs] in H; [injection H as <-; auto|].
  apply rbind_Ok in H as (u & E & H). apply attr_children in E as [E1 E2]. apply IH in H as [H1 H2]. split; congruence.
Qed.
Lemma nte_attrs l : (forall k, In k (dkeys l) -> k = "name" \/ k = "default") -> forall t, nte (set_attrs t l).
Proof.
  induction l as [|[k v] l IH]; intros H t; cbn [set_attrs]; [discriminate|]. apply nte_rbind; [|intros; apply IH; intros; apply H; now right].
  intros e E. exfalso. destruct (H k (or_introl eq_refl)) as [-> | ->]; destruct t; discriminate.
Qed.
Definition covers (ok : list string) (s : marks) : Prop := forall a, In a ok -> In a (fst s) \/ In a (snd s).
Definition le (s s' : marks) : Prop := incl (fst s) (fst s') /\ incl (snd s) (snd s').
Lemma le_refl s : le s s.
Proof. split; apply incl_refl. Qed.
Lemma le_trans s1 s2 s3 : le s1 s2 -> le s2 s3 -> le s1 s3.
Proof. intros [A B] [C D]. split; eapply incl_tran; eauto. Qed.
Lemma covers_le ok s s' : covers ok s -> le s s' -> covers ok s'.
Proof. intros C [A B] a I. destruct (C a I); auto. Qed.
Lemma le_after s s' : le s s' -> le s (after s s').
Proof. intros [A B]. unfold after, le. destruct s as [[|x a] [|y b]]; cbn in *; split; auto; intros z []. Qed.

Section Follow.
  Variables (prox : marks -> rtype -> res (rtype * marks)) (R : registry).
  Hypothesis LP : forall s t r, prox s t = Ok r -> le s (snd r).
  Lemma enter_le kids t : (forall s r, kids s t = Ok r -> le s (snd r)) -> forall s r, px_enter kids prox R s t = Ok r -> le s (snd r).
  Proof.
    intros K s r H. rewrite px_enter_eq in H. apply rbind_Ok in H as (q & H & E). injection E as <-. cbn [snd]. apply le_after.
    unfold px_step in H. destruct (is_proxy t) eqn:P.
    - destruct t; try discriminate. destruct (c_alias c); try discriminate. destruct (_ || _); [injection H as <-; apply le_refl|].
      apply rbind_Ok in H as (u & _ & H). apply LP in H. eapply le_trans; [|exact H]. split; cbn; [intros x; now right|apply incl_refl].
    - assert (K' : (s' <- see t s ;; kids s' t)%res = Ok q) by (destruct t; try exact H; discriminate).
      apply rbind_Ok in K' as (s' & S & K'). apply K in K'. eapply le_trans; [|exact K']. unfold see in S.
      destruct (c_alias (get_c t)); try discriminate; injection S as <-; [apply le_refl|]. split; cbn; [apply incl_refl|intros x; now right].
  Qed.
  Lemma all_le enter l : (forall x s r, In x l -> enter s x = Ok r -> le s (snd r)) -> forall s r, px_all enter l s = Ok r -> le s (snd r).
  Proof.
    induction l as [|x l IH]; intros H s r K; [injection K as <-; apply le_refl|]. rewrite px_all_cons in K.
    apply rbind_Ok in K as (q & K1 & K). apply rbind_Ok in K as (q2 & K2 & K). injection K as <-. cbn [snd].
    eapply le_trans; [eapply H; eauto; now left|]. eapply IH; eauto. intros; eapply H; eauto. now right.
  Qed.
  Lemma kids_le t : forall s r, px_kids prox R s t = Ok r -> le s (snd r).
  Proof.
    induction t as [t IH] using parts_ind. intros s r H.
    assert (EN : forall x s r, In x (children t) -> px_enter (px_kids prox R) prox R s x = Ok r -> le s (snd r)).
    { intros x s0 r0 I. apply enter_le. intros; eapply IH; eauto. }
    rewrite px_kids_eq in H. cbv zeta in H. destruct t; cbn [children] in *; try (injection H as <-; apply le_refl).
    - apply rbind_Ok in H as (q & K & H). injection H as <-. exact (EN _ _ _ (or_introl eq_refl) K).
    - apply rbind_Ok in H as (q & K & H). apply rbind_Ok in H as (q2 & K2 & H). injection H as <-. cbn [snd].
      eapply le_trans; [exact (EN _ _ _ (or_introl eq_refl) K)|exact (EN _ _ _ (or_intror (or_introl eq_refl)) K2)].
    - apply rbind_Ok in H as (q & K & H). injection H as <-. exact (all_le _ _ EN _ _ K).
    - apply rbind_Ok in H as (q & K & H). injection H as <-. exact (all_le _ _ EN _ _ K).
  Qed.
  (** No dangling reference. *)
  Hypothesis HP : forall s ok u, closed ok u -> is_proxy u = false -> covers ok s -> nte (prox s u).
  Definition reachable_ref (ok : list string) (t : rtype) : Prop :=
    match t with
    | TProxy c o => exists a, c_alias c = PStr a /\
        (In a ok \/ slim c /\ exists u, dget a (proxy_reg R o) = Some u /\ is_proxy u = false /\ settled u /\ closed (a :: ok) u)
    | _ => False
    end.
  Lemma enter_proxy kids c o ok s : reachable_ref ok (TProxy c o) -> covers ok s -> nte (px_enter kids prox R s (TProxy c o)).
  Proof.
    intros (a & A & H) C. rewrite px_enter_eq. apply nte_rbind; [|discriminate]. unfold px_step. rewrite A.
    destruct (str_in a (fst s) || str_in a (snd s)) eqn:E; [discriminate|].
    destruct H as [I|(X & u & G & P & S & CL)].
    { exfalso. apply orb_false_iff in E as [E1 E2]. destruct (C a I) as [I'|I']; apply str_in_iff in I'; congruence. }
    cbn [resolve]. rewrite A. unfold from_alias. rewrite G. cbn [rbind]. rewrite (settled_freeze _ _ S).
    apply nte_rbind; [now apply nte_attrs|]. intros w W. apply attrs_children in W as [W1 W2]. cbv zeta.
    apply (HP _ (a :: ok)).
    - eapply closed_same_children; [exact CL|exact P| | |]; destruct w; cbn in *; try congruence; right; eexists; reflexivity.
    - destruct w; cbn in *; congruence.
    - intros b [<-|I]; cbn; auto. destruct (C b I); auto.
  Qed.
  Lemma enter_node kids t s : is_proxy t = false -> tame (get_c t) -> (forall s', le s s' -> nte (kids s' t)) -> nte (px_enter kids prox R s t).
  Proof.
    intros P T K. rewrite px_enter_eq. apply nte_rbind; [|discriminate]. unfold px_step.
    assert (X : nte (s' <- see t s ;; kids s' t)%res); [|destruct t; try exact X; discriminate].
    unfold see. destruct T as [-> | [a ->]]; cbn [rbind]; apply K; [apply le_refl|]. split; cbn; [apply incl_refl|intros x; now right].
  Qed.
  Lemma all_nte enter ok l : (forall x s r, In x l -> enter s x = Ok r -> le s (snd r)) ->
    (forall x s, In x l -> covers ok s -> nte (enter s x)) -> forall s, covers ok s -> nte (px_all enter l s).
  Proof.
    induction l as [|x l IH]; intros L H s C; [discriminate|]. rewrite px_all_cons. apply nte_rbind; [apply H; [now left|exact C]|].
    intros q Q. apply nte_rbind; [|discriminate]. apply IH.
    - intros; eapply L; eauto. now right.
    - intros; apply H; auto. now right.
    - eapply covers_le; eauto. eapply L; eauto. now left.
  Qed.
  (** Below a type whose references are reachable. *)
  Lemma kids_nte ok (G : rtype -> Prop) : (forall t x, G t -> is_proxy t = false -> In x (children t) -> G x) ->
    (forall t, G t -> is_proxy t = false -> tame (get_c t)) ->
    (forall c o, G (TProxy c o) -> reachable_ref ok (TProxy c o)) ->
    forall t s, G t -> covers ok s -> nte (px_kids prox R s t).
  Proof.
    intros GC GT GP t. induction t as [t IH] using parts_ind. intros s HG C.
    assert (EN : forall x s, G t -> is_proxy t = false -> In x (children t) -> covers ok s -> nte (px_enter (px_kids prox R) prox R s x)).
    { intros x s0 Gt P I Cs. destruct (is_proxy x) eqn:PX.
      - destruct x; try discriminate. eapply enter_proxy; eauto.
      - apply enter_node; eauto. intros s' L. apply IH; eauto. eapply covers_le; eauto. }
    rewrite px_kids_eq. cbv zeta. destruct t; cbn [children is_proxy] in *; try discriminate.
    - apply nte_rbind; [apply EN; cbn; auto|discriminate].
    - apply nte_rbind; [apply EN; cbn; auto|]. intros q Q. apply nte_rbind; [|discriminate]. apply EN; cbn; auto.
      eapply covers_le; eauto. eapply enter_le; [|exact Q]. intros; eapply kids_le; eauto.
    - apply nte_rbind; [|discriminate]. apply (all_nte _ ok); auto. intros x s0 r I. apply enter_le. intros; eapply kids_le; eauto.
    - apply nte_rbind; [|discriminate]. apply (all_nte _ ok); auto. intros x s0 r I. apply enter_le. intros; eapply kids_le; eauto.
  Qed.
  Lemma kids_closed ok t s : closed ok t -> covers ok s -> nte (px_kids prox R s t).
  Proof.
    intros CL C. revert CL C. apply kids_nte.
    - intros t0 x CL P I. inversion CL; subst; auto; discriminate.
    - intros t0 CL P. inversion CL; subst; auto; discriminate.
    - intros c o CL. inversion CL as [? ? P|? ? ? a A I|? ? Q a u A X G P S CL']; subst; [discriminate| |]; exists a; split; auto.
      right. split; auto. exists u. auto.
  Qed.
End Follow.
Lemma px_le n R s t r : px_f n R s t = Ok r -> le s (snd r).
Proof.
  revert s t r. induction n as [|n IH]; intros s t r; cbn [px_f]; apply kids_le; [discriminate|exact IH].
Qed.
Lemma px_nte n R s ok t : closed ok t -> covers ok s -> nte (px_f n R s t).
Proof.
  revert s ok t. induction n as [|n IH]; intros s ok t CL C; cbn [px_f]; (eapply kids_closed; [ | |exact CL|exact C]).
  - discriminate.
  - intros ? ? ? _ _ _ e [= <-]. reflexivity.
  - apply px_le.
  - intros s' ok' u CL' _ C'. eapply IH; eauto.
Qed.

(** ** Parsing succeeds *)
(** The references of a type that was just read. *)
Inductive only (S : list string) : rtype -> Prop :=
| only_node t : is_proxy t = false -> tame (get_c t) -> (forall x, In x (children t) -> only S x) -> only S t
| only_live c a : c_alias c = PStr a -> slim c -> In a S -> only S (TProxy c None).
Lemma only_weaken S t : only S t -> forall S', incl S S' -> only S' t.
Proof. induction 1; intros S' L; [apply only_node; auto|eapply only_live; eauto]. Qed.
Lemma tame_c0 : tame c0.
Proof. now left. Qed.
Lemma only_extra S k v t : k = "name" \/ k = "default" -> only S t -> only S (set_extra_key k v t).
Proof.
  intros K H. unfold set_extra_key. destruct H as [t P T C|c a A L I].
  - apply only_node; [now destruct t|now destruct t|]. intros x X. apply C. now destruct t.
  - eapply only_live; [exact A| |exact I]. intros k' I'. cbn [c_extra] in I'. apply dset_keys in I' as [I'| ->]; auto.
Qed.
Lemma ref_of_type p ty t : pr_type (Some p) ty = Ok t -> only (ref_of p ty) t.
Proof.
  intros T. pose proof (type_inv _ _ _ T) as K. destruct K as [(I & _ & C & P & E)|(N & _)].
  - apply only_node; [exact P| |rewrite C; intros x []]. destruct (scalar_in _ I) as (w & E' & _ & _ & G & _). rewrite E in E'. injection E' as <-.
    rewrite G. now left.
  - unfold ref_of. destruct (existsb (String.eqb ty) proto_scalars) eqn:E.
    { exfalso. apply N. apply existsb_exists in E as (x & I & Q). apply String.eqb_eq in Q. now subst. }
    unfold pr_type in T. destruct (pr_scalar ty) eqn:E2; [apply scalar_some in E2; contradiction|]. apply rbind_Ok in T as (a & A & T). injection T as <-.
    eapply only_live; [reflexivity|intros k []|]. destruct (substr_in "." ty); cbn in A; injection A as <-; now left.
Qed.
Lemma field_only p n ty c t : pr_field (Some p) n ty c = Ok t -> only (ref_of p ty) t.
Proof.
  unfold pr_field. intros H. apply rbind_Ok in H as (u & T & H). injection H as <-. apply ref_of_type in T. apply only_extra; [now left|].
  assert (F : only (ref_of p ty) (if repeated c then TList c0 u PNone (PBool true) else u)).
  { destruct (repeated c); auto. apply only_node; [reflexivity|first [now left|right; eexists; reflexivity]|]. intros x [<-|[]]. exact T. }
  destruct (required c); auto. apply only_extra; [now right|]. destruct (is_null _); auto. apply only_node; [reflexivity|now left|].
  intros x [<-|[<-|[]]]; [|exact F]. apply only_node; [reflexivity|first [now left|right; eexists; reflexivity]|]. intros x [].
Qed.
Lemma element_only p x : forall R R1 f, read_element (Some p) x R = (R1, Ok f) -> Forall (only (refs_of p [x])) f.
Proof.
  intros R R1 f H. unfold refs_of. cbn [flat_map]. rewrite app_nil_r. destruct x; cbn [read_element] in H.
  - apply mbind_lift in H as (u & U & H). injection H as <- <-. constructor; [|constructor]. eapply field_only; eauto.
  - apply mbind_lift in H as (u & U & H). injection H as <- <-. constructor; [|constructor]. unfold pr_map in U.
    apply rbind_Ok in U as (tk & K & U). destruct (match tk with TInt _ _ _ => _ | _ => _ end); [|discriminate].
    apply rbind_Ok in U as (tv & V & U). injection U as <-. apply ref_of_type in K. apply ref_of_type in V.
    apply only_node; [reflexivity|first [now left|right; eexists; reflexivity]|]. intros x [<-|[<-|[]]]; [apply only_node; [reflexivity|now left|intros x []]|]. apply only_node; [reflexivity|first [now left|right; eexists; reflexivity]|].
    intros x [<-|[<-|[]]]; eapply only_weaken; eauto; [apply incl_appl|apply incl_appr]; apply incl_refl.
  - apply mbind_lift in H as (u & U & H). injection H as <- <-. constructor; [|constructor]. rewrite pr_oneof_eq in U.
    apply rbind_Ok in U as (ts & O & U). injection U as <-. apply only_node; [reflexivity|now left|]. intros x [<-|I]; [apply only_node; [reflexivity|now left|intros x []]|].
    revert ts O x I. induction els as [|e els IH]; intros ts O x I; [injection O as <-; destruct I|]. cbn [flat_map].
    destruct e; try exact (IH _ O x I). cbn [oneof_members] in O. apply rbind_Ok in O as (u & U & O). apply rbind_Ok in O as (us & O & E). injection E as <-.
    destruct I as [<-|I].
    + eapply only_weaken; [eapply field_only; eauto|]. apply incl_appl, incl_refl.
    + eapply only_weaken; [eapply IH; eauto|]. apply incl_appr, incl_refl.
  - unfold mbind in H. destruct (pr_message _ _ _) as [R4 [u|e]]; [|discriminate]. injection H as <- <-. constructor.
  - unfold mbind in H. destruct (pr_enum _ _ _ _) as [R4 [u|e]]; [|discriminate]. injection H as <- <-. constructor.
  - injection H as <- <-. constructor.
Qed.
Lemma elements_only p els : forall R R1 fs, read_elements (Some p) els R = (R1, Ok fs) -> Forall (only (refs_of p els)) fs.
Proof.
  induction els as [|x els IH]; intros R R1 fs H; [injection H as <- <-; constructor|]. rewrite read_elements_cons in H. unfold mbind in H.
  destruct (read_element (Some p) x R) as [R2 [f|e]] eqn:E; [|discriminate].
  destruct (read_elements (Some p) els R2) as [R3 [gs|e]] eqn:E2; [|discriminate]. injection H as <- <-. apply Forall_app. split.
  - apply element_only in E. eapply Forall_impl; [|exact E]. intros t T. eapply only_weaken; eauto. unfold refs_of. cbn [flat_map].
    rewrite app_nil_r. apply incl_appl, incl_refl.
  - apply IH in E2. eapply Forall_impl; [|exact E2]. intros t T. eapply only_weaken; eauto. unfold refs_of. cbn [flat_map]. apply incl_appr, incl_refl.
Qed.
Section Root.
  Variables (p root : string).
  Definition sound_entry (a : string) (u : rtype) : Prop :=
    is_proxy u = false /\ settled u /\ (a = root \/ closed [a; root] u).
  (** All names of [N] are registered and can be followed. *)
  Definition ready (N : list string) (R : registry) : Prop :=
    settled_reg R /\ forall a, In a N -> exists u, dget a R = Some u /\ sound_entry a u.
  Lemma closed_freeze R ok S t : only S t -> (forall a, In a S -> In a ok \/ exists u, dget a R = Some u /\ is_proxy u = false /\ settled u /\ closed (a :: ok) u) ->
    closed ok (freeze R t).
  Proof.
    intros O H. induction O as [t P T C IH|c a A L I].
    - apply closed_node; [now destruct t as [| | | | | | | | | | |c o]|now destruct t|]. intros x X.
      destruct t; cbn [freeze children] in *; try (destruct X; fail); try discriminate.
      + destruct X as [<-|[]]. apply IH. now left.
      + destruct X as [<-|[<-|[]]]; apply IH; [now left|right; now left].
      + apply in_map_iff in X as (y & <- & Y). now apply IH.
      + apply in_map_iff in X as (y & <- & Y). now apply IH.
    - cbn [freeze]. destruct (H a I) as [J|(u & G & P & S' & CL)]; [eapply closed_skip; eauto|eapply closed_ref; eauto].
  Qed.
  Lemma ready_register N R R1 t a u S : ready N R -> c_alias (get_c t) = PStr a -> register_alias t R = (R1, Ok u) ->
    is_proxy t = false -> fresh_refs t -> only S t -> (a = root \/ Forall (fun x => x = a \/ x = root \/ In x N) S) -> ready (a :: N) R1.
  Proof.
    intros [SR RN] A H P F O B. assert (SR1 : settled_reg R1).
    { destruct (keeps_register t F R SR) as [K _]. now rewrite H in K. }
    split; auto. unfold register_alias in H. rewrite A in H. destruct (dmem a R) eqn:M; [discriminate|].
    destruct (re_match alias_regex a); [|discriminate]. injection H as <- _.
    assert (NR : dget a R = None) by (unfold dmem in M; destruct (dget a R); [discriminate|reflexivity]).
    intros b [<-|I].
    - exists (stored R t). split; [rewrite dget_app, NR; cbn; now rewrite String.eqb_refl|].
      assert (PS : is_proxy (stored R t) = false) by (unfold stored; destruct t as [| | | | | | | | | | |c o]; cbn in *; auto; discriminate).
      split; auto. split.
      { unfold settled_reg in SR1. rewrite Forall_forall in SR1. apply (SR1 (a, stored R t)). apply in_or_app. right. now left. }
      destruct B as [B|B]; [now left|right].
      assert (C : closed [a; root] (freeze R t)).
      { eapply closed_freeze; eauto. rewrite Forall_forall in B. intros x X. destruct (B x X) as [->|[->|Y]]; [left; now left|left; right; now left|].
        destruct (RN x Y) as (u' & G & P' & S' & [->|CL]); [left; right; now left|]. right. exists u'. repeat (split; auto).
        eapply closed_weaken; eauto. intros z [<-|[<-|[]]]; [now left|right; right; now left]. }
      eapply closed_same_children; [exact C| |exact PS| |].
      + destruct t; cbn in *; auto; discriminate.
      + unfold stored. now destruct t; left.
      + unfold stored. destruct t; cbn in *; auto; discriminate.
    - destruct (RN b I) as (u' & G & K). exists u'. split; auto. now rewrite dget_app, G.
  Qed.
  Lemma ready_incl N N' R : ready N R -> incl N' N -> ready N' R.
  Proof. intros [S H] I. split; auto. Qed.
  Definition known (l : list (string * list string)) (N : list string) := rev (map fst l) ++ N.
  Lemma known_app l1 l2 N : known (l1 ++ l2) N = known l2 (known l1 N).
  Proof. unfold known. now rewrite map_app, rev_app_distr, app_assoc. Qed.
  Lemma backward_app l1 : forall l2 N, backward root N (l1 ++ l2) -> backward root N l1 /\ backward root (known l1 N) l2.
  Proof.
    induction l1 as [|[n refs] l1 IH]; intros l2 N H; [split; [exact I|exact H]|]. cbn [app backward] in H. destruct H as [A H].
    apply IH in H as [H1 H2]. split; [split; auto|]. unfold known in *. cbn [map rev]. now rewrite <- app_assoc.
  Qed.
  Lemma keeps_of {A} (P : A -> Prop) (m : M A) R R1 a : keeps P m -> settled_reg R -> m R = (R1, Ok a) -> settled_reg R1 /\ P a.
  Proof. intros K S H. destruct (K R S) as [K1 K2]. rewrite H in *. split; auto. Qed.
  Lemma register_back t a R R1 u N S : ready N R -> c_alias (get_c t) = PStr a -> register_alias t R = (R1, Ok u) ->
    is_proxy t = false -> fresh_refs t -> only S t -> backward root N [(a, S)] -> ready (known [(a, S)] N) R1.
  Proof. intros RD A H P F O [B _]. eapply ready_register; eauto. Qed.
  Lemma enum_ready n vs N R R1 u : ready N R -> pr_enum (Some p) n vs R = (R1, Ok u) -> ready ((p ++ "." ++ n)%string :: N) R1.
  Proof.
    intros RD H. unfold pr_enum, mbind in H. cbn [lift qualify] in H. cbv zeta in H.
    destruct (register_alias _ R) as [R2 [w|e]] eqn:E; [|discriminate]. injection H as <- _.
    eapply (ready_register N R R2 _ _ _ []); [exact RD| |exact E| | | |right; constructor]; try reflexivity.
    apply only_node; [reflexivity|first [now left|right; eexists; reflexivity]|]. intros x [].
  Qed.
  Lemma message_ready e : forall N R R1 t, ready N R -> backward root N (declarations p e) -> pr_message (Some p) e R = (R1, Ok t) ->
    ready (known (declarations p e) N) R1.
  Proof.
    induction e as [n i ty c|n i k v|n l _|n l IH|n v|] using element_ind'; intros N R R1 t RD B H; try discriminate.
    cbn [declarations] in *. rewrite pr_message_eq in H. unfold mbind in H.
    destruct (read_elements (Some p) l R) as [R2 [fs|e]] eqn:RE; [|discriminate]. cbn [lift qualify] in H. cbv zeta in H.
    destruct (register_alias _ R2) as [R3 [w|e]] eqn:E; [|discriminate]. injection H as <- _.
    apply backward_app in B as [B1 B2]. rewrite known_app.
    assert (O := elements_only _ _ _ _ _ RE).
    assert (K : ready (known (flat_map (declarations p) l) N) R2 /\ Forall fresh_refs fs).
    { clear E O B2. revert N R R2 fs RD B1 RE. induction IH as [|x l Hx _ IHl]; intros N R R2 fs RD B1 RE.
      - injection RE as <- <-. split; [exact RD|constructor].
      - rewrite read_elements_cons in RE. unfold mbind in RE. destruct (read_element (Some p) x R) as [R4 [f|e]] eqn:EX; [|discriminate].
        destruct (read_elements (Some p) l R4) as [R5 [gs|e]] eqn:EL; [|discriminate]. injection RE as <- <-.
        cbn [flat_map] in *. apply backward_app in B1 as [B1 B2]. rewrite known_app.
        assert (X : ready (known (declarations p x) N) R4 /\ Forall fresh_refs f).
        { destruct x; cbn [read_element declarations] in *.
          - apply mbind_lift in EX as (u & U & EX). injection EX as <- <-. split; [exact RD|]. constructor; [|constructor]. eapply field_fresh; eauto.
          - apply mbind_lift in EX as (u & U & EX). injection EX as <- <-. split; [exact RD|]. constructor; [|constructor]. eapply map_fresh; eauto.
          - apply mbind_lift in EX as (u & U & EX). injection EX as <- <-. split; [exact RD|]. constructor; [|constructor]. eapply oneof_fresh; eauto.
          - unfold mbind in EX. destruct (pr_message (Some p) _ R) as [R6 [u|e]] eqn:EM; [|discriminate]. injection EX as <- <-. split; [|constructor].
            eapply Hx; eauto.
          - unfold mbind in EX. destruct (pr_enum (Some p) _ _ R) as [R6 [u|e]] eqn:EM; [|discriminate]. injection EX as <- <-. split; [|constructor].
            eapply enum_ready; eauto.
          - injection EX as <- <-. split; [exact RD|constructor]. }
        destruct X as [X1 X2]. destruct (IHl _ _ _ _ X1 B2 EL) as [Y1 Y2]. split; auto. now apply Forall_app. }
    destruct K as [K1 K2]. eapply register_back; [exact K1| |exact E| | | |exact B2]; try reflexivity.
    - unfold fresh_refs. cbn. now apply fold_and.
    - apply only_node; [reflexivity|first [now left|right; eexists; reflexivity]|]. intros x X. rewrite Forall_forall in O. now apply O.
  Qed.
  Lemma elements_ready l : forall N R R1 r t, ready N R -> backward root N (flat_map (declarations p) (body l)) ->
    pr_elements (Some p) l r R = (R1, Ok t) -> ready (known (flat_map (declarations p) (body l)) N) R1.
  Proof.
    induction l as [|x l IH]; intros N R R1 r t RD B H; [injection H as <- <-; exact RD|]. cbn [pr_elements] in H. destruct x as [q|e|].
    - exact (IH _ _ _ _ _ RD B H).
    - assert (Q : body (FElement e :: l) = e :: body l) by reflexivity. rewrite Q in *. cbn [flat_map] in *. apply backward_app in B as [B1 B2]. rewrite known_app.
      destruct e; try (eapply IH; eauto; fail).
      + unfold mbind in H. destruct (pr_message (Some p) (EMessage name els) R) as [R2 [u|e]] eqn:E; [|discriminate].
        eapply IH; [|exact B2|exact H]. eapply message_ready; eauto.
      + unfold mbind in H. destruct (pr_enum _ _ _ _) as [R2 [u|e]] eqn:E; [|discriminate]. eapply IH; [|exact B2|exact H]. eapply enum_ready; eauto.
    - exact (IH _ _ _ _ _ RD B H).
  Qed.
End Root.
Lemma declared_known p l a N : In a (map (fun n => p ++ "." ++ n)%string (flat_map declared_in l)) -> In a (known (flat_map (declarations p) l) N).
Proof.
  intros I. apply in_or_app. left. apply -> in_rev. revert I.
  assert (E : forall e, forall a, In a (map (fun n => p ++ "." ++ n)%string (declared_in e)) -> In a (map fst (declarations p e))).
  { intros e. induction e as [n i ty c|n i k v|n m _|n m IH|n v|] using element_ind'; intros b I; cbn [declared_in declarations map] in *; try contradiction.
    - rewrite map_app, in_app_iff. cbn. destruct I as [<-|I]; [right; now left|left].
      induction IH as [|x m Hx _ IHm]; [destruct I|]. cbn [flat_map] in *. rewrite map_app, in_app_iff in *. destruct I as [I|I]; auto.
    - exact I. }
  induction l as [|x l IH]; intros I; [destruct I|]. cbn [flat_map] in *. rewrite map_app, in_app_iff in *. destruct I as [I|I]; auto.
Qed.

(** *** Every message is registered *)
Lemma register_ok t a R : c_alias (get_c t) = PStr a -> ~ In a (dkeys R) -> dotted_name a ->
  exists R1, register_alias t R = (R1, Ok tt) /\ dkeys R1 = dkeys R ++ [a].
Proof.
  intros A N D. unfold register_alias. rewrite A. apply alias_regex_spec in D. rewrite D. destruct (dmem a R) eqn:M.
  - exfalso. apply N. unfold dmem in M. destruct (dget a R) eqn:G; [|discriminate]. apply dget_In in G. apply (List.in_map fst) in G. exact G.
  - eexists. split; [reflexivity|]. now rewrite dkeys_app.
Qed.
Lemma type_ok p ty : exists t, pr_type (Some p) ty = Ok t.
Proof. unfold pr_type. destruct (pr_scalar ty); [eauto|]. destruct (substr_in "." ty); cbn; eauto. Qed.
Lemma field_ok p n ty c : exists t, pr_field (Some p) n ty c = Ok t.
Proof. unfold pr_field. destruct (type_ok p ty) as [t ->]. cbn. eauto. Qed.
Lemma map_ok p n k v : k = "string" \/ proto_range k <> None -> exists t, pr_map (Some p) n k v = Ok t.
Proof.
  intros K. unfold pr_map. destruct (type_ok p v) as [tv ->].
  assert (X : (exists c l va, pr_type (Some p) k = Ok (TString c l va)) \/ exists c b s, pr_type (Some p) k = Ok (TInt c b s)).
  { destruct K as [-> | K]; [left; eexists _, _, _; vm_compute; reflexivity|right]. destruct (proto_range k) as [r|] eqn:E; [|contradiction].
    destruct (read_range (Some p) _ _ E) as (b & s & H & _). eauto. }
  destruct X as [(c & l & va & ->)|(c & b & s & ->)]; cbn; eauto.
Qed.
Lemma oneof_ok p n l : exists t, pr_oneof (Some p) n l = Ok t.
Proof.
  rewrite pr_oneof_eq. assert (X : exists ts, oneof_members (Some p) l = Ok ts).
  { induction l as [|x l [ts IH]]; [eexists; reflexivity|]. destruct x; try (exists ts; exact IH). cbn [oneof_members].
    destruct (field_ok p name type (Some Required)) as [t ->]. fold (oneof_members (Some p)). rewrite IH. cbn. eauto. }
  destruct X as [ts ->]. cbn. eauto.
Qed.
Definition free (R : registry) (l : list string) : Prop := NoDup l /\ (forall a, In a l -> ~ In a (dkeys R)) /\ Forall dotted_name l.
Lemma free_l R a b : free R (a ++ b) -> free R a.
Proof.
  intros (N & D & F). apply Forall_app in F as [F1 _]. split; [|split]; auto.
  - clear - N. induction a; [constructor|]. inversion N; subst. constructor; auto. intros I. apply H1. apply in_or_app. now left.
  - intros x X. apply D. apply in_or_app. now left.
Qed.
Lemma free_r R R1 a b : free R (a ++ b) -> dkeys R1 = dkeys R ++ a -> free R1 b.
Proof.
  intros (N & D & F) K. apply Forall_app in F as [_ F2]. split; [|split]; auto.
  - clear - N. induction a; auto. inversion N; auto.
  - intros x X. rewrite K, in_app_iff. intros [I|I]; [eapply D; eauto; apply in_or_app; now right|].
    clear - N X I. induction a as [|y a IH]; [destruct I|]. inversion N; subst. destruct I as [->|I]; auto. apply H1. apply in_or_app. now right.
Qed.
Lemma enum_ok p n vs R : free R [(p ++ "." ++ n)%string] -> exists R1 t, pr_enum (Some p) n vs R = (R1, Ok t) /\ dkeys R1 = dkeys R ++ [(p ++ "." ++ n)%string].
Proof.
  intros (_ & D & F). inversion F as [|? ? F1 _]; subst. unfold pr_enum, mbind. cbn [lift qualify]. cbv zeta.
  destruct (register_ok (TEnum (mkC PNone (PStr (p ++ "." ++ n)) PNone []) (PList (map fst vs))) _ R eq_refl (D _ (or_introl eq_refl)) F1) as (R1 & E & K).
  rewrite E. eexists _, _. split; [reflexivity|exact K].
Qed.
Lemma message_ok p e : forall R, (exists n els, e = EMessage n els) -> good_keys e -> free R (map fst (declarations p e)) ->
  exists R1 t, pr_message (Some p) e R = (R1, Ok t) /\ dkeys R1 = dkeys R ++ map fst (declarations p e).
Proof.
  induction e as [n i ty c|n i k v|n l _|n l IH|n v|] using element_ind'; intros R (n' & els & Q) G F; try discriminate.
  clear n' els Q. cbn [declarations] in *. rewrite map_app in *. cbn [map fst] in *. rewrite pr_message_eq. unfold mbind.
  assert (X : forall R, good_keys (EMessage n l) -> free R (map fst (flat_map (declarations p) l)) ->
    exists R1 fs, read_elements (Some p) l R = (R1, Ok fs) /\ dkeys R1 = dkeys R ++ map fst (flat_map (declarations p) l)).
  { clear R G F. induction IH as [|x l Hx _ IHl]; intros R G F; [eexists _, _; split; [reflexivity|]; now rewrite app_nil_r|].
    rewrite read_elements_cons. cbn [flat_map] in *. rewrite map_app in *. destruct G as [Gx G]. unfold mbind.
    assert (Y : free R (map fst (declarations p x)) -> exists R1 f, read_element (Some p) x R = (R1, Ok f) /\ dkeys R1 = dkeys R ++ map fst (declarations p x)).
    { intros Fx. destruct x; cbn [read_element declarations map] in *; try rewrite app_nil_r.
      - destruct (field_ok p name type c) as [t E]. exists R, [t]. split; auto. now unfold mbind, lift; rewrite E.
      - destruct (map_ok p name key value Gx) as [t E]. exists R, [t]. split; auto. now unfold mbind, lift; rewrite E.
      - destruct (oneof_ok p name els) as [t E]. exists R, [t]. split; auto. now unfold mbind, lift; rewrite E.
      - destruct (Hx R) as (R1 & t & E & K); eauto. exists R1, []. split; auto. unfold mbind. now rewrite E.
      - destruct (enum_ok p name values R Fx) as (R1 & t & E & K). exists R1, []. split; auto. unfold mbind. now rewrite E.
      - exists R, []. split; auto. }
    destruct Y as (R1 & f & E & K). { eapply free_l; eauto. }
    destruct (IHl R1 G) as (R2 & fs & E2 & K2). { eapply free_r; eauto. }
    rewrite E. rewrite E2. eexists _, _. split; [reflexivity|]. now rewrite K2, K, app_assoc. }
  destruct (X R G) as (R1 & fs & E & K). { eapply free_l; eauto. }
  rewrite E. cbn [lift qualify]. cbv zeta. destruct (free_r _ _ _ _ F K) as (_ & D & L). inversion L as [|? ? L1 _]; subst.
  destruct (register_ok (TStruct (mkC PNone (PStr (p ++ "." ++ n)) PNone []) fs) _ R1 eq_refl (D _ (or_introl eq_refl)) L1) as (R2 & E2 & K2).
  rewrite E2. eexists _, _. split; [reflexivity|]. now rewrite K2, K, app_assoc.
Qed.
Lemma elements_ok p l : forall R r, Forall good_keys (body l) -> free R (map fst (flat_map (declarations p) (body l))) ->
  (r <> None \/ first_message (body l) <> None) -> exists R1 t, pr_elements (Some p) l r R = (R1, Ok (Some t)).
Proof.
  induction l as [|x l IH]; intros R r G F H; [destruct r as [t|]; [eexists _, _; reflexivity|destruct H; contradiction]|].
  cbn [pr_elements]. destruct x as [q|e|].
  - exact (IH _ _ G F H).
  - assert (Q : body (FElement e :: l) = e :: body l) by reflexivity. rewrite Q in *. cbn [flat_map] in *. rewrite map_app in *.
    inversion G as [|? ? Ge Gl]; subst. destruct e; try (eapply IH; eauto; fail).
    + destruct (message_ok p (EMessage name els) R) as (R1 & t & E & K); eauto. { eapply free_l; eauto. }
      unfold mbind. rewrite E. apply IH; [exact Gl|eapply free_r; eauto|]. left. destruct r; discriminate.
    + destruct (enum_ok p name values R) as (R1 & t & E & K). { eapply free_l; eauto. }
      unfold mbind. rewrite E. apply IH; [exact Gl|eapply free_r; eauto|exact H].
  - exact (IH _ _ G F H).
Qed.
Lemma declarations_names p l : Permutation (map fst (flat_map (declarations p) l)) (map (fun n => p ++ "." ++ n)%string (flat_map declared_in l)).
Proof.
  assert (E : forall e, Permutation (map fst (declarations p e)) (map (fun n => p ++ "." ++ n)%string (declared_in e))).
  { intros e. induction e as [n i ty c|n i k v|n m _|n m IH|n v|] using element_ind'; cbn [declared_in declarations map]; auto.
    rewrite map_app. cbn. rewrite Permutation_app_comm. cbn. constructor.
    induction IH as [|x m Hx _ IHm]; auto. cbn [flat_map]. rewrite !map_app. now apply Permutation_app. }
  induction l as [|x l IH]; auto. cbn [flat_map]. rewrite !map_app. now apply Permutation_app.
Qed.
(** C83, the true part *)
Theorem references_found l p n els s : reached s -> first_package l = Some p -> first_message (body l) = Some (n, els) ->
  Forall good_keys (body l) -> NoDup (full_names p l) -> Forall dotted_name (full_names p l) ->
  (forall a, In a (full_names p l) -> ~ In a (dkeys (reg s))) ->
  self_contained p l -> backward (p ++ "." ++ n)%string [] (flat_map (declarations p) (body l)) -> exists t, snd (pr_to l s) = Ok t.
Proof.
  intros RS P F GK ND DN FR SC B. pose proof (to_terminates l s (reached_settled _ RS)) as TM. unfold pr_to in *. rewrite (parse_packaged _ _ s P) in *.
  assert (FREE : free (reg s) (map fst (flat_map (declarations p) (body l)))).
  { pose proof (declarations_names p (body l)) as Q. split; [|split].
    - eapply Permutation_NoDup; [symmetry; exact Q|exact ND].
    - intros a I. apply FR. eapply Permutation_in; [exact Q|exact I].
    - eapply Permutation_Forall; [symmetry; exact Q|exact DN]. }
  destruct (elements_ok p l (reg s) None GK FREE) as (R & t & E). { right. rewrite F. discriminate. }
  rewrite E in *. cbn [fst snd reg] in *.
  assert (RD : ready (p ++ "." ++ n)%string (known (flat_map (declarations p) (body l)) []) R).
  { eapply elements_ready; [|exact B|exact E]. split; [now apply reached_settled|intros a []]. }
  apply elements_root in E as [E|(_ & n' & els' & R0 & R2 & F' & M)]; [discriminate|]. rewrite F in F'. injection F' as <- <-.
  enough (X : nte (pr_resolve R t)).
  { destruct (pr_resolve R t) as [v|e] eqn:V; cbn [rbind] in *; [|rewrite (X e eq_refl) in TM; now destruct TM].
    rewrite pr_message_eq in M. unfold mbind in M. destruct (read_elements (Some p) els R0) as [R3 [fs|e]] eqn:RE; [|discriminate].
    cbn [lift qualify] in M. cbv zeta in M. destruct (register_alias _ _) as [R4 [w|e]]; [|discriminate]. injection M as <- <-.
    apply resolve_follows in V as (fs' & -> & _). eauto. }
  clear TM. unfold pr_resolve. cbv zeta. apply nte_rbind; [|discriminate].
  rewrite pr_message_eq in M. unfold mbind in M. destruct (read_elements (Some p) els R0) as [R3 [fs|e]] eqn:RE; [|discriminate].
  cbn [lift qualify] in M. cbv zeta in M. destruct (register_alias _ _) as [R4 [w|e]]; [|discriminate]. injection M as <- <-.
  apply elements_only in RE. set (root := (p ++ "." ++ n)%string) in *. set (S := refs_of p els) in *. set (m := Nat.max _ _).
  rewrite px_enter_eq. apply nte_rbind; [|discriminate]. unfold px_step, see. cbn [get_c c_alias rbind]. cbn [px_f].
  apply (kids_nte (px_f m R) R (px_le m R)) with (ok := [root]) (G := only S).
  - intros s' ok u CL _ C. eapply px_nte; eauto.
  - intros t x O Q I. inversion O; subst; auto; discriminate.
  - intros t O Q. inversion O; subst; auto; discriminate.
  - intros c o O. inversion O as [? Q|? a A L I]; subst; [discriminate|]. exists a. split; auto.
    assert (D : In (root, S) (flat_map (declarations p) (body l))).
    { clear - F. revert F. induction (body l) as [|x k IH]; [discriminate|]. cbn [first_message flat_map]. intros F.
      apply in_or_app. destruct x; try (right; now apply IH). injection F as -> ->. left. cbn [declarations]. apply in_or_app. right. now left. }
    specialize (SC _ _ _ D I). apply (declared_known _ _ _ []) in SC. destruct RD as [_ RD].
    destruct (RD a SC) as (u & G & Q1 & Q2 & [->|CL]); [left; now left|]. right. split; auto. exists u. auto.
  - apply only_node; [reflexivity|right; eexists; reflexivity|]. intros x X. rewrite Forall_forall in RE. now apply RE.
  - intros a [<-|[]]. right. now left.
Qed.
(** A file that was read has no simple name twice. *)
Definition added (R R1 : registry) (l : list string) : Prop := dkeys R1 = dkeys R ++ l /\ NoDup l /\ forall a, In a l -> ~ In a (dkeys R).
Lemma added_nil R : added R R [].
Proof. split; [now rewrite app_nil_r|]. split; [constructor|intros a []]. Qed.
Lemma added_app R R1 R2 a b : added R R1 a -> added R1 R2 b -> added R R2 (a ++ b).
Proof.
  intros (K1 & N1 & D1) (K2 & N2 & D2). split; [now rewrite K2, K1, app_assoc|]. split.
  - apply NoDup_app'; auto. intros x X Y. apply (D2 x X). rewrite K1. apply in_or_app. now right.
  - intros x X Y. apply in_app_or in X as [X|X]; [exact (D1 x X Y)|]. apply (D2 x X). rewrite K1. apply in_or_app. now left.
Qed.
Lemma register_added t a R R1 u : c_alias (get_c t) = PStr a -> register_alias t R = (R1, Ok u) -> added R R1 [a].
Proof.
  intros A H. unfold register_alias in H. rewrite A in H. destruct (dmem a R) eqn:M; [discriminate|]. destruct (re_match alias_regex a); [|discriminate].
  injection H as <- _. split; [now rewrite dkeys_app|]. split; [repeat constructor; intros []|]. intros b [<-|[]] I. unfold dmem in M.
  destruct (dget a R) eqn:G; [discriminate|]. apply dget_None in I; auto.
Qed.
Lemma enum_added p n vs R R1 t : pr_enum (Some p) n vs R = (R1, Ok t) -> added R R1 [(p ++ "." ++ n)%string].
Proof.
  unfold pr_enum, mbind. cbn [lift qualify]. cbv zeta. destruct (register_alias _ R) as [R2 [w|e]] eqn:E; [|discriminate]. intros [= <- _].
  eapply register_added; [|exact E]. reflexivity.
Qed.
Lemma message_added p e : forall R R1 t, pr_message (Some p) e R = (R1, Ok t) -> added R R1 (map fst (declarations p e)).
Proof.
  induction e as [n i ty c|n i k v|n l _|n l IH|n v|] using element_ind'; intros R R1 t H; try discriminate.
  cbn [declarations]. rewrite map_app. rewrite pr_message_eq in H. unfold mbind in H.
  destruct (read_elements (Some p) l R) as [R2 [fs|e]] eqn:RE; [|discriminate]. cbn [lift qualify] in H. cbv zeta in H.
  destruct (register_alias _ R2) as [R3 [w|e]] eqn:E; [|discriminate]. injection H as <- _. apply added_app with (R1 := R2); [|eapply register_added; [|exact E]; reflexivity].
  clear E. revert R R2 fs RE. induction IH as [|x l Hx _ IHl]; intros R R2 fs RE; [injection RE as <- <-; apply added_nil|].
  rewrite read_elements_cons in RE. unfold mbind in RE. destruct (read_element (Some p) x R) as [R4 [f|e]] eqn:EX; [|discriminate].
  destruct (read_elements (Some p) l R4) as [R5 [gs|e]] eqn:EL; [|discriminate]. injection RE as <- <-.
  cbn [flat_map]. rewrite map_app. apply added_app with (R1 := R4); [|eauto].
  destruct x; cbn [read_element declarations map] in *.
  - apply mbind_lift in EX as (u & U & EX). injection EX as <- <-. apply added_nil.
  - apply mbind_lift in EX as (u & U & EX). injection EX as <- <-. apply added_nil.
  - apply mbind_lift in EX as (u & U & EX). injection EX as <- <-. apply added_nil.
  - unfold mbind in EX. destruct (pr_message (Some p) _ R) as [R6 [u|e]] eqn:EM; [|discriminate]. injection EX as <- <-. eapply Hx; eauto.
  - unfold mbind in EX. destruct (pr_enum (Some p) _ _ R) as [R6 [u|e]] eqn:EM; [|discriminate]. injection EX as <- <-. eapply enum_added; eauto.
  - injection EX as <- <-. apply added_nil.
Qed.
Lemma elements_added p l : forall R R1 r t, pr_elements (Some p) l r R = (R1, Ok t) -> added R R1 (map fst (flat_map (declarations p) (body l))).
Proof.
  induction l as [|x l IH]; intros R R1 r t H; [injection H as <- <-; apply added_nil|]. cbn [pr_elements] in H. destruct x as [q|e|].
  - exact (IH _ _ _ _ H).
  - assert (Q : body (FElement e :: l) = e :: body l) by reflexivity. rewrite Q in *. cbn [flat_map]. rewrite map_app.
    destruct e; try exact (IH _ _ _ _ H).
    + unfold mbind in H. destruct (pr_message (Some p) (EMessage name els) R) as [R2 [u|e]] eqn:E; [|discriminate].
      apply added_app with (R1 := R2); [eapply message_added; eauto|eauto].
    + unfold mbind in H. destruct (pr_enum _ _ _ _) as [R2 [u|e]] eqn:E; [|discriminate].
      apply added_app with (R1 := R2); [eapply enum_added; eauto|eauto].
  - exact (IH _ _ _ _ H).
Qed.
Theorem names_once l p s t : first_package l = Some p -> snd (pr_to l s) = Ok t ->
  NoDup (full_names p l) /\ forall a, In a (full_names p l) -> ~ In a (dkeys (reg s)).
Proof.
  intros P H. unfold pr_to in H. rewrite (parse_packaged _ _ s P) in H.
  destruct (pr_elements (Some p) l None (reg s)) as [R [[u|]|e]] eqn:E; cbn [fst snd reg] in H; try discriminate.
  apply elements_added in E as (_ & N & D). pose proof (declarations_names p (body l)) as Q. split.
  - eapply Permutation_NoDup; [exact Q|exact N].
  - intros a I. apply D. eapply Permutation_in; [symmetry; exact Q|exact I].
Qed.
(** C46 and C87, the false parts *)
Theorem second_fails ns l1 l2 t : first_package l1 = None -> first_package l2 = None -> snd (pr_to l1 (converter ns)) = Ok t ->
  exists e, snd (pr_to l2 (fst (pr_to l1 (converter ns)))) = Err e.
Proof.
  intros P1 P2 H. unfold pr_to in H |- * at 2. unfold pr_parse in *. rewrite P1 in *. cbn [converter spaces reg] in *.
  destruct (pr_elements _ l1 None builtin_aliases) as [R [[u|]|e]]; cbn [snd] in H; try discriminate. cbn [fst removelast].
  unfold pr_to, pr_parse. rewrite P2. cbn [spaces reg]. destruct (pr_elements _ l2 None R) as [R2 [[v|]|e]]; cbn [snd]; eauto.
Qed.
Theorem package_leaks l p s e : first_package l = Some p -> snd (pr_parse l s) = Err e -> spaces (fst (pr_to l s)) = spaces s ++ [p].
Proof.
  intros P H. unfold pr_to. rewrite (parse_packaged _ _ s P) in *. destruct (pr_elements _ _ _ _) as [R [[u|]|x]]; [discriminate|reflexivity|reflexivity].
Qed.
Theorem after_rejected l0 s0 ns l p t : reached s0 -> first_package l = Some p ->
  (forall a, In a (full_names p l) -> ~ In a (dkeys (reg (fst (pr_to l0 s0))))) -> snd (pr_to l (converter ns)) = Ok t ->
  exists t', snd (pr_to l (fst (pr_to l0 s0))) = Ok t' /\ by_name t' = by_name t.
Proof.
  intros S P D H. destruct (reuse_one (fst (pr_to l0 s0)) ns l p t) as (t' & A & B & _); eauto. now constructor.
Qed.
