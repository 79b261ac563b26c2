(** The references that are left in the type that to_recap returns. *)
From Coq Require Import String Ascii List NArith ZArith QArith Bool Lia.
From Verif Require Import PyVal PyValFacts RType Registry RegistryFacts FromDict RoundTrip Url Avro SpecAvro AvroProps JsonSchema SpecTypes SpecJson JsonProps DbapiFacts Proto SpecProto ProtoRead ProtoFrame ProtoShape.
Import ListNotations.
Open Scope nat_scope.
Open Scope string_scope.
Open Scope list_scope.

(** ** What the registry of a converter holds *)
(** Structs and types without parts; below the top only references have an alias. *)
Definition a_struct (t : rtype) : bool := match t with TStruct _ _ => true | _ => false end.
Definition top (t : rtype) : Prop := is_proxy t = false /\ (children t = [] \/ a_struct t = true).
Inductive solid : rtype -> Prop :=
| solid_node t : is_proxy t = false ->
    Forall (fun x => solid x /\ (is_proxy x = false -> c_alias (get_c x) = PNone)) (children t) -> solid t
| solid_ref c R : Forall (fun p => top (snd p) /\ solid (snd p)) R -> solid (TProxy c (Some R))
| solid_live c : solid (TProxy c None).
Definition solid_reg (R : registry) : Prop := Forall (fun p => top (snd p) /\ solid (snd p)) R.
Definition inner (t : rtype) : Prop := solid t /\ (is_proxy t = false -> c_alias (get_c t) = PNone).

Lemma solid_kids t : solid t -> Forall inner (children t).
Proof. destruct 1; auto; constructor. Qed.
Lemma solid_set_c t c : solid t -> solid (set_c t c).
Proof.
  destruct 1 as [t P F|c' R F|c']; [|now apply solid_ref|apply solid_live].
  apply solid_node; [now destruct t|]. destruct t; exact F.
Qed.
Lemma is_proxy_set_c t c : is_proxy (set_c t c) = is_proxy t.
Proof. now destruct t. Qed.
Lemma freeze_common R t : get_c (freeze R t) = get_c t /\ is_proxy (freeze R t) = is_proxy t.
Proof. destruct t as [| | | | | | | | | | |c [r|]]; auto. Qed.
Lemma freeze_children R t : children (freeze R t) = map (freeze R) (children t).
Proof. destruct t as [| | | | | | | | | | |c [r|]]; reflexivity. Qed.
Lemma freeze_solid R : solid_reg R -> forall t, solid t -> solid (freeze R t).
Proof.
  intros SR t. induction t as [t IH] using parts_ind. intros S. destruct (is_proxy t) eqn:P.
  - destruct t as [| | | | | | | | | | |c [r|]]; try discriminate; cbn [freeze]; auto. now apply solid_ref.
  - apply solid_node; [now rewrite (proj2 (freeze_common R t))|]. rewrite freeze_children. apply solid_kids in S.
    rewrite Forall_forall in *. intros y I. apply in_map_iff in I as (x & <- & I). destruct (S _ I) as [S1 S2]. split; [now apply IH|].
    destruct (freeze_common R x) as [-> ->]. exact S2.
Qed.
Lemma top_set_c t c : top t -> top (set_c t c).
Proof. now destruct t. Qed.
Lemma top_freeze R t : top t -> top (freeze R t).
Proof.
  intros [P C]. split; [now rewrite (proj2 (freeze_common R t))|]. rewrite freeze_children. destruct C as [->|C]; auto. right. now destruct t.
Qed.
Lemma set_attr_struct t k v t' : set_attr t k v = Ok t' -> a_struct t' = a_struct t.
Proof.
  unfold set_attr. destruct (opaque_attr t k); [discriminate|].
  assert (SC : forall c, a_struct (set_c t c) = a_struct t) by (now destruct t).
  repeat match goal with |- (if ?b then _ else _) = Ok _ -> _ => destruct b; [try (intros [= <-]; apply SC)|] end.
  - destruct v; try discriminate. intros [= <-]; apply SC.
  - destruct t; repeat match goal with |- (if ?b then _ else _) = Ok _ -> _ => destruct b end; intros [= <-]; try apply SC; reflexivity.
Qed.
Lemma set_attrs_solid l : forall t t', set_attrs t l = Ok t' -> top t -> solid t -> top t' /\ solid t'.
Proof.
  induction l as [|[k v] l IH]; intros t t' H P S; cbn [set_attrs] in H; [injection H as <-; auto|].
  apply rbind_Ok in H as (u & E & H). pose proof (set_attr_struct _ _ _ _ E) as E4. apply set_attr_shape in E as (E1 & _ & E3 & _). apply (IH u); auto.
  - destruct P as [P C]. split; [congruence|]. now rewrite E1, E4.
  - apply solid_node; [destruct P; congruence|]. rewrite E1. now apply solid_kids.
Qed.
Lemma resolve_solid R c r t' : solid_reg R -> solid (TProxy c r) -> resolve R (TProxy c r) = Ok t' -> top t' /\ solid t'.
Proof.
  intros SR S H. cbn [resolve] in H. destruct (c_alias c) as [| | | |a| |]; try discriminate.
  apply rbind_Ok in H as (t0 & F & H). unfold from_alias in F. destruct (dget a (proxy_reg R r)) as [t1|] eqn:D; [|discriminate].
  injection F as ->. apply dget_In in D.
  assert (SP : solid_reg (proxy_reg R r)) by (inversion S; subst; cbn; auto; discriminate).
  pose proof SP as SP'. unfold solid_reg in SP'. rewrite Forall_forall in SP'. destruct (SP' _ D) as [D1 D2]. cbn in D1, D2.
  apply set_attrs_solid in H; auto; [now apply top_freeze|now apply freeze_solid].
Qed.

(** ** Parsing *)
Definition upholds {A} (Q : A -> Prop) (m : M A) : Prop :=
  forall R, solid_reg R -> solid_reg (fst (m R)) /\ forall a, snd (m R) = Ok a -> Q a.
Lemma upholds_ret {A} (Q : A -> Prop) a : Q a -> upholds Q (ret a).
Proof. intros H R S. split; auto. intros b [= <-]. exact H. Qed.
Lemma upholds_fail {A} (Q : A -> Prop) e : upholds Q (fail e).
Proof. intros R S. split; auto. discriminate. Qed.
Lemma upholds_lift {A} (Q : A -> Prop) (r : res A) : (forall a, r = Ok a -> Q a) -> upholds Q (lift r).
Proof. intros H R S. split; auto. Qed.
Lemma upholds_bind {A B} (P : A -> Prop) (Q : B -> Prop) (m : M A) (f : A -> M B) : upholds P m -> (forall a, P a -> upholds Q (f a)) -> upholds Q (mbind m f).
Proof.
  intros Hm Hf R S. unfold mbind. destruct (Hm R S) as [S1 H1]. destruct (m R) as [R1 [a|e]]; cbn in *.
  - apply Hf; auto.
  - split; auto. discriminate.
Qed.
Lemma upholds_register t : top t -> solid t -> upholds (fun _ => True) (register_alias t).
Proof.
  intros P F R S. split; auto. unfold register_alias. destruct (c_alias (get_c t)); auto. destruct (dmem _ R); auto.
  match goal with |- context [if ?b then _ else _] => destruct b; auto end. cbn [fst]. apply Forall_app. split; auto. constructor; [|constructor]. cbn [snd].
  unfold stored. split; [now apply top_set_c, top_freeze|]. apply solid_set_c, freeze_solid; auto.
Qed.
Lemma scalar_inner s t : pr_scalar s = Some t -> inner t.
Proof.
  intros H. apply scalar_some in H as I. destruct (scalar_in _ I) as (u & E & _ & C & G & P). rewrite H in E. injection E as <-.
  split; [apply solid_node; auto; rewrite C; constructor|]. intros _. now rewrite G.
Qed.
Lemma type_inner top s t : pr_type top s = Ok t -> inner t.
Proof.
  unfold pr_type. destruct (pr_scalar s) as [u|] eqn:E; [intros [= <-]; eapply scalar_inner; eauto|].
  intros H. apply rbind_Ok in H as (a & _ & H). injection H as <-. split; [apply solid_live|discriminate].
Qed.
Lemma inner_extra k v t : inner t -> inner (set_extra_key k v t).
Proof.
  intros [S A]. unfold set_extra_key. split; [now apply solid_set_c|]. rewrite is_proxy_set_c, set_c_common. exact A.
Qed.
Lemma inner_kids t : is_proxy t = false -> c_alias (get_c t) = PNone -> Forall inner (children t) -> inner t.
Proof. intros P A F. split; auto. now apply solid_node. Qed.
Lemma null_inner : inner (TNull c0).
Proof. apply inner_kids; [reflexivity|reflexivity|constructor]. Qed.
Lemma field_inner top n ty c t : pr_field top n ty c = Ok t -> inner t.
Proof.
  unfold pr_field. intros H. apply rbind_Ok in H as (u & T & H). apply type_inner in T. injection H as <-. apply inner_extra.
  assert (F : inner (if repeated c then TList c0 u PNone (PBool true) else u)).
  { destruct (repeated c); auto. apply inner_kids; auto. constructor; auto. }
  destruct (required c); auto. apply inner_extra. destruct (is_null _); auto. apply inner_kids; auto. repeat (constructor; auto using null_inner).
Qed.
Lemma map_inner top n k v t : pr_map top n k v = Ok t -> inner t.
Proof.
  unfold pr_map. intros H. apply rbind_Ok in H as (tk & K & H). destruct (match tk with TInt _ _ _ => _ | _ => _ end); [|discriminate].
  apply rbind_Ok in H as (tv & V & H). injection H as <-. apply type_inner in K. apply type_inner in V.
  apply inner_kids; auto. constructor; [apply null_inner|]. constructor; auto. apply inner_kids; auto. repeat (constructor; auto).
Qed.
Lemma oneof_inner top n l t : pr_oneof top n l = Ok t -> inner t.
Proof.
  rewrite pr_oneof_eq. intros H. apply rbind_Ok in H as (ts & O & H). injection H as <-. apply inner_kids; auto.
  constructor; [apply null_inner|].
  revert ts O. induction l as [|x l IH]; intros ts O; [injection O as <-; constructor|].
  destruct x; auto. apply rbind_Ok in O as (t & F & O). apply rbind_Ok in O as (us & O' & E). injection E as <-. constructor; auto. eapply field_inner; eauto.
Qed.
(** Messages and enums have an alias and inner parts. *)
Definition outer (t : rtype) : Prop := top t /\ solid t /\ exists a, c_alias (get_c t) = PStr a.
Lemma upholds_enum top n vs : upholds outer (pr_enum top n vs).
Proof.
  unfold pr_enum. eapply upholds_bind; [apply (upholds_lift (fun _ => True)); auto|]. intros a _.
  assert (O : outer (TEnum (mkC PNone (PStr a) PNone []) (PList (map fst vs)))).
  { split; [split; auto|]. split; [apply solid_node; [reflexivity|constructor]|]. now exists a. }
  eapply upholds_bind; [apply upholds_register; apply O|]. intros _ _. apply upholds_ret. exact O.
Qed.
Lemma upholds_one (r : res rtype) : (forall t, r = Ok t -> inner t) -> upholds (Forall inner) (t <- lift r ;; ret [t])%mon.
Proof. intros H. eapply upholds_bind; [apply upholds_lift; exact H|]. intros t F. apply upholds_ret. auto. Qed.
Lemma upholds_message top e : upholds outer (pr_message top e).
Proof.
  induction e as [n i ty c|n i k v|n l _|n l IH|n v|] using element_ind'; try apply upholds_fail.
  rewrite pr_message_eq. apply upholds_bind with (P := Forall inner).
  - induction IH as [|x l Hx _ IHl]; [apply upholds_ret; constructor|rewrite read_elements_cons].
    apply upholds_bind with (P := Forall inner).
    + destruct x; cbn [read_element].
      * apply upholds_one. apply field_inner.
      * apply upholds_one. apply map_inner.
      * apply upholds_one. apply oneof_inner.
      * eapply upholds_bind; [exact Hx|]. intros _ _. apply upholds_ret. constructor.
      * eapply upholds_bind; [apply upholds_enum|]. intros _ _. apply upholds_ret. constructor.
      * apply upholds_ret. constructor.
    + intros f Ff. eapply upholds_bind; [exact IHl|]. intros fs Ffs. apply upholds_ret. now apply Forall_app.
  - intros fs F. eapply upholds_bind; [apply (upholds_lift (fun _ => True)); auto|]. intros a _.
    assert (O : outer (TStruct (mkC PNone (PStr a) PNone []) fs)).
    { split; [split; auto|]. split; [apply solid_node; auto|]. now exists a. }
    eapply upholds_bind; [apply upholds_register; apply O|]. intros _ _. now apply upholds_ret.
Qed.
Lemma upholds_elements top l : forall root, (forall t, root = Some t -> outer t) -> upholds (fun o => forall t, o = Some t -> outer t) (pr_elements top l root).
Proof.
  induction l as [|x l IH]; intros root F; cbn [pr_elements]; [now apply upholds_ret|].
  destruct x as [p|e|]; auto. destruct e; auto.
  - eapply upholds_bind; [apply upholds_message|]. intros t Ft. apply IH. destruct root; auto. intros u [= <-]. exact Ft.
  - eapply upholds_bind; [apply upholds_enum|]. auto.
Qed.
Lemma parse_solid l s : solid_reg (reg s) ->
  solid_reg (reg (fst (pr_parse l s))) /\ forall t, snd (pr_parse l s) = Ok t -> outer t.
Proof.
  intros S. unfold pr_parse. set (ns := match first_package l with Some p => _ | None => _ end).
  destruct (upholds_elements (top_of ns) l None (fun t E => ltac:(discriminate)) (reg s) S) as [S' F].
  destruct (pr_elements _ _ _ _) as [R [[t|]|e]]; cbn [fst snd] in *.
  - destruct ns; cbn; split; auto; intros u [= <-]. eapply F; eauto.
  - split; [exact S'|discriminate].
  - split; [exact S'|discriminate].
Qed.
Lemma builtin_solid : solid_reg builtin_aliases.
Proof. repeat (constructor; [split; [split; [reflexivity|now left]|apply solid_node; [reflexivity|constructor]]|]). constructor. Qed.
Lemma reached_solid s : reached s -> solid_reg (reg s).
Proof.
  induction 1; [apply builtin_solid|]. pose proof (proj1 (parse_solid l s IHreached)) as P. unfold pr_to.
  destruct (pr_parse l s) as [s' [t|e]]; exact P.
Qed.

(** ** Resolving *)
(** After a call with the marks [s]: the marks that were added are written out in the result, and
    so are the references that are left, unless they are marked in [s]. *)
Definition told (s : marks) (ts : list rtype) (s' : marks) : Prop :=
  snd s' = snd s /\
  (forall a, In a (fst s') -> In a (fst s) \/ Exists (fun t => written_out t a) ts) /\
  (forall c o, Exists (node_of (TProxy c o)) ts -> exists a, c_alias c = PStr a /\
     (In a (fst s) \/ In a (snd s) \/ Exists (fun t => written_out t a) ts)).
Lemma str_in_In a l : str_in a l = true -> In a l.
Proof. unfold str_in. intros H. apply existsb_exists in H as (b & I & E). apply String.eqb_eq in E. now subst. Qed.
Lemma out_child x t a : In x (children t) -> written_out x a -> written_out t a.
Proof. intros I (u & N & P & A). exists u. split; auto. econstructor; eauto. Qed.
Lemma told_parent s t s' : is_proxy t = false -> told s (children t) s' -> told s [t] s'.
Proof.
  intros P (T1 & T2 & T3).
  assert (L : forall a, Exists (fun t => written_out t a) (children t) -> Exists (fun t => written_out t a) [t]).
  { intros a E. apply Exists_exists in E as (x & I & W). constructor. eapply out_child; eauto. }
  split; auto. split.
  - intros a I. destruct (T2 a I); auto.
  - intros c o E. inversion E as [? ? N|? ? N]; subst; [|inversion N]. inversion N as [|t' x I N']; subst; [discriminate|].
    destruct (T3 c o) as (a & A & D); [apply Exists_exists; eauto|]. exists a. split; auto. destruct D as [D|[D|D]]; auto.
Qed.
Lemma told_nil s : told s [] s.
Proof. split; auto. split; auto. intros c o E. inversion E. Qed.
Lemma told_app s s1 s2 l1 l2 : told s l1 s1 -> told s1 l2 s2 -> told s (l1 ++ l2) s2.
Proof.
  intros (A1 & A2 & A3) (B1 & B2 & B3). split; [congruence|]. split.
  - intros a I. rewrite Exists_app. destruct (B2 a I) as [I1|]; auto. destruct (A2 a I1); auto.
  - intros c o E. apply Exists_app in E as [E|E].
    + destruct (A3 c o E) as (a & A & D). exists a. rewrite Exists_app. split; auto. destruct D as [D|[D|D]]; auto.
    + destruct (B3 c o E) as (a & A & D). exists a. rewrite Exists_app. split; auto. rewrite A1 in D. destruct D as [D|[D|D]]; auto.
      destruct (A2 a D); auto.
Qed.
Lemma told_all enter l : (forall x s r, In x l -> enter s x = Ok r -> told s [fst r] (snd r)) ->
  forall s r, px_all enter l s = Ok r -> told s (fst r) (snd r).
Proof.
  induction l as [|x l IH]; intros H s r K; [injection K as <-; apply told_nil|]. rewrite px_all_cons in K.
  apply rbind_Ok in K as (q & K1 & K). apply rbind_Ok in K as (q2 & K2 & K). injection K as <-. cbn [fst snd].
  apply (told_app s (snd q) (snd q2) [fst q] (fst q2)).
  - apply (H x); auto. now left.
  - apply IH; auto. intros; eapply H; eauto. now right.
Qed.
Lemma told_after s ts s' : told s ts s' -> told s ts (after s s').
Proof.
  intros (A1 & A2 & A3). split; [|split; auto].
  - unfold after. cbn [snd]. destruct (snd s); auto.
  - intros a I. unfold after in I. cbn [fst] in I. apply A2. destruct (fst s); auto. destruct I.
Qed.
Lemma kids_proxy prox R s t r : px_kids prox R s t = Ok r -> is_proxy (fst r) = is_proxy t.
Proof.
  rewrite px_kids_eq. cbv zeta. destruct t; intros H; try (injection H as <-; reflexivity).
  - apply rbind_Ok in H as (q & _ & H). injection H as <-. reflexivity.
  - apply rbind_Ok in H as (q & _ & H). apply rbind_Ok in H as (q2 & _ & H). injection H as <-. reflexivity.
  - apply rbind_Ok in H as (q & _ & H). injection H as <-. reflexivity.
  - apply rbind_Ok in H as (q & _ & H). injection H as <-. reflexivity.
Qed.
Lemma px_proxy n R s t r : px_f n R s t = Ok r -> is_proxy (fst r) = is_proxy t.
Proof. destruct n; apply kids_proxy. Qed.
Lemma kids_top prox R s t r : px_kids prox R s t = Ok r -> top t -> top (fst r).
Proof.
  rewrite px_kids_eq. cbv zeta. destruct t; intros H T; try (injection H as <-; exact T).
  - destruct T as [_ [T|T]]; discriminate.
  - destruct T as [_ [T|T]]; discriminate.
  - apply rbind_Ok in H as (q & _ & H). injection H as <-. split; auto.
  - destruct T as [_ [T|T]]; [|discriminate]. cbn in T. subst. injection H as <-. split; auto.
Qed.
Lemma px_top n R s t r : px_f n R s t = Ok r -> top t -> top (fst r).
Proof. destruct n; apply kids_top. Qed.
Section Told.
  Variables (prox : marks -> rtype -> res (rtype * marks)) (R : registry).
  Hypothesis SR : solid_reg R.
  Hypothesis PC : forall s t r, prox s t = Ok r -> get_c (fst r) = get_c t.
  Hypothesis PP : forall s t r, prox s t = Ok r -> is_proxy (fst r) = is_proxy t.
  Hypothesis PT : forall s t r, is_proxy t = false -> solid t -> prox s t = Ok r -> told s [fst r] (snd r).
  Lemma told_enter kids s t r : inner t -> (forall s r, is_proxy t = false -> kids s t = Ok r -> told s [fst r] (snd r)) ->
    px_enter kids prox R s t = Ok r -> told s [fst r] (snd r).
  Proof.
    intros [S A] K H. rewrite px_enter_eq in H. apply rbind_Ok in H as (q & H & E). injection E as <-. cbn [fst snd]. apply told_after.
    destruct (is_proxy t) eqn:P.
    - destruct t as [| | | | | | | | | | |c o]; try discriminate. unfold px_step in H. destruct (c_alias c) as [| | | |a| |] eqn:CA; try discriminate.
      destruct (str_in a (fst s) || str_in a (snd s)) eqn:M.
      + injection H as <-. cbn [fst snd]. split; auto. split; auto. intros c' o' E. inversion E as [? ? N|? ? N]; subst; [|inversion N].
        inversion N as [|t' x I N']; subst; [|destruct I]. exists a. split; auto. apply orb_true_iff in M as [M|M]; apply str_in_In in M; auto.
      + apply rbind_Ok in H as (t0 & RS & H). apply (resolve_solid _ _ _ _ SR S) in RS as [[P0 _] S0]. cbv zeta in H.
        pose proof (PC _ _ _ H) as C. pose proof (PP _ _ _ H) as Q. rewrite set_c_common in C. rewrite is_proxy_set_c in Q.
        apply PT in H; [|now rewrite is_proxy_set_c|now apply solid_set_c]. destruct H as (T1 & T2 & T3). cbn [fst snd] in *.
        assert (W : written_out (fst q) a) by (exists (fst q); split; [constructor|]; split; [congruence|]; unfold aliased; now rewrite C).
        split; auto. split.
        * intros b I. destruct (T2 b I) as [[<-|I']|]; auto.
        * intros c' o' E. destruct (T3 c' o' E) as (b & B & [[<-|D]|[D|D]]).
          -- exists a. auto.
          -- exists b. auto.
          -- exists b. auto.
          -- exists b. auto.
    - assert (K' : (s' <- see t s ;; kids s' t)%res = Ok q) by (unfold px_step in H; destruct t; try exact H; discriminate).
      unfold see in K'. rewrite (A eq_refl) in K'. cbn [rbind] in K'. now apply K.
  Qed.
  Lemma told_kids : forall t s r, is_proxy t = false -> solid t -> px_kids prox R s t = Ok r -> told s [fst r] (snd r).
  Proof.
    intros t. induction t as [t IH] using parts_ind. intros s r P S H. apply told_parent; [rewrite (kids_proxy _ _ _ _ _ H); exact P|].
    apply solid_kids in S. rewrite Forall_forall in S.
    assert (EN : forall x s r, In x (children t) -> px_enter (px_kids prox R) prox R s x = Ok r -> told s [fst r] (snd r)).
    { intros x s0 r0 I K. eapply told_enter; eauto. intros s1 r1 P1 K1. eapply IH; eauto. apply (S x I). }
    rewrite px_kids_eq in H. cbv zeta in H. destruct t as [| | | | | |c v l va|c k v|c fs| |c ts|c o]; cbn [children] in *;
      try (injection H as <-; apply told_nil).
    - apply rbind_Ok in H as (q & K & H). injection H as <-. cbn [fst snd children]. eapply EN; eauto. now left.
    - apply rbind_Ok in H as (q & K & H). apply rbind_Ok in H as (q2 & K2 & H). injection H as <-. cbn [fst snd children].
      apply (told_app s (snd q) (snd q2) [fst q] [fst q2]); eapply EN; eauto; cbn; auto.
    - apply rbind_Ok in H as (q & K & H). injection H as <-. cbn [fst snd children]. eapply told_all; eauto.
    - apply rbind_Ok in H as (q & K & H). injection H as <-. cbn [fst snd children]. eapply told_all; eauto.
  Qed.
End Told.
Lemma told_px n R : solid_reg R -> forall t s r, is_proxy t = false -> solid t -> px_f n R s t = Ok r -> told s [fst r] (snd r).
Proof.
  intros SR. induction n as [|n IH]; intros t s r P S H; cbn [px_f] in H.
  - eapply told_kids; eauto; discriminate.
  - eapply told_kids; eauto; [apply px_common|apply px_proxy].
Qed.

(** ** Where nothing has been replaced yet *)
Section Hand.
  Variables (n : nat) (R : registry) (root : string).
  Hypothesis SR : solid_reg R.
  (** The marks stay as they are. *)
  Definition start : marks := ([], [root]).
  Definition local (t : rtype) : Prop := forall u c o, at_hand u t -> node_of (TProxy c o) u ->
    c_alias c = PStr root \/ exists a, c_alias c = PStr a /\ written_out u a.
  Lemma after_start s : snd s = [root] -> after start s = start.
  Proof. intros H. unfold after, start. cbn [fst snd]. now rewrite H. Qed.
  Lemma told_local t s' : told start [t] s' -> forall c o, node_of (TProxy c o) t ->
    c_alias c = PStr root \/ exists a, c_alias c = PStr a /\ written_out t a.
  Proof.
    intros (_ & _ & T) c o N. destruct (T c o) as (a & A & [[]|[[<-|[]]|E]]); [now constructor|auto|].
    right. exists a. split; auto. inversion E as [? ? W|? ? W]; subst; [exact W|inversion W].
  Qed.
  Lemma local_parent t s' : told start [t] s' -> (forall c fs, t <> TStruct c fs) -> Forall local (children t) -> local t.
  Proof.
    intros T N F u c o H. inversion H as [|t' x _ I Hx]; subst; [eapply told_local; eauto|].
    rewrite Forall_forall in F. now apply (F x).
  Qed.
  Lemma local_leaf t s' : told start [t] s' -> (children t = [] \/ exists c fs, t = TStruct c fs) -> local t.
  Proof.
    intros T N u c o H. inversion H as [|t' x NS I Hx]; subst; [eapply told_local; eauto|].
    destruct N as [N|(c' & fs & ->)]; [rewrite N in I; destruct I|]. now destruct (NS c' fs).
  Qed.
  Lemma local_enter kids t r : inner t -> (forall r, is_proxy t = false -> kids start t = Ok r -> told start [fst r] (snd r) /\ local (fst r)) ->
    px_enter kids (px_f n R) R start t = Ok r -> local (fst r) /\ snd r = start.
  Proof.
    intros I K H. pose proof H as H0. rewrite px_enter_eq in H. apply rbind_Ok in H as (q & H & E). injection E as <-. cbn [fst snd]. destruct I as [S A].
    destruct (is_proxy t) eqn:P.
    - destruct t as [| | | | | | | | | | |c o]; try discriminate. unfold px_step in H. destruct (c_alias c) as [| | | |a| |] eqn:CA; try discriminate.
      destruct (str_in a (fst start) || str_in a (snd start)) eqn:M.
      + injection H as <-. cbn [fst snd] in *. cbn in M. rewrite orb_false_r in M. apply String.eqb_eq in M. assert (CR : c_alias c = PStr root) by congruence. clear M CA.
        split; [|now apply after_start]. intros u c' o' U N. inversion U as [|t' x _ I _]; subst; [|destruct I].
        inversion N as [|t' x I _]; subst; [|destruct I]. now left.
      + apply rbind_Ok in H as (t0 & RS & H). apply (resolve_solid _ _ _ _ SR S) in RS as [T0 S0]. cbv zeta in H. destruct T0 as [P0 T0].
        apply (px_top n) in H as TQ; [|apply top_set_c; now split].
        assert (T : told start [fst q] (after start (snd q))).
        { refine (told_enter _ R SR _ _ _ kids _ _ _ _ _ H0); [apply px_common|apply px_proxy|intros ? ? ? X1 X2 X3; exact (told_px _ _ SR _ _ _ X1 X2 X3)|split; auto|].
          intros s1 r1 P1. discriminate. }
        split; [eapply local_leaf; eauto; destruct TQ as [_ [TQ|TQ]]; auto; right; destruct (fst q); try discriminate; eauto|].
        apply told_px in H; auto; [|now rewrite is_proxy_set_c|now apply solid_set_c]. apply after_start. apply H.
    - assert (K' : (s' <- see t start ;; kids s' t)%res = Ok q) by (unfold px_step in H; destruct t; try exact H; discriminate).
      unfold see in K'. rewrite (A eq_refl) in K'. cbn [rbind] in K'. destruct (K q eq_refl K') as [T L]. split; auto. apply after_start, T.
  Qed.
  Lemma local_all enter l : (forall x r, In x l -> enter start x = Ok r -> local (fst r) /\ snd r = start) ->
    forall r, px_all enter l start = Ok r -> Forall local (fst r) /\ snd r = start.
  Proof.
    induction l as [|x l IH]; intros H r K; [injection K as <-; split; [constructor|reflexivity]|]. rewrite px_all_cons in K.
    apply rbind_Ok in K as (q & K1 & K). destruct (H x q (or_introl eq_refl) K1) as [L E]. rewrite E in K.
    apply rbind_Ok in K as (q2 & K2 & K). injection K as <-. cbn [fst snd].
    apply IH in K2 as [L2 E2]; [|intros y r I; apply H; now right]. split; auto.
  Qed.
  (** The parts of a message that is being read. *)
  Lemma local_kids : forall t r, is_proxy t = false -> solid t -> px_kids (px_f n R) R start t = Ok r ->
    Forall local (children (fst r)) /\ local (fst r).
  Proof.
    intros t. induction t as [t IH] using parts_ind. intros r P S H.
    assert (T : told start [fst r] (snd r)).
    { eapply (told_kids (px_f n R) R SR); eauto; [apply px_common|apply px_proxy|intros ? ? ? X1 X2 X3; exact (told_px _ _ SR _ _ _ X1 X2 X3)]. }
    pose proof (solid_kids _ S) as SK. rewrite Forall_forall in SK.
    assert (EN : forall x r, In x (children t) -> px_enter (px_kids (px_f n R) R) (px_f n R) R start x = Ok r -> local (fst r) /\ snd r = start).
    { intros x r0 I K. eapply local_enter; eauto. intros r1 P1 K1. split; [|apply (IH x I); auto; apply (SK x I)].
      eapply (told_kids (px_f n R) R SR); eauto; [apply px_common|apply px_proxy|intros ? ? ? X1 X2 X3; exact (told_px _ _ SR _ _ _ X1 X2 X3)|apply (SK x I)]. }
    assert (G : Forall local (children (fst r))).
    { clear T. rewrite px_kids_eq in H. cbv zeta in H. destruct t as [| | | | | |c v l va|c k v|c fs| |c ts|c o]; cbn [children] in *;
        try (injection H as <-; constructor).
      - apply rbind_Ok in H as (q & K & H). injection H as <-. cbn [fst children]. constructor; [|constructor]. apply (EN v q); auto. now left.
      - apply rbind_Ok in H as (q & K & H). apply rbind_Ok in H as (q2 & K2 & H). injection H as <-. cbn [fst children].
        destruct (EN k q (or_introl eq_refl) K) as [L E]. rewrite E in K2. destruct (EN v q2 (or_intror (or_introl eq_refl)) K2) as [L2 _]. auto.
      - apply rbind_Ok in H as (q & K & H). injection H as <-. cbn [fst children]. eapply local_all; eauto.
      - apply rbind_Ok in H as (q & K & H). injection H as <-. cbn [fst children]. eapply local_all; eauto. }
    split; auto. destruct (a_struct (fst r)) eqn:E.
    - eapply local_leaf; eauto. right. destruct (fst r); try discriminate; eauto.
    - eapply local_parent; eauto. intros c fs X. rewrite X in E. discriminate.
  Qed.
End Hand.

Lemma answer_local l s c fs : reached s -> snd (pr_to l s) = Ok (TStruct c fs) ->
  exists root, c_alias c = PStr root /\ Forall (local root) fs.
Proof.
  intros RS H. apply reached_solid in RS. destruct (parse_solid l s RS) as [SR O]. unfold pr_to in H.
  destruct (pr_parse l s) as [s' [t|e]]; cbn [fst snd] in *; [|discriminate].
  destruct (O t eq_refl) as ([P _] & S & root & A). apply rbind_Ok in H as (t' & V & H).
  unfold pr_resolve in V. cbv zeta in V. apply rbind_Ok in V as (r & V & E). injection E as <-. rewrite px_enter_eq in V.
  apply rbind_Ok in V as (q & V & E). injection E as <-. cbn [fst] in H.
  assert (K : (s1 <- see t ([], []) ;; px_f (Datatypes.S (Nat.max (rdepth t) (reg_depth (reg s')))) (reg s') s1 t)%res = Ok q)
    by (unfold px_step in V; destruct t; try exact V; discriminate).
  unfold see in K. rewrite A in K. cbn [rbind fst snd] in K. cbn [px_f] in K.
  pose proof (kids_common _ _ _ _ _ K) as C. apply (local_kids _ _ root SR) in K as [K _]; auto.
  assert (EQ : fst q = TStruct c fs) by (destruct (fst q); try discriminate; now injection H as -> ->).
  rewrite EQ in *. cbn in C. subst c. exists root. auto.
Qed.
(** C90 *)
Theorem locally_complete l s c fs : reached s -> snd (pr_to l s) = Ok (TStruct c fs) ->
  forall f u c' o, In f fs -> at_hand u f -> node_of (TProxy c' o) u ->
    c_alias c' = c_alias c \/ exists a, c_alias c' = PStr a /\ written_out u a.
Proof.
  intros RS H f u c' o I U N. destruct (answer_local _ _ _ _ RS H) as (root & A & L). rewrite A.
  rewrite Forall_forall in L. exact (L f I u c' o U N).
Qed.
(** C89 *)
Theorem nothing_missing l s t : reached s -> snd (pr_to l s) = Ok t ->
  forall c o, node_of (TProxy c o) t -> exists a, c_alias c = PStr a /\ written_out t a.
Proof.
  intros RS H c o N.
  assert (X : exists d fs, t = TStruct d fs).
  { unfold pr_to in H. destruct (pr_parse l s) as [s' [u|e]]; cbn [snd] in H; [|discriminate]. apply rbind_Ok in H as (t' & _ & H).
    destruct t'; try discriminate. injection H as <-. eauto. }
  destruct X as (d & fs & ->). destruct (answer_local _ _ _ _ RS H) as (root & A & L). rewrite Forall_forall in L.
  inversion N as [|t' f I N']; subst. cbn [children] in I.
  destruct (L f I f c o (hand_self f) N') as [E|(a & E & W)].
  - exists root. split; auto. exists (TStruct d fs). split; [constructor|]. split; auto.
  - exists a. split; auto. eapply out_child; eauto.
Qed.

(** The parts of a type as a list, for examples. *)
Fixpoint all_parts (t : rtype) : list rtype :=
  t :: match t with
       | TList _ v _ _ => all_parts v
       | TMap _ k v => all_parts k ++ all_parts v
       | TStruct _ fs => flat_map all_parts fs
       | TUnion _ ts => flat_map all_parts ts
       | _ => []
       end.
Lemma in_parts s t : node_of s t -> In s (all_parts t).
Proof.
  induction 1 as [|t x I _ IH]; [destruct s; now left|].
  destruct t; cbn [children] in I; try (destruct I; fail); cbn [all_parts]; right.
  - destruct I as [<-|[]]. exact IH.
  - apply in_or_app. destruct I as [<-|[<-|[]]]; auto.
  - apply in_flat_map. eauto.
  - apply in_flat_map. eauto.
Qed.
