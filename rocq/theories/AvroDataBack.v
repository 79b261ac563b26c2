(** Values of types read from Avro schemas as data of the schemas (proofs only). *)
From Coq Require Import String Ascii List NArith ZArith QArith Bool Lia.
From Verif Require Import PyVal PyValFacts RType Regex Registry FromDict FromDictFacts RegexFacts RegistryFacts
  SpecTypes Avro SpecAvro AvroFacts AvroProps SpecAvroSchema AvroSchema SpecDb SpecInstances SpecRows SpecAvroData AvroData.
Import ListNotations.
Open Scope nat_scope.
Open Scope string_scope.
Open Scope list_scope.

(** *** Types that differ in their labels or registries *)
Definition fr (o : option registry) (t : rtype) : rtype := match o with Some R => freeze R t | None => t end.
Record same_meaning (c : common) (t : rtype) : Prop := {
  sm_logical : c_logical c = c_logical (get_c t);
  sm_alias : is_proxy t = true -> c_alias c = c_alias (get_c t);
  sm_counts : forall k, In k counts -> dget k (c_extra c) = dget k (c_extra (get_c t))
}.
Definition like (t t0 : rtype) : Prop := exists o c, t = set_c (fr o t0) c /\ same_meaning c t0.
Lemma same_own t : same_meaning (get_c t) t.
Proof. split; auto. Qed.
Lemma set_own t : set_c t (get_c t) = t.
Proof. destruct t; reflexivity. Qed.
Lemma like_refl t : like t t.
Proof. exists None, (get_c t). cbn. now rewrite set_own; split; [|apply same_own]. Qed.
Lemma like_fr o t : like (fr o t) t.
Proof.
  exists o, (get_c t). split; [|apply same_own]. replace (get_c t) with (get_c (fr o t)); [now rewrite set_own|].
  destruct o; cbn; [apply get_c_freeze'|reflexivity].
Qed.
Lemma set_fr_set o t c c' : set_c (fr o (set_c t c)) c' = set_c (fr o t) c'.
Proof. destruct o as [R|]; cbn; destruct t as [| | | | | | | | | | |? [|]]; reflexivity. Qed.
Lemma like_relabel t t0 c : like t (set_c t0 c) -> same_meaning c t0 -> like t t0.
Proof.
  intros (o & c' & -> & [L A X]) [L' A' X']. exists o, c'. split; [apply set_fr_set|].
  assert (P : is_proxy (set_c t0 c) = is_proxy t0) by (destruct t0; reflexivity).
  assert (G : get_c (set_c t0 c) = c) by (destruct t0; reflexivity). rewrite P, G in *.
  split; [congruence|intros H; rewrite A, A'; auto|intros k I; rewrite X, X'; auto].
Qed.
Lemma like_stored R t : is_proxy t = false -> like (stored R t) t.
Proof.
  intros P. exists (Some R). eexists. split; [reflexivity|]. rewrite get_c_freeze'. split; auto; [congruence|].
  intros k I. cbn [c_extra]. rewrite dget_ddel. cbn in I. destruct I as [<-|[<-|[<-|[]]]]; reflexivity.
Qed.

Section Back.
  Variable start : string.
  Variable doc : pyval.
  Notation part := (part start doc).
  Notation data := (data start doc).
  Notation fields := (fields start doc).
  Notation defined := (defined start doc).
  Hypothesis T : tidy start doc.
  Hypothesis W : well_formed start doc.
  Hypothesis P : precise start doc.

  (** [t] is read from the schema [j] or from an object with this type. *)
  Definition reads_at (ns : string) (j : pyval) (t : rtype) : Prop :=
    reads ns j t \/ exists o nm, dget "type" o = Some j /\ reads_as ns o nm t.

  (** What a type that is read says about the data of the schema. *)
  Inductive base (ns : string) (j : pyval) : rtype -> Prop :=
  | b_prim s c t : c_logical c = PNone -> primitive s c = Some t -> (forall v, prim_data s v -> data ns j v) -> base ns j t
  | b_enum c s : (forall l x, s = PList l -> In (PStr x) l -> data ns j (DText x)) -> base ns j (TEnum c s)
  | b_array c j' t : part ns j' -> reads ns j' t ->
      (forall l, (forall v, In v l -> data ns j' v) -> data ns j (DList l)) -> base ns j (TList c t PNone (PBool true))
  | b_map c j' t : part ns j' -> reads ns j' t ->
      (forall l, (forall k v, In (k, v) l -> prim_data "string" k) -> (forall k v, In (k, v) l -> data ns j' v) -> data ns j (DMap l)) ->
      base ns j (TMap c (TString c0 (PInt longest) (PBool true)) t)
  | b_record c ns' l fs : rooted ns' = ns' -> Forall2 (reads ns') (map PDict l) fs ->
      (forall o, In o l -> tidy_field o /\ forall j', dget "type" o = Some j' -> part ns' j') ->
      (forall r, fields ns' (map PDict l) r -> data ns j (DRow r)) -> base ns j (TStruct c fs)
  | b_union c l ts : Forall2 (reads ns) l ts -> (forall x, In x l -> part ns x) ->
      (forall x v, In x l -> data ns x v -> data ns j v) -> base ns j (TUnion c ts)
  | b_reference c s : c_alias c = PStr (refers ns s) -> is_reference s -> part ns (PStr s) ->
      (forall ns' d v, defined (refers ns s) ns' d -> data ns' (PDict d) v -> data ns j v) -> base ns j (TProxy c None)
  | b_logical d nm l lo x c f : meant d l -> logical_as d l lo x f -> SpecAvroSchema.described d nm (PStr lo) PNone x c ->
      dget "type" d = Some (PStr "fixed") \/ dget "size" d = None ->
      ~ In l ["uuid"; "time-millis"; "time-micros"] -> (forall v, logical_data d l v -> data ns j v) -> base ns j (f c).

  Lemma base_mono ns j j' t : (forall v, data ns j v -> data ns j' v) -> base ns j t -> base ns j' t.
  Proof. intros H B. destruct B; try (econstructor; eauto; fail). Qed.

  Definition based (ns : string) (j : pyval) (t : rtype) : Prop := exists t1, base ns j t1 /\ exists c, t = set_c t1 c /\ same_meaning c t1.
  Lemma based_own ns j t : base ns j t -> based ns j t.
  Proof. intros B. exists t. split; auto. exists (get_c t). split; [now rewrite set_own|apply same_own]. Qed.
  Lemma based_mono ns j j' t : (forall v, data ns j v -> data ns j' v) -> based ns j t -> based ns j' t.
  Proof. intros H (t1 & B & R). exists t1. split; eauto using base_mono. Qed.
  Lemma based_relabel ns j t c : same_meaning c t -> based ns j t -> based ns j (set_c t c).
  Proof.
    intros [L A X] (t1 & B & c1 & -> & [L' A' X']). exists t1. split; auto. exists c. split; [now destruct t1|].
    assert (Q : is_proxy (set_c t1 c1) = is_proxy t1) by (destruct t1; reflexivity).
    assert (G : get_c (set_c t1 c1) = c1) by (destruct t1; reflexivity). rewrite Q, G in *.
    split; [congruence|intros H; rewrite A, A'; auto|intros k I; rewrite X, X'; auto].
  Qed.

  Lemma at_string ns s t : part ns (PStr s) -> reads_at ns (PStr s) t -> based ns (PStr s) t.
  Proof.
    intros PA H. apply based_own.
    assert (X : exists o nm, dget "type" o = Some (PStr s) /\ reads_as ns o nm t).
    { destruct H as [H|H]; auto. inversion H as [s' t' RD'| |]; subst.
      inversion RD' as [|d ns' nm t' NA _ RA|d ns' nm l lo x c t' NA LL]; subst; [|discriminate].
      apply nameless_as in NA as [-> ->]; [|split; reflexivity]. eexists _, _. split; [|exact RA]. reflexivity. }
    clear H. destruct X as (o & nm & E & RA). pose proof (W ns (PStr s) PA) as K. cbn [known] in K.
    assert (NN : ~ In s (map fst needs)).
    { destruct K as [K|[[_ K] _]]; auto. intros I. apply in_map_iff in I as ([s' k] & <- & I). now apply needs_not_prim in I. }
    inversion RA; subst; try congruence;
      try (match goal with H : dget "type" o = Some (PStr ?k) |- _ => assert (s = k) by congruence; subst s; elim NN; cbn; tauto end).
    - assert (s0 = s) by congruence. subst s0. eapply b_prim; eauto; [apply (SpecAvroSchema.de_logical _ _ _ _ _ _ H0)|].
      intros v D. now constructor.
    - destruct H as [H|[H _]]; [congruence|]. assert (s = "union") by congruence. subst s. elim NN; cbn; tauto.
    - assert (s0 = s) by congruence. subst s0. destruct K as [K|[K _]]; [contradiction|].
      eapply b_reference; eauto; [apply (SpecAvroSchema.de_alias _ _ _ _ _ _ H2)|]. intros ns' d v DF D. eapply data_reference; eauto.
  Qed.
  Lemma at_list ns l t : part ns (PList l) -> reads_at ns (PList l) t -> based ns (PList l) t.
  Proof.
    intros PA [H|(o & nm & E & RA)]; [inversion H|]. apply based_own.
    inversion RA; subst; try congruence. destruct H as [H|[H _]]; [|congruence]. rewrite E in H. injection H as <-.
    eapply b_union; eauto; [intros; eapply part_branch; eauto|]. intros x v I D. eapply data_union; eauto.
  Qed.

  Lemma plain_type ns d t : part ns (PDict d) -> reads ns (PDict d) t ->
    (exists nm l lo x c f, dget "logicalType" d = Some (PStr l) /\ meant d l /\ logical_as d l lo x f
       /\ SpecAvroSchema.described d nm (PStr lo) PNone x c /\ t = f c
       /\ (dget "type" d = Some (PStr "fixed") \/ dget "size" d = None))
    \/ (dget "logicalType" d = None /\ exists ns' nm, named_as ns d ns' nm /\ reads_as ns' d nm t).
  Proof.
    intros PA RD. destruct (proj1 T ns d PA) as [MH _]. unfold meant_here in MH.
    inversion RD as [|d' ns' nm t' NA LF RA|d' ns' nm l' lo x c t' NA LL LA DE]; subst.
    - right. split; [|eauto]. destruct (dget "logicalType" d) as [[| | | |l| |]|]; try tauto. exfalso.
      destruct MH as [M _]. destruct l; [|discriminate]. inversion M; subst. unfold annotated in *. pairs_tac.
    - left. rewrite LL in MH. destruct MH as [M SZ]. exists nm, l', lo, x, c, t'. repeat (split; auto).
  Qed.

  Lemma at_dict : forall n ns d t, psize (PDict d) <= n -> part ns (PDict d) -> reads ns (PDict d) t -> based ns (PDict d) t.
  Proof.
    induction n as [|n IH]; intros ns d t SZ PA RD; [cbn in SZ; lia|].
    destruct (plain_type ns d t PA RD) as [(nm & l & lo & x & c & f & E & M & LA & DE & -> & Z)|(L & ns' & nm & NA & RA)].
    { apply based_own. eapply b_logical; eauto.
      - intros I. now apply (proj2 (P ns d PA) l).
      - intros v D. eapply data_logical; eauto. }
    assert (IG : ignored d) by (unfold ignored; now rewrite L).
    assert (K := W ns (PDict d) PA). cbn [known] in K. destruct K as [KC KR].
    destruct (dget "type" d) as [T0|] eqn:E.
    2:{ exfalso. inversion RA; subst; try congruence. destruct H as [|[? _]]; congruence. }
    assert (Q : (exists s, T0 = PStr s /\ In s (map fst needs)) \/ forall s, T0 = PStr s -> ~ In s (map fst needs)).
    { destruct T0; try (right; intros ? [=]; fail). destruct (in_dec string_dec s (map fst needs)); [left; eauto|right; intros ? [= <-]; auto]. }
    destruct Q as [(s & -> & I)|NN].
    - destruct (KC s eq_refl I) as [NU CX]. apply based_own.
      assert (NP : ~ In s avro_prims) by (apply in_map_iff in I as ([s' k] & <- & I); now apply needs_not_prim in I).
      inversion RA; subst; try congruence.
      + assert (s0 = s) by congruence. subst s0. apply primitive_in in H1. contradiction.
      + assert (s = "fixed") by congruence. subst s. now destruct (proj1 (P ns d PA) E).
      + assert (s = "record") by congruence. subst s. destruct (KR eq_refl) as (nmv & l' & NE & FE).
        assert (v = PList (map PDict l')) by congruence. subst v. cbn in H2. injection H2 as <-.
        destruct nm as [nm|]; [|inversion NA; congruence].
        eapply (b_record ns (PDict d) c ns' l' fs); eauto; [eapply named_rooted; eauto| |].
        * intros o IO. assert (IP : In (PDict o) (map PDict l')) by now apply List.in_map. split; [eapply (proj2 T); eauto|].
          intros j' EJ. eapply part_field; eauto.
        * intros r F. eapply data_record; eauto.
      + assert (s = "enum") by congruence. subst s. apply b_enum. intros l y -> IY. eapply data_enum; eauto.
      + assert (s = "array") by congruence. subst s.
        assert (named_as ns d ns None) by (apply (unnamed start doc T); auto; intros s IS; rewrite E; intros [= <-]; cbn in IS; intuition discriminate).
        destruct (named_fun _ _ _ _ _ _ NA H3) as [-> ->]. apply (b_array ns (PDict d) c j t0); auto; [eapply part_items; eauto|]. intros l D. eapply data_array; eauto.
      + assert (s = "map") by congruence. subst s.
        assert (X : named_as ns d ns None) by (apply (unnamed start doc T); auto; intros s IS; rewrite E; intros [= <-]; cbn in IS; intuition discriminate).
        destruct (named_fun _ _ _ _ _ _ NA X) as [-> ->]. apply (b_map ns (PDict d) c j t0); auto; [eapply part_values; eauto|]. intros l D1 D2. eapply data_map; eauto.
      + destruct H as [H|[H _]]; congruence.
    - assert (X : named_as ns d ns None).
      { apply (unnamed start doc T); auto. intros s IS. rewrite E. intros [= ->]. apply (NN s eq_refl). cbn in IS |- *. tauto. }
      destruct (named_fun _ _ _ _ _ _ NA X) as [-> ->].
      assert (PT : part ns T0) by (eapply part_type; eauto).
      apply (based_mono ns T0); [intros v D; eapply data_object; eauto|].
      destruct T0 as [| | | |s|l|e].
      + exfalso. inversion RA; subst; try congruence. destruct H as [|[? _]]; congruence.
      + exfalso. inversion RA; subst; try congruence. destruct H as [|[? _]]; congruence.
      + exfalso. inversion RA; subst; try congruence. destruct H as [|[? _]]; congruence.
      + exfalso. inversion RA; subst; try congruence. destruct H as [|[? _]]; congruence.
      + apply at_string; auto. right. eauto.
      + apply at_list; auto. right. eauto.
      + inversion RA; subst; try congruence; try (destruct H as [|[? _]]; congruence).
        rewrite E in H. injection H as <-. apply based_relabel.
        * split; auto. cbn [c_extra]. intros k I. rewrite H2. unfold label. cbn in I. destruct I as [<-|[<-|[<-|[]]]]; reflexivity.
        * apply IH; auto. pose proof (dsize_dget _ _ _ E) as DS. rewrite psize_dict in SZ. lia.
  Qed.

  Lemma at_any ns j t : part ns j -> reads_at ns j t -> based ns j t.
  Proof.
    intros PA H. destruct j as [| | | |s|l|d].
    - destruct H as [H|(o & nm & E & RA)]; [inversion H|]. exfalso. inversion RA; subst; try congruence. destruct H as [|[? _]]; congruence.
    - destruct H as [H|(o & nm & E & RA)]; [inversion H|]. exfalso. inversion RA; subst; try congruence. destruct H as [|[? _]]; congruence.
    - destruct H as [H|(o & nm & E & RA)]; [inversion H|]. exfalso. inversion RA; subst; try congruence. destruct H as [|[? _]]; congruence.
    - destruct H as [H|(o & nm & E & RA)]; [inversion H|]. exfalso. inversion RA; subst; try congruence. destruct H as [|[? _]]; congruence.
    - now apply at_string.
    - now apply at_list.
    - destruct H as [H|(o & nm & E & RA)]; [eapply at_dict; eauto|].
      inversion RA; subst; try congruence; try (destruct H as [|[? _]]; congruence).
      rewrite E in H. injection H as <-. apply based_relabel; [|eapply at_dict; eauto].
      split; auto. cbn [c_extra]. intros k I. rewrite H2. unfold label. cbn in I. destruct I as [<-|[<-|[<-|[]]]]; reflexivity.
  Qed.

  Variable env : string -> rtype -> Prop.
  Hypothesis sound : forall ns s ns' d t', part ns (PStr s) -> is_reference s -> defined (refers ns s) ns' d ->
    env (refers ns s) t' -> exists t0, reads ns' (PDict d) t0 /\ like t' t0.

  Lemma prim_cases s c t : primitive s c = Some t ->
    In (s, t) [("null", TNull c); ("boolean", TBool c);
          ("int", TInt c (PInt 32) (PBool true)); ("long", TInt c (PInt 64) (PBool true));
          ("float", TFloat c (PInt 32)); ("double", TFloat c (PInt 64));
          ("bytes", TBytes c (PInt longest) (PBool true)); ("string", TString c (PInt longest) (PBool true))].
  Proof.
    unfold primitive. cbn [dget].
    repeat match goal with |- context [String.eqb ?a ?b] => destruct (String.eqb_spec a b) as [->|]; [intros [= <-]; cbn; tauto|] end. discriminate.
  Qed.
  Lemma like_base ns j t t0 : like t t0 -> part ns j -> reads_at ns j t0 ->
    exists t1 o c, base ns j t1 /\ t = set_c (fr o t1) c /\ same_meaning c t1.
  Proof.
    intros LK PA RA. destruct (at_any ns j t0 PA RA) as (t1 & B & c1 & -> & SM).
    destruct (like_relabel t t1 c1 LK SM) as (o & c & E & SM'). exists t1, o, c. auto.
  Qed.

  (** The values of scalar types. *)
  Definition scalar_type (t : rtype) : Prop :=
    match t with TNull _ | TBool _ | TInt _ _ _ | TFloat _ _ | TString _ _ _ | TBytes _ _ _ => True | _ => False end.
  Lemma fr_scalar o t : scalar_type t -> fr o t = t.
  Proof. destruct o, t; cbn; tauto. Qed.
  Lemma prim_scalar s c t : primitive s c = Some t -> scalar_type t /\ get_c t = c.
  Proof. intros H. apply prim_cases in H. cbn in H. repeat destruct H as [H|H]; try (injection H as <- <-; cbn; auto). destruct H. Qed.
  Lemma holds_prim s c t v : c_logical c = PNone -> primitive s c = Some t -> holds env t v -> prim_data s v.
  Proof.
    intros L H D. apply prim_cases in H. cbn in H. repeat destruct H as [H|H]; try (injection H as <- <-; inversion D; subst); try (destruct H);
      unfold logical_is in *; try congruence; try (constructor; auto; fail).
    - constructor. match goal with H : float_format _ _ |- _ => destruct H as [[_ H]|[X _]]; [exact H|discriminate] end.
    - constructor. match goal with H : float_format _ _ |- _ => destruct H as [[X _]|[_ H]]; [discriminate|exact H] end.
  Qed.
  Lemma decimal_inv c n w p s v : c_logical c = PStr "build.recap.Decimal" -> dget "precision" (c_extra c) = Some p ->
    dget "scale" (c_extra c) = Some s -> holds env (TBytes c n w) v ->
    exists q m b z u k, v = DNumber u k /\ p = PInt q /\ s = PInt m /\ n = PInt b /\ same_number z m u k /\ (Z.abs z < 10 ^ q)%Z
      /\ int_range (8 * b) true z.
  Proof.
    intros L P1 P2 H. inversion H; subst; unfold logical_is, extra_is in *; try congruence.
    match goal with A : dget "precision" (c_extra c) = Some (PInt ?q), B : dget "scale" (c_extra c) = Some (PInt ?m) |- _ =>
      assert (p = PInt q) by congruence; assert (s = PInt m) by congruence; subst p s end.
    do 6 eexists. split; [reflexivity|]. split; [reflexivity|]. split; [reflexivity|]. split; [reflexivity|]. eauto.
  Qed.
  Lemma instant_inv c u v : c_logical c = PStr "build.recap.Timestamp" -> dget "unit" (c_extra c) = Some (PStr u) ->
    holds env (TInt c (PInt 64) (PBool true)) v -> exists m n k z, v = DInstant n k /\ time_unit u m /\ same_number z m n k /\ int_range 64 true z.
  Proof.
    intros L U H. inversion H; subst; unfold logical_is, extra_is in *; try congruence.
    assert (u0 = u) by congruence. subst u0. do 4 eexists. split; [reflexivity|]. eauto.
  Qed.
  Lemma holds_logical d nm l lo x c f v : meant d l -> logical_as d l lo x f -> SpecAvroSchema.described d nm (PStr lo) PNone x c ->
    dget "type" d = Some (PStr "fixed") \/ dget "size" d = None ->
    ~ In l ["uuid"; "time-millis"; "time-micros"] -> holds env (f c) v -> logical_data d l v.
  Proof.
    intros M LA DE SZ NI H. pose proof (SpecAvroSchema.de_logical _ _ _ _ _ _ DE) as CL. pose proof (SpecAvroSchema.de_extra _ _ _ _ _ _ DE) as CE.
    inversion LA as [ty p s n w ET EP ES EN|LU|LD|l' u b I|l' u I|w]; subst.
    - destruct (decimal_inv c _ _ p _ v CL (CE "precision") (CE "scale") H) as (q & m & b & z & u & k & -> & -> & EM & EB & SN & LT & IR).
      assert (X : forall p m', digits_of d p m' -> digits_of d q m).
      { intros p m' (Q1 & Q2 & Q3 & Q4). assert (p = q) by congruence. subst p.
        assert (m' = m) by (destruct Q4 as [Q4|[Q4 ->]]; rewrite Q4 in EM; congruence). subst m'. split; auto. }
      inversion M; subst; unfold annotated in *; pairs_tac.
      + apply (ld_decimal d q m b z u k); eauto. left. split; auto. destruct SZ as [SZ|SZ]; [congruence|]. rewrite SZ in EB. congruence.
      + apply (ld_decimal d q m b z u k); eauto. right. split; auto. rewrite H2 in *. congruence.
    - elim NI. cbn; auto.
    - inversion H; subst; unfold logical_is, extra_is in *; try congruence. now constructor.
    - elim NI. pairs_tac; cbn; auto.
    - destruct (instant_inv c u v CL (CE "unit") H) as (m & n & k & z & -> & TU & SN & IR).
      apply (ld_timestamp d l m z n k); auto. cbn [In] in I |- *.
      destruct I as [I|[I|[]]]; injection I as <- <-; inversion TU; auto.
    - inversion H; subst; unfold logical_is, extra_is in *; congruence.
  Qed.

  Lemma holds_back t1 c v : scalar_type t1 -> same_meaning c t1 -> holds env (set_c t1 c) v -> holds env t1 v.
  Proof.
    intros S [L A X] H. assert (G : get_c (set_c t1 c) = c) by (destruct t1; reflexivity).
    assert (Q : set_c (set_c t1 c) (get_c t1) = t1) by (destruct t1; reflexivity). rewrite <- Q.
    apply holds_set_c; rewrite ?G; auto; [|intros; symmetry; auto].
    intros Y. destruct t1; cbn in *; try discriminate; contradiction.
  Qed.
  Lemma logical_scalar d l lo x f c : logical_as d l lo x f -> scalar_type (f c).
  Proof. intros H. destruct H; exact I. Qed.
  Lemma scalar_back ns j t1 o c v : base ns j t1 -> same_meaning c t1 -> scalar_type t1 -> holds env (set_c (fr o t1) c) v -> data ns j v.
  Proof.
    intros B SM S H. rewrite fr_scalar in H by auto. apply holds_back in H; auto.
    destruct B; try contradiction.
    - apply H2. eapply holds_prim; eauto.
    - apply H5. eapply holds_logical; eauto.
  Qed.
  Lemma scalar_fr o t c : scalar_type (set_c (fr o t) c) -> scalar_type t.
  Proof. destruct o, t as [| | | | | | | | | | |? [|]]; cbn; tauto. Qed.
  Lemma base_scalar ns j t : base ns j t -> scalar_type t \/
    match t with TEnum _ _ | TList _ _ _ _ | TMap _ _ _ | TStruct _ _ | TUnion _ _ | TProxy _ _ => True | _ => False end.
  Proof. destruct t; cbn; auto. Qed.

  Theorem loose t v : holds env t v -> forall ns j t0, like t t0 -> part ns j -> reads_at ns j t0 -> data ns j v.
  Proof.
    induction 1; intros ns j t0 LK PA RA; destruct (like_base ns j _ t0 LK PA RA) as (t1 & ow & cw & B & EQ & SM);
      try (apply (scalar_back ns j t1 ow cw); auto; rewrite <- ?EQ;
           [apply (scalar_fr ow t1 cw); rewrite <- EQ; exact I
           |first [apply h_null|apply h_bool|apply h_int; assumption|eapply h_instant; eassumption|eapply h_clock; eassumption
                  |apply h_day; assumption|apply h_float; assumption|apply h_string; assumption|apply h_bytes; assumption|eapply h_decimal; eassumption]]; fail).
    all: assert (NS : ~ scalar_type t1) by (intros S; rewrite fr_scalar in EQ by auto; destruct t1; cbn in *; discriminate || contradiction).
    all: destruct B as [s1 c1 t1 CL PS DP|c1 s1 DP|c1 j' u PA' RD DP|c1 j' u PA' RD DP|c1 ns' l' fs' RN RD TF DP|c1 l' ts' RD PB DP|c1 s1 AL IR PS DP|d1 nm1 l1 lo1 x1 c1 f1 M1 LA1 DE1 SZ1 NI1 DP];
      try (elim NS; apply (prim_scalar _ _ _ PS)); try (elim NS; eapply logical_scalar; eauto);
      try (exfalso; destruct ow; discriminate EQ).
    - (* list *)
      apply DP. intros x IX. apply (H1 x IX ns j' u); auto; [|now left].
      assert (X : t = fr ow u) by (destruct ow; cbn in EQ |- *; congruence). rewrite X. apply like_fr.
    - (* map *)
      apply DP.
      + intros a b IX. specialize (H a b IX).
        assert (X : k = TString c0 (PInt longest) (PBool true)) by (destruct ow; cbn in EQ |- *; congruence). subst k.
        inversion H; subst. constructor. assumption.
      + intros a b IX. apply (H2 a b IX ns j' u); auto; [|now left].
        assert (X : t = fr ow u) by (destruct ow; cbn in EQ |- *; congruence). rewrite X. apply like_fr.
    - (* record *)
      assert (X : fs = map (fr ow) fs') by (destruct ow; cbn [set_c fr freeze] in EQ; injection EQ as _ ->; [reflexivity|]; symmetry; apply map_id).
      subst fs. clear EQ LK. apply DP. clear DP.
      assert (F : forall i f n d, nth_error fs' i = Some f -> nth_error l i = Some (n, d) -> extra "name" f = Some (PStr n)
        /\ forall ns j t0, like (fr ow f) t0 -> part ns j -> reads_at ns j t0 -> data ns j d).
      { intros i f n d N1 N2. assert (N3 : nth_error (map (fr ow) fs') i = Some (fr ow f)) by now apply map_nth_error. split.
        - specialize (H0 i _ n d N3 N2). unfold extra in *. destruct ow; cbn in H0; [now rewrite get_c_freeze' in H0|exact H0].
        - intros. eapply H2; eauto. }
      rewrite map_length in H. clear H0 H1 H2 NS SM. revert fs' l RD H F. induction l' as [|o l' IHl]; intros fs' l RD LN F.
      + inversion RD; subst. destruct l; [constructor|discriminate].
      + cbn [map] in *. inversion RD as [|y f' ys fs1 RO RD1]; subst. destruct l as [|[n d] r]; [discriminate|].
        destruct (F 0 f' n d eq_refl eq_refl) as [EX FD].
        destruct (TF o (or_introl eq_refl)) as [TO PO].
        destruct TO as ((n' & EN & ND) & TO2 & TO3).
        destruct (field_named ns' o n' f') as [EX' (nm' & RA')]; auto; [split; eauto|].
        assert (n' = n) by congruence. subst n'.
        assert (Y : exists j', dget "type" o = Some j').
        { inversion RA'; subst; eauto. destruct H as [|[? _]]; eauto. }
        destruct Y as [j' EJ]. apply (fields_cons start doc ns' o n j'); auto.
        * apply (FD ns' j' f'); auto; [apply like_fr|]. right. eauto.
        * apply (IHl (fun o' I' => TF o' (or_intror I')) fs1 r); auto.
          intros i f m d' N1 N2. apply (F (S i) f m d'); auto.
    - (* enum *)
      assert (X : s1 = PList l) by (destruct ow; cbn in EQ |- *; congruence). eapply DP; eauto.
    - (* union *)
      assert (X : ts = map (fr ow) ts') by (destruct ow; cbn [set_c fr freeze] in EQ; injection EQ as _ ->; [reflexivity|]; symmetry; apply map_id).
      subst ts. apply in_map_iff in H as (u & <- & IU).
      assert (Y : exists x, In x l' /\ reads ns x u).
      { clear -RD IU. induction RD as [|x y xs ys Q _ IH]; [destruct IU|]. destruct IU as [<-|IU]; [exists x; cbn; auto|].
        destruct (IH IU) as (z & I' & R). exists z. cbn. auto. }
      destruct Y as (x & IX & RX). apply (DP x); auto. apply (IHholds ns x u); auto; [apply like_fr|now left].
    - (* reference *)
      assert (X : c_alias c = PStr (refers ns s1)).
      { destruct SM as [_ SA _]. rewrite <- AL. cbn in SA. rewrite <- SA by auto. destruct ow; cbn in EQ |- *; congruence. }
      assert (a = refers ns s1) by congruence. subst a.
      pose proof (W ns (PStr s1) PS) as K. cbn [known] in K. destruct K as [K|(_ & ns' & d' & DF)]; [elim (proj1 IR K)|].
      destruct (sound ns s1 ns' d' t PS IR DF H0) as (t2 & RD2 & LK2).
      apply (DP ns' d'); auto. apply (IHholds ns' (PDict d') t2); auto; [apply DF|now left].
  Qed.
End Back.

Theorem data_back j start ns R R' t v : namespaced j ->
  start = PStr ns \/ (start = PNone /\ ns = "" /\ exists d nm, j = PDict d /\ dget "name" d = Some (PStr nm)) ->
  avro_to j start R = (R', Ok t) -> tidy ns j -> plain_references ns j -> well_formed ns j -> precise ns j ->
  holds (in_registry R') t v -> data ns j ns j v.
Proof.
  intros N S H T PR W P D. destruct (to_reads j start ns R R' t N S H) as [RD _].
  assert (AP : avro_parse j (PStr ns) R = (R', Ok t)) by (eapply to_parse; eauto).
  assert (V : visited R' ns j).
  { apply called_visited; auto. exists R, R', t, []. split; auto. now rewrite app_nil_r. }
  apply (loose ns j T W P (in_registry R')) with (t := t) (t0 := t); auto using like_refl, part_doc.
  - intros ns0 s ns' d t' PS IR DF E. destruct (definition_registered R' ns j T V _ ns' d DF) as (R0 & t0 & RD0 & PX & G); [eapply PR; eauto|].
    unfold in_registry in E. rewrite G in E. injection E as <-. exists t0. split; auto. now apply like_stored.
  - now left.
Qed.
