(** The values of a struct are messages of the proto file written for it. *)
From Coq Require Import String Ascii List NArith ZArith QArith Bool Lia.
From Verif Require Import PyVal PyValFacts RType Registry Regex FromDict Url Avro SpecTypes SpecInstances SpecRows
  Proto SpecProto SpecProtoData SpecProtoWritten ProtoWrite ProtoMean.
Import ListNotations.
Open Scope nat_scope.
Open Scope string_scope.
Open Scope list_scope.

(** *** The name that is written *)
Lemma carrier_name x e : simple_field x -> written x e ->
  forall y, carrier x y -> exists k, element_name e = Some (field_name y k).
Proof.
  intros SF [n W] y C. destruct C as [c v l va|t x J|t NL NJ].
  - destruct (write_list _ _ _ _ _ _ W) as (g & Wg & _ & ->). cbn [simple_field] in SF.
    destruct (simple_written _ _ _ SF Wg) as (ty & -> & _). exists n. reflexivity.
  - destruct (write_just _ _ _ _ J W) as (g & Wg & _ & ->). destruct J as (c & ts & -> & F). cbn [simple_field] in SF.
    assert (I : In x (filter (fun y => negb (nulls y)) ts)) by (rewrite F; now left). apply filter_In in I as [I N].
    rewrite Forall_forall in SF. destruct (SF x I) as [H|S]; [rewrite H in N; discriminate|].
    destruct (simple_written _ _ _ S Wg) as (ty & -> & _). exists n. reflexivity.
  - exists n. assert (B : simple t -> element_name e = Some (field_name t n)).
    { intros S. destruct (simple_written _ _ _ S W) as (ty & -> & _). reflexivity. }
    destruct t as [c|c|c b s|c b|c b v|c b v|c v l va|c k v|c fs|c s|c ts|c rg]; auto.
    + elim NL. unfold list_type. eauto.
    + cbn [simple_field] in SF. destruct SF as [Sk Sv]. cbn [pr_write] in W. apply rbind_Ok in W as (fk & Wk & W). apply rbind_Ok in W as (fv & Wv & W).
      destruct (is_field fk && is_field fv)%bool; [|discriminate]. injection W as <-. reflexivity.
    + rewrite write_union in W. apply rbind_Ok in W as (es & Wa & W).
      change (others ts) with (filter (fun y => negb (nulls y)) ts) in W.
      destruct (Nat.eqb_spec (length (filter (fun y => negb (nulls y)) ts)) 1) as [L|L]; [|now injection W as <-].
      exfalso. destruct (filter (fun y => negb (nulls y)) ts) as [|x [|]] eqn:FE; try discriminate.
      apply (NJ x). exists c, ts. auto.
Qed.
Lemma carrier_ex x : simple_field x -> exists y, carrier x y.
Proof.
  intros SF. destruct x as [c|c|c b s|c b|c b v|c b v|c v l va|c k v|c fs|c s|c ts|c rg].
  7: { eexists. constructor. }
  10: { destruct (filter (fun y => negb (nulls y)) ts) as [|x [|z r]] eqn:FE.
    - eexists. apply carrier_self; [intros (?&?&?&?&E); discriminate|]. intros x (c' & ts' & E & F). injection E as <- <-. congruence.
    - exists x. apply carrier_just. exists c, ts. auto.
    - eexists. apply carrier_self; [intros (?&?&?&?&E); discriminate|]. intros x' (c' & ts' & E & F). injection E as <- <-. congruence. }
  all: eexists; apply carrier_self; [intros (?&?&?&?&E); discriminate|intros x (c' & ts' & E & F); discriminate].
Qed.

(** *** Enums *)
Lemma enum_written t p els c l q n : pr_from t = Ok (FPackage p :: map FElement els) -> node_of (TEnum c (PList l)) t ->
  c_alias c = PStr (q ++ "." ++ n)%string -> dotless n -> rooted t p q ->
  exists els' vs, scope p els q els' /\ In (EEnum n vs) els' /\ map fst vs = l.
Proof.
  intros H N A L Q. apply pr_from_inv in H as (D & p' & G & _ & _ & E). injection E as <- E. apply felement_inj in E. subst els.
  destruct (scope_rooted _ _ _ _ G Q) as (els & fuel & k & S & I & Kp & F). destruct (gather_node _ _ N _ G) as (d & Gd & Sd).
  cbn [pr_gather] in Gd. rewrite A, dot_in, rsplit_app in Gd by auto. injection Gd as <-.
  set (vs := combine l (map Z.of_nat (seq 0 (length l)))) in *.
  assert (M : In (q, EEnum n vs) D) by (apply Sd; now left).
  pose proof (bound_package _ _ _ M) as B. destruct fuel as [|fuel]; [lia|]. pose proof (construct_In fuel D k q _ M) as C. cbn beta iota in C.
  exists els, vs. split; [exact S|]. split; [now apply I|]. unfold vs. clear.
  assert (X : forall (l : list pyval) (z : list Z), length l = length z -> map fst (combine l z) = l).
  { induction l0 as [|x l0 IH]; intros [|y z] E; try discriminate; [reflexivity|]. cbn. f_equal. apply IH. now injection E. }
  apply X. now rewrite map_length, seq_length.
Qed.

(** *** Renaming *)
Lemma collect {A B} (P : A -> B -> Prop) l : (forall x, In x l -> exists y, P x y) -> exists l', Forall2 P l l'.
Proof.
  induction l as [|x l IH]; intros H; [exists []; constructor|]. destruct (H x) as [y Y]; [now left|].
  destruct IH as [l' F]; [intros; apply H; now right|]. exists (y :: l'). now constructor.
Qed.
Lemma Forall2_right {A B} (P : A -> B -> Prop) l l' y : Forall2 P l l' -> In y l' -> exists x, In x l /\ P x y.
Proof. intros F. induction F; intros []; [subst; eexists; split; [now left|auto]|]. destruct IHF as (z & I & Z); auto. exists z. split; [now right|auto]. Qed.
Fixpoint renamed_eq (v : datum) : forall w, renamed eq v w -> v = w.
Proof.
  destruct v; intros w R; inversion R; subst; try reflexivity.
  - match goal with H : Forall2 _ _ _ |- _ => rename H into F end. f_equal. clear R. revert l' F. induction l as [|x l IH]; intros l' F; inversion F; subst; [reflexivity|].
    f_equal; [now apply renamed_eq|now apply IH].
  - match goal with H : Forall2 _ _ _ |- _ => rename H into F end. f_equal. clear R. revert l' F. induction l as [|[x y] l IH]; intros l' F; inversion F as [|? [x' y'] ? ? [E1 E2]]; subst; [reflexivity|].
    f_equal; [|now apply IH]. cbn in E1, E2. f_equal; now apply renamed_eq.
  - match goal with H : Forall2 _ _ _ |- _ => rename H into F end. f_equal. clear R. revert l' F. induction l as [|[x y] l IH]; intros l' F; inversion F as [|? [x' y'] ? ? [E1 E2]]; subst; [reflexivity|].
    f_equal; [|now apply IH]. cbn in E1, E2. f_equal; [exact E1|now apply renamed_eq].
Qed.

Lemma node_sub T t x : node_of t T -> In x (children t) -> node_of x T.
Proof.
  intros I C. induction I as [|u w IC N0 IH]; [eapply node_child; [exact C|constructor]|]. eapply node_child; eauto.
Qed.

Section Written.
  Variables (instant : Z -> Prop) (N : string -> string -> Prop).
  Variables (T : rtype) (p : string) (els : list element).
  Hypothesis HF : pr_from T = Ok (FPackage p :: map FElement els).
  Hypothesis X : expressible p T.
  Hypothesis HN : forall x y n k, in_struct T x -> carrier x y -> has_name x (PStr n) -> exists n', field_name y k = PStr n' /\ N n n'.
  Notation data := (data instant (2 ^ 31 - 1) p els).
  Notation value := (value instant (2 ^ 31 - 1) p els).
  Notation fields := (fields instant (2 ^ 31 - 1) p els).

  (** *** The message of a struct *)
  Lemma struct_declared c fs : node_of (TStruct c fs) T ->
    exists a n m rest, c_alias c = PStr a /\ declared_as p els a n (EMessage n (m ++ rest)) /\ Forall is_declaration rest /\
      Forall2 (fun x e => field_writes x e /\ forall s, has_name x (PStr s) -> exists s', element_name e = Some (PStr s') /\ N s s') fs m.
  Proof.
    intros I. destruct (xp_named _ _ X (TStruct c fs) I) as (q & n & A & D & R); [left; eauto|].
    assert (PL : placed T p (q ++ "." ++ n)%string fs) by (exists c, q, n; auto).
    destruct (struct_message_imp (fun x e => field_writes x e /\ forall s, has_name x (PStr s) -> exists s', element_name e = Some (PStr s') /\ N s s')
      T (FPackage p :: map FElement els) p (q ++ "." ++ n)%string fs) as (m & (p' & els0 & q' & els' & n' & rest & E & S & EA & IM & FD) & FW); [|exact HF|reflexivity|exact PL|].
    - intros x e IX W. assert (IS : in_struct T x) by (exists c, fs; auto). pose proof (xp_fields _ _ X x IS) as SF.
      split; [now apply field_mean|]. intros s HS. destruct (carrier_ex x SF) as [y C]. destruct (carrier_name x e SF W y C) as [k K].
      destruct (HN x y s k IS C HS) as (s' & E1 & E2). exists s'. rewrite K, E1. auto.
    - injection E as <- E. apply felement_inj in E. subst els0.
      exists (q ++ "." ++ n)%string, n', m, rest. split; [exact A|]. split; [|auto]. rewrite EA. exists q', els'. eauto 6.
  Qed.
  Lemma not_scalar a : ~ In ("." ++ a)%string proto_scalars.
  Proof. cbn. intros H. repeat destruct H as [H|H]; try discriminate; contradiction. Qed.
  Lemma fields_app q m rest r : Forall is_declaration rest -> fields q m r -> fields q (m ++ rest) r.
  Proof.
    intros D F. induction F; cbn [app]; [|now apply f_skip|now apply f_cons].
    induction D as [|e l [(n & m & ->)|(n & m & ->)] D IH]; [constructor| |]; apply f_skip; auto.
  Qed.

  (** *** Values *)
  Definition ready (t : rtype) (v : datum) : Prop := node_of t T ->
    (forall ty q, simple t -> scalar_writes t ty -> exists w, renamed N v w /\ data q ty w) /\
    (forall e q, simple_field t -> field_writes t e -> exists w, renamed N v w /\ value q e w).
  Lemma ready_scalar t v : (node_of t T -> forall ty q, simple t -> scalar_writes t ty -> exists w, renamed N v w /\ data q ty w) ->
    (forall c u l va, t <> TList c u l va) -> (forall c k u, t <> TMap c k u) -> (forall c ts, t <> TUnion c ts) -> ready t v.
  Proof.
    intros H A B C I. split; [auto|]. intros e q SF FW. destruct FW as [t nm n ty S W|c' v' l va nm n ty W|c' k v' nm n kt vt W W'|t x nm n ty (c' & ts & -> & _) W|c' ts nm es Ch F].
    - destruct (H I ty q) as (w & R & D); auto.
      { destruct t; try contradiction; exact SF. }
      exists w. split; [exact R|]. apply v_single; [discriminate|exact D].
    - now elim (A c' v' l va).
    - now elim (B c' k v').
    - now elim (C c' ts).
    - now elim (C c' ts).
  Qed.
  Lemma atom d : (forall l, d <> DList l) -> (forall l, d <> DMap l) -> (forall l, d <> DRow l) -> renamed N d d.
  Proof. apply rn_atom. Qed.
  Lemma fits_limit n va len : fits (PInt n) va len -> (n < 2 ^ 31)%Z -> (Z.of_nat len <= 2 ^ 31 - 1)%Z.
  Proof. unfold fits. destruct (truthy va); lia. Qed.
  Lemma all_ready t v : holds (named_in T) t v -> ready t v.
  Proof.
    assert (P : forall t v ty, node_of t T -> (simple t -> scalar_writes t ty -> forall q, data q ty v) ->
      (forall l, v <> DList l) -> (forall l, v <> DMap l) -> (forall l, v <> DRow l) -> simple t -> scalar_writes t ty ->
      forall q, exists w, renamed N v w /\ data q ty w).
    { intros t0 v0 ty I D A B C S W q. exists v0. split; [now apply rn_atom|auto]. }
    induction 1 as [c|c b|c b s z L RZ|c b s u m n k z L U TU SN RZ|c b s u m n k z L U TU SN RZ|c b s n L U RZ|c b q FF|c n va s F|c n va s L F
      |c b va pr m u k z L EP ES SN AB RZ|c t n va l F H IH|c k t l HK IHK HV IHV|c fs l LN NM H IH|c l s IN|c ts t d IN H IH|c rg a t d A E H IH].
    1-10: apply ready_scalar; try discriminate; intros I ty q0 S W; eapply P; eauto; try discriminate; clear S; intros S _ q1; inversion W; subst.
    - do 2 constructor.
    - do 2 constructor.
    - constructor. match goal with R : within _ ?r |- _ => destruct r as [lo hi]; rename R into RW end.
      eapply sd_int; [eassumption|]. unfold within, recap_range in RW. unfold int_range in RZ. destruct s; cbn [fst snd] in *; lia.
    - pose proof (xp_plain _ _ X _ I) as Y. cbn in Y. unfold logical_is in L. congruence.
    - pose proof (xp_plain _ _ X _ I) as Y. cbn in Y. unfold logical_is in L. congruence.
    - pose proof (xp_plain _ _ X _ I) as Y. cbn in Y. unfold logical_is in L. congruence.
    - constructor. destruct FF as [[-> FF]|[-> FF]]; [now constructor|lia].
    - constructor. destruct FF as [[-> FF]|[-> FF]]; [lia|now constructor].
    - constructor. constructor. eapply fits_limit; eauto.
    - constructor. constructor. eapply fits_limit; eauto.
    - pose proof (xp_plain _ _ X _ I) as Y. cbn in Y. unfold logical_is in L. congruence.
    - (* lists *)
      intros I. split; [intros ty q [S _]; destruct S|]. intros e q SF FW. inversion FW as [? ? ? ? S|? ? ? ? nm k ty W| |? ? ? ? ? (c' & ts & E & _)|]; subst; [destruct S| |discriminate].
      assert (IT : node_of t T) by (eapply node_sub; [exact I|now left]). cbn [simple_field] in SF.
      destruct (collect (fun x y => renamed N x y /\ data q ty y) l) as [l' F2].
      { intros x IX. destruct (IH x IX IT) as [K _]. destruct (K ty q) as (w & R & D); eauto. }
      exists (DList l'). split; [apply rn_list; revert F2; apply Forall2_imp; now intros ? ? _ [? ?]|].
      apply v_repeated. intros y IY. destruct (Forall2_right _ _ _ _ F2 IY) as (x & _ & _ & D). exact D.
    - (* maps *)
      intros I. split; [intros ty q [S _]; destruct S|]. intros e q SF FW. inversion FW as [? ? ? ? S| |? ? ? nm i kt vt WK WV|? ? ? ? ? (c' & ts & E & _)|]; subst; [destruct S| |discriminate].
      assert (I1 : node_of k T) by (eapply node_sub; [exact I|now left]). assert (I2 : node_of t T) by (eapply node_sub; [exact I|right; now left]).
      cbn [simple_field] in SF. destruct SF as [SK SV].
      destruct (collect (fun x y => (renamed N (fst x) (fst y) /\ renamed N (snd x) (snd y)) /\ data q kt (fst y) /\ data q vt (snd y)) l) as [l' F2].
      { intros [x y] IX. destruct (IHK x y IX I1) as [K _]. destruct (IHV x y IX I2) as [V _].
        destruct (K kt q) as (w1 & R1 & D1); auto. destruct (V vt q) as (w2 & R2 & D2); auto. exists (w1, w2). cbn. auto. }
      exists (DMap l'). split; [apply rn_map; revert F2; apply Forall2_imp; now intros ? ? _ [? ?]|].
      apply v_map; intros x y IY; destruct (Forall2_right _ _ _ _ F2 IY) as (z & _ & _ & D1 & D2); [exact D1|exact D2].
    - (* structs *)
      apply ready_scalar; try discriminate. intros I ty q S W. inversion W; subst.
      destruct (struct_declared c fs I) as (a' & n & m & rest & EA & DA & DR & F2). assert (a' = a) by congruence. subst a'.
      assert (K : forall i f nd, nth_error fs i = Some f -> nth_error l i = Some nd -> forall e, field_writes f e -> exists w, renamed N (snd nd) w /\ value a e w).
      { intros i f [n0 d0] E1 E2 e FW. assert (IF : In f fs) by (eapply nth_error_In; eauto).
        destruct (IH i f n0 d0 E1 E2) as [_ V]; [eapply node_sub; [exact I|exact IF]|]. apply V; auto. apply (xp_fields _ _ X). exists c, fs. auto. }
      assert (R : exists r, Forall2 (fun x y => N (fst x) (fst y) /\ renamed N (snd x) (snd y)) l r /\ fields a m r).
      { clear -LN NM F2 K. revert m l LN NM F2 K. induction fs as [|f fs IHf]; intros m l LN NM F2 K.
        - inversion F2; subst. destruct l; [|discriminate]. exists []. split; constructor.
        - inversion F2 as [|? e ? m' [FW NW] F2']; subst. destruct l as [|[n0 d0] l]; [discriminate|].
          destruct (K 0 f (n0, d0) eq_refl eq_refl e FW) as (w & RW & VW). destruct (NW n0) as (s' & ES & NN); [exact (NM 0 f n0 d0 eq_refl eq_refl)|].
          destruct (IHf m' l) as (r & F3 & FR); auto.
          + intros i g n1 d1 E1 E2. exact (NM (S i) g n1 d1 E1 E2).
          + intros i g nd E1 E2. exact (K (S i) g nd E1 E2).
          + exists ((s', w) :: r). split; [constructor; auto|]. now apply f_cons. }
      destruct R as (r & F3 & FR). exists (DRow r). split; [now apply rn_row|].
      eapply d_message with (a := a); [apply not_scalar| |exact DA|now apply fields_app].
      apply names_full; [reflexivity|]. eexists _, _. exact DA.
    - (* enums *)
      apply ready_scalar; try discriminate. intros I ty q S W. inversion W; subst.
      exists (DText s). split; [apply rn_atom; discriminate|].
      destruct (xp_named _ _ X _ I) as (q' & n & A & DL & R); [right; eauto|]. assert (E : c_alias c = PStr (q' ++ "." ++ n)%string) by exact A.
      destruct (enum_written T p els c l q' n HF I E DL R) as (els' & vs & SC & IE & MV).
      assert (a = (q' ++ "." ++ n)%string) by congruence. subst a.
      assert (DA : declared_as p els (q' ++ "." ++ n) n (EEnum n vs)) by (exists q', els'; eauto 7).
      rewrite <- MV in IN. apply in_map_iff in IN as ([s0 z] & E0 & IN). cbn in E0. subst s0.
      eapply d_enum with (a := (q' ++ "." ++ n)%string); [apply not_scalar| |exact DA|exact IN].
      apply names_full; [reflexivity|]. eexists _, _. exact DA.
    - (* unions *)
      intros I. split; [intros ty q [S _]; destruct S|]. intros e q SF FW. assert (IT : node_of t T) by (eapply node_sub; [exact I|exact IN]).
      destruct (IH IT) as [K _]. cbn [simple_field] in SF. rewrite Forall_forall in SF.
      assert (NU : nulls t = true -> d = DNull) by (intros E; destruct t; try discriminate; now inversion H).
      inversion FW as [? ? ? ? S| | |? x nm n ty (c' & ts' & E & FE) W|? ? nm es Ch F2]; subst; [destruct S| |].
      + injection E as <- <-. destruct (nulls t) eqn:NT.
        * rewrite (NU eq_refl). exists DNull. split; [apply rn_atom; discriminate|]. apply v_unset. discriminate.
        * assert (IX : In t (filter (fun y => negb (nulls y)) ts)) by (apply filter_In; now rewrite NT).
          rewrite FE in IX. destruct IX as [->|[]]. destruct (SF t IN) as [Y|S]; [congruence|].
          destruct (K ty q S W) as (w & R & D). exists w. split; [exact R|]. apply v_single; [discriminate|exact D].
      + destruct (nulls t) eqn:NT.
        * rewrite (NU eq_refl). exists DNull. split; [apply rn_atom; discriminate|]. apply v_none.
        * assert (IX : In t (filter (fun y => negb (nulls y)) ts)) by (apply filter_In; now rewrite NT).
          destruct (SF t IN) as [Y|S]; [congruence|].
          assert (Z : exists e', In e' es /\ exists nm n ty, e' = EField nm n ty None /\ scalar_writes t ty).
          { clear -F2 IX. induction F2 as [|? ? ? ? Hh]; [destruct IX|]. destruct IX as [->|IX]; [eexists; split; [now left|exact Hh]|].
            destruct IHF2 as (e' & I' & E'); auto. exists e'. split; [now right|auto]. }
          destruct Z as (e' & IE & m & i & ty & -> & W). destruct (K ty q S W) as (w & R & D). exists w. split; [exact R|].
          eapply v_one; eauto.
    - (* references *)
      apply ready_scalar; try discriminate. intros I ty q S W. inversion W; subst. assert (a0 = a) by congruence. subst a0.
      destruct E as (IT & AT & KT). destruct (IH IT) as [K _]. unfold aliased in AT.
      destruct KT as [(c1 & fs & ->)|(c1 & l & ->)]; (apply K; [split; exact Logic.I|]); [now apply writes_struct|now apply writes_enum].
  Qed.
End Written.

Lemma written_message instant N t c fs a f p v : t = TStruct c fs -> c_alias c = PStr a -> pr_from t = Ok f -> first_package f = Some p -> expressible p t ->
  (forall x y n k, in_struct t x -> carrier x y -> has_name x (PStr n) -> exists n', field_name y k = PStr n' /\ N n n') ->
  holds (named_in t) t v -> exists w, renamed N v w /\ SpecProtoData.data instant (2 ^ 31 - 1) p (body f) p ("." ++ a) w.
Proof.
  intros -> A HF FP X HN H. pose proof HF as HF'. apply pr_from_inv in HF' as (D & p' & G & _ & _ & ->). injection FP as ->.
  rewrite body_file. destruct (all_ready instant N (TStruct c fs) p _ HF X HN _ _ H (node_self _)) as [K _]. apply K; [split; exact Logic.I|now apply writes_struct].
Qed.
Theorem values_written instant c fs a f p v : c_alias c = PStr a -> pr_from (TStruct c fs) = Ok f -> first_package f = Some p ->
  expressible p (TStruct c fs) -> names_in_place (TStruct c fs) ->
  holds (named_in (TStruct c fs)) (TStruct c fs) v ->
  SpecProtoData.data instant (2 ^ 31 - 1) p (body f) p ("." ++ a) v.
Proof.
  intros A HF FP X NP H. destruct (written_message instant eq _ c fs a f p v eq_refl A HF FP X) as (w & R & D); auto.
  - intros x y n k IX C HN. exists n. split; [|reflexivity]. specialize (NP x y _ IX C HN). unfold field_name, kwarg. unfold has_name in NP. now rewrite NP.
  - apply renamed_eq in R. now subst.
Qed.
Theorem values_renamed instant c fs a f p v : c_alias c = PStr a -> pr_from (TStruct c fs) = Ok f -> first_package f = Some p ->
  expressible p (TStruct c fs) -> names_are_texts (TStruct c fs) ->
  holds (named_in (TStruct c fs)) (TStruct c fs) v ->
  exists w, renamed (fun _ _ => True) v w /\ SpecProtoData.data instant (2 ^ 31 - 1) p (body f) p ("." ++ a) w.
Proof.
  intros A HF FP X NT H. apply (written_message _ _ _ c fs a f p v eq_refl A HF FP X); auto.
  intros x y n k IX C HN. unfold field_name, kwarg. destruct (dget "name" (c_extra (get_c y))) as [m|] eqn:E; [|eauto].
  destruct (NT x y m IX C E) as [s ->]. eauto.
Qed.
