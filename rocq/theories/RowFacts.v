(** Values of fields of database tables: what the wrapping of columns does to them. *)
From Coq Require Import String Ascii List NArith ZArith QArith Bool Lia.
From Verif Require Import PyVal RType Registry SpecTypes FromDict Nullable Url Dbapi SpecDb SpecInstances SpecRows
  NullableFacts DbapiFacts DbapiMore DbRanges.
Import ListNotations.
Open Scope nat_scope.
Open Scope string_scope.
Open Scope list_scope.

(** The types that a registry knows. *)
Definition names_in (R : registry) (a : string) (t : rtype) : Prop := dget a R = Some t.
Definition grow (R R' : registry) : Prop := forall a t, dget a R = Some t -> dget a R' = Some t.
Lemma grow_refl R : grow R R.
Proof. intros a t H. exact H. Qed.
Lemma grow_trans R1 R2 R3 : grow R1 R2 -> grow R2 R3 -> grow R1 R3.
Proof. intros G H a t E. auto. Qed.

(** [holds] looks at few attributes. *)
Definition alike_c (c c' : common) : Prop :=
  c_logical c = c_logical c' /\ c_alias c = c_alias c' /\
  forall k, In k ["unit"; "precision"; "scale"] -> dget k (c_extra c) = dget k (c_extra c').
Lemma alike_sym c c' : alike_c c c' -> alike_c c' c.
Proof. intros (A & B & C). repeat split; auto. intros k I. symmetry. auto. Qed.
Lemma holds_set env t d c : holds env t d -> alike_c (get_c t) c -> holds env (set_c t c) d.
Proof.
  intros H A. pose proof A as (L & AL & E).
  destruct H; cbn [get_c set_c] in *; try (constructor; auto; congruence; fail).
  - eapply h_instant; eauto; unfold logical_is, extra_is in *; rewrite <- ?L, <- ?E by (cbn; auto); auto.
  - eapply h_clock; eauto; unfold logical_is, extra_is in *; rewrite <- ?L, <- ?E by (cbn; auto); auto.
  - eapply h_day; eauto; unfold logical_is, extra_is in *; rewrite <- ?L, <- ?E by (cbn; auto); auto.
  - eapply h_decimal; eauto; unfold logical_is, extra_is in *; rewrite <- ?L, <- ?E by (cbn; auto 10); auto.
  - eapply h_union; eauto.
  - eapply h_proxy; eauto. congruence.
Qed.
Lemma holds_alike env f b d : set_c f (get_c b) = b -> alike_c (get_c f) (get_c b) ->
  (holds env f d <-> holds env b d).
Proof.
  intros E A. split; intros H.
  - rewrite <- E. apply holds_set; auto.
  - assert (E' : f = set_c b (get_c f)) by (rewrite <- E, set_set_c, set_get_c; auto).
    rewrite E'. apply holds_set; auto. apply alike_sym; auto.
Qed.

Lemma holds_union env c ts d : holds env (TUnion c ts) d <-> exists t, In t ts /\ holds env t d.
Proof. split. - inversion 1; subst; eauto. - intros (t & I & H). eapply h_union; eauto. Qed.
Lemma holds_nulltype env c d : holds env (TNull c) d <-> d = DNull.
Proof. split. - inversion 1; auto. - intros ->. constructor. Qed.

Lemma holds_nullable env c b d : holds env (TUnion c [TNull c0; b]) d <-> d = DNull \/ holds env b d.
Proof.
  rewrite holds_union. split.
  - intros (t & [<-|[<-|[]]] & H); auto. apply holds_nulltype in H. auto.
  - intros [->|H]; [exists (TNull c0)|exists b]; split; cbn; auto. constructor.
Qed.

(** The field made from a column holds NULL if the column is nullable, and what the type of the column
    holds. *)
Lemma field_holds env col base f d : field_spec col base f ->
  (holds env f d <-> (nullable_column col /\ d = DNull) \/ holds env base d).
Proof.
  intros FS. destruct (null_dec col) as [N|N].
  - destruct (fs_nullable _ _ _ FS N) as (c & M).
    assert (G : holds env f d <-> d = DNull \/ holds env base d).
    { destruct base as [ | | | | | | | | | |c1 ts| ]; try (rewrite M; apply holds_nullable; fail).
      destruct M as (ts' & -> & I). rewrite !holds_union. split.
      - intros (t & J & H). apply I in J as [J|[_ ->]]; eauto. apply holds_nulltype in H. auto.
      - intros [->|(t & J & H)].
        + assert (AN : accepts_null (TUnion c ts')) by (apply (fs_null _ _ _ FS); auto).
          destruct AN as (c' & J). exists (TNull c'). split; auto. constructor.
        + exists t. split; auto. apply I. auto. }
    rewrite G. tauto.
  - destruct (fs_required _ _ _ FS N) as (E & L & A & _ & X).
    rewrite (holds_alike env f base d E).
    + tauto.
    + repeat split; auto. intros k I. specialize (X k). unfold extra in X. apply X; cbn in I; intuition congruence.
Qed.

Section Table.
  Variable A : Type.
  Variable facts : A -> list (string * pyval).
  Variables values covered : A -> datum -> Prop.
  Variable legal : decl A -> Prop.
  Variable p : column -> M rtype.
  Variable fresh : fresh_parser p.
  Variable grows : forall col R R' t, p col R = (R', Ok t) -> grow R R'.
  Variable column_values : forall d col R R' Rf t v, legal d -> described A facts d col ->
    p col R = (R', Ok t) -> grow R' Rf -> values (d_type d) v ->
    (holds (names_in Rf) t v <-> covered (d_type d) v).
  Variable no_null : forall a, ~ values a DNull.

  Lemma described_null d col : described A facts d col -> (nullable_column col <-> d_null d = true).
  Proof.
    intros D. unfold nullable_column. rewrite (de_null _ _ _ _ D). destruct (d_null d).
    - split; auto. intros _. exists "YES". split; auto. apply nullable_upper. reflexivity.
    - split; [|discriminate]. intros (s & [= <-] & C). apply nullable_upper in C. discriminate.
  Qed.

  Lemma fields_of_rows cols : forall ds R R' fs row,
    Forall legal ds -> Forall2 (described A facts) ds cols -> fields_of p cols R = (R', Ok fs) ->
    in_table A values ds row ->
    grow R R' /\ length fs = length row /\
    (forall i f n d, nth_error fs i = Some f -> nth_error row i = Some (n, d) -> extra "name" f = Some (PStr n)) /\
    forall Rf, grow R' Rf -> ((forall i f n d, nth_error fs i = Some f -> nth_error row i = Some (n, d) -> holds (names_in Rf) f d)
     <-> row_of A covered ds row).
  Proof.
    induction cols as [|col cols IH]; intros ds R R' fs row L F H S.
    - inversion F; subst. inversion S; subst. cbn in H. injection H as <- <-.
      split; [apply grow_refl|]. split; auto. split; [intros [|i]; discriminate|].
      intros Rf _. split; [intros _; constructor|intros _ [|i]; discriminate].
    - inversion F as [|d ? ds' ? D F']; subst. inversion S as [|? [n v] ? row' [N V] S']; subst.
      cbn [fields_of] in H. unfold mbind, ret, lift in H.
      destruct (p col R) as [R1 [t|]] eqn:E; [|discriminate].
      destruct (finish col t) as [f|] eqn:E1; [|discriminate].
      destruct (fields_of p cols R1) as [R2 [fs'|]] eqn:E2; [|discriminate].
      injection H as <- <-. inversion L as [|? ? Ld L']; subst.
      destruct (IH _ _ _ _ _ L' F' E2 S') as (G & LN & NM & HV).
      pose proof (finish_spec _ _ _ (fresh _ _ _ _ E) E1) as FS.
      split; [eapply grow_trans; eauto|]. split; [cbn; auto|]. split.
      + intros [|i] f0 n0 d0; cbn; [|apply NM]. intros [= <-] [= <- <-].
        destruct (fs_name _ _ _ FS) as (x & X1 & X2). rewrite (de_name _ _ _ _ D) in X1. injection X1 as <-.
        cbn in N. subst. auto.
      + intros Rf GF.
        assert (HD : holds (names_in Rf) f v <-> (d_null d = true /\ v = DNull \/ covered (d_type d) v)).
        { rewrite (field_holds _ _ _ _ _ FS), (described_null _ _ D). cbn [fst snd] in *.
          destruct V as [[V1 V2]|V].
          - split; auto.
          - rewrite (column_values _ _ _ _ Rf _ _ Ld D E) by (auto; eapply grow_trans; eauto). tauto. }
        split.
        * intros HA. constructor; [split; auto|].
          -- apply HD. apply (HA 0 f n v); reflexivity.
          -- apply (proj1 (HV Rf GF)). intros i f0 n0 d0 I J. apply (HA (Datatypes.S i) f0 n0 d0); auto.
        * intros RO. inversion RO as [|? ? ? ? [_ C] RO']; subst. intros [|i] f0 n0 d0; cbn.
          -- intros [= <-] [= <- <-]. apply HD. exact C.
          -- intros I J. apply (proj2 (HV Rf GF) RO' i f0 n0 d0); auto.
  Qed.

  Theorem rows_of_table : forall ds cols R R' t row,
    Forall legal ds -> Forall2 (described A facts) ds cols -> to_recap p cols R = (R', Ok t) ->
    in_table A values ds row ->
    (holds (names_in R') t (DRow row) <-> row_of A covered ds row).
  Proof.
    intros ds cols R R' t row L F H S. unfold to_recap, mbind, ret in H.
    destruct (fields_of p cols R) as [R1 [fs|]] eqn:E; [|discriminate]. injection H as <- <-.
    destruct (fields_of_rows _ _ _ _ _ _ L F E S) as (_ & LN & NM & HV).
    rewrite <- (HV R1 (grow_refl _)). split.
    - inversion 1; subst; auto.
    - intros X. constructor; auto.
  Qed.
End Table.

(** Reading succeeds if every column can be read. *)
Lemma finish_ok A facts (d : decl A) col t : described A facts d col -> fresh_type t -> exists f, finish col t = Ok f.
Proof.
  intros D FT. unfold finish, item. rewrite (de_null _ _ _ _ D). cbn [rbind as_str].
  pose proof (de_default _ _ _ _ D) as DD. destruct (dget "COLUMN_DEFAULT" col); [|congruence].
  rewrite (de_name _ _ _ _ D).
  assert (M : forall b : bool, exists t1, (if b then snd (make_nullable t) else Ok t) = Ok t1).
  { intros [|]; eauto. destruct (is_union t) eqn:U.
    - destruct t; try discriminate. rewrite make_nullable_union by (apply fresh_no_clash; auto). cbn. eauto.
    - rewrite make_nullable_other by (auto; apply fresh_no_clash; auto). cbn. eauto. }
  destruct (M (String.eqb (upper (if d_null d then "YES" else "NO")) "YES")) as (t1 & ->).
  cbn [rbind]. eauto.
Qed.
Lemma pure_table A facts (q : column -> res rtype) ds : forall cols R,
  fresh_parser (pure q) -> Forall2 (described A facts) ds cols ->
  ((exists fs, fields_of (pure q) cols R = (R, Ok fs)) <-> Forall (fun col => exists t, q col = Ok t) cols).
Proof.
  induction ds as [|d ds IH]; intros cols R FP F; inversion F as [|? col ? cols' D F']; subst; cbn [fields_of].
  - split; auto. intros _. eexists. reflexivity.
  - unfold mbind, ret, pure, lift in *. split.
    + intros (fs & H). destruct (q col) as [t|] eqn:E; [|discriminate].
      destruct (finish col t) as [f|]; [|discriminate].
      destruct (fields_of _ cols' R) as [R1 [fs'|]] eqn:E1; [|discriminate].
      constructor; eauto. injection H as -> _. apply (IH cols' R); eauto.
    + intros H. inversion H as [|? ? (t & E) H']; subst. rewrite E.
      destruct (finish_ok A facts d col t D) as (f & ->). { eapply (FP col R R t). rewrite E. reflexivity. }
      destruct (proj2 (IH cols' R FP F') H') as (fs & ->). eauto.
Qed.
Lemma pure_table_ok A facts (q : column -> res rtype) ds cols R :
  fresh_parser (pure q) -> Forall2 (described A facts) ds cols ->
  ((exists t, to_recap (pure q) cols R = (R, Ok t)) <-> Forall (fun col => exists t, q col = Ok t) cols).
Proof.
  intros FP F. rewrite <- (pure_table A facts q ds cols R FP F). unfold to_recap, mbind, ret. split.
  - intros (t & H). destruct (fields_of _ cols R) as [R1 [fs|]]; [|discriminate]. injection H as -> _. eauto.
  - intros (fs & ->). eauto.
Qed.
