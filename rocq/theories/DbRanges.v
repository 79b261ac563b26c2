(** Value ranges, limits, PostgreSQL arrays and SQLite nullability (proofs only). *)
From Coq Require Import String Ascii List NArith ZArith QArith Bool Lia.
From Verif Require Import PyVal PyValFacts RType Regex Registry RegexFacts RegistryFacts SpecTypes FromDict
  Nullable NullableFacts Url Dbapi BigQuery SpecDb DbapiFacts DbapiMore DbReads SpecBigQuery BigQueryFacts.
Import ListNotations.
Open Scope nat_scope.
Open Scope string_scope.
Open Scope list_scope.

(** ** C49 and C62: Snowflake *)
Definition snow_times : list string :=
  ["timestamp"; "timestamp_ntz"; "timestamp_ltz"; "timestamp_tz"; "timestampntz"; "timestampltz";
   "timestamptz"; "datetime"].
Definition digit (n : nat) : string := String (ascii_of_nat (48 + n)) "".
Lemma ten d : d < 10 -> In d [0;1;2;3;4;5;6;7;8;9].
Proof. intros. cbn. lia. Qed.
Ltac in_cases H := repeat (destruct H as [H|H]; [subst|]); [..|destruct H].
Theorem snowflake_timestamps : forall col t s base p,
  dget "DATA_TYPE" col = Some (PStr s) -> In base snow_times -> p < 10 ->
  ci_eq s (base ++ "(" ++ digit p ++ ")") ->
  snowflake_type col = Ok t ->
  exists u, t = TInt (lge "build.recap.Timestamp" [("unit", PStr u)]) (PInt 64) (PBool true)
    /\ coarsest (Z.of_nat p) u.
Proof.
  intros col t s base p D B P C H. unfold snowflake_type, item in H. rewrite D in H. cbn [rbind as_str] in H.
  apply ci_lower in C.
  destruct (dget "CHARACTER_OCTET_LENGTH" col) as [oc|]; cbn [rbind] in H; [|discriminate].
  apply ten in P. rewrite C in H. clear C D.
  in_cases B; in_cases P; vm_compute in H; injection H; intros; subst; (eexists; split; [reflexivity|]);
    apply coarsest_unit; try reflexivity; cbn; lia.
Qed.
Theorem snowflake_times : forall col t s p,
  dget "DATA_TYPE" col = Some (PStr s) -> p < 10 -> ci_eq s ("time(" ++ digit p ++ ")") ->
  snowflake_type col = Ok t ->
  exists u, t = TInt (lge "build.recap.Time" [("unit", PStr u)]) (PInt 32) (PBool true)
    /\ coarsest (Z.of_nat p) u.
Proof.
  intros col t s p D P C H. unfold snowflake_type, item in H. rewrite D in H. cbn [rbind as_str] in H.
  apply ci_lower in C.
  destruct (dget "CHARACTER_OCTET_LENGTH" col) as [oc|]; cbn [rbind] in H; [|discriminate].
  apply ten in P. rewrite C in H. clear C D.
  in_cases P; vm_compute in H; injection H; intros; subst; (eexists; split; [reflexivity|]);
    apply coarsest_unit; try reflexivity; cbn; lia.
Qed.

Lemma int_holds_iff c bits lo hi : (0 < bits)%Z -> (lo <= hi)%Z ->
  (int_holds (TInt c (PInt bits) (PBool true)) lo hi <-> (- 2 ^ (bits - 1) <= lo /\ hi < 2 ^ (bits - 1)))%Z.
Proof.
  intros B L. unfold int_holds. split.
  - intros (c' & b & s & E & _ & H). injection E; intros; subst. cbn in H.
    pose proof (H lo ltac:(lia)). pose proof (H hi ltac:(lia)). lia.
  - intros [A1 A2]. exists c, bits, true. split; auto. split; auto. intros z Z. lia.
Qed.

Theorem snowflake_time_range : forall col t s p u n,
  dget "DATA_TYPE" col = Some (PStr s) -> p < 10 -> ci_eq s ("time(" ++ digit p ++ ")") ->
  snowflake_type col = Ok t -> extra "unit" t = Some (PStr u) -> time_unit u n ->
  (int_holds t 0 (last_of_day n) <-> p <= 3).
Proof.
  intros col t s p u n D P C H E T. destruct (snowflake_times _ _ _ _ D P C H) as (u' & -> & CO).
  cbn in E. injection E; intros; subst u'. destruct CO as (m & Tm & L & MIN).
  assert (m = n) by (destruct Tm; inversion T; auto). subst m.
  pose proof (MIN _ _ u_second) as M0. pose proof (MIN _ _ u_milli) as M3.
  pose proof (MIN _ _ u_micro) as M6. apply time_unit_inv in T.
  rewrite int_holds_iff; [|lia|].
  2:{ unfold last_of_day. intuition (subst; cbn; lia). }
  unfold last_of_day. intuition (subst; cbn in *; try lia).
Qed.

Theorem snowflake_plain_time : forall col t s,
  dget "DATA_TYPE" col = Some (PStr s) -> ci_eq s "TIME" -> snowflake_type col = Ok t ->
  extra "unit" t = Some (PStr "nanosecond") /\ ~ int_holds t 0 (last_of_day 9).
Proof.
  intros col t s D C H. unfold snowflake_type, item in H. rewrite D in H. cbn [rbind as_str] in H.
  apply ci_lower in C.
  destruct (dget "CHARACTER_OCTET_LENGTH" col) as [oc|]; cbn [rbind] in H; [|discriminate].
  rewrite C in H. injection H; intros; subst. split; [reflexivity|].
  unfold time_t, int_t. cbn. intros X. apply int_holds_iff in X; cbn in *; lia.
Qed.

Theorem bigquery_time : forall f t, bq_type f = "TIME" -> bq_scalar f = Some t ->
  extra "unit" t = Some (PStr "microsecond") /\ ~ int_holds t 0 (last_of_day 6).
Proof.
  intros f t E H. unfold bq_scalar in H. rewrite E in H. cbn in H. injection H; intros; subst.
  split; [reflexivity|]. intros X. apply int_holds_iff in X; cbn in *; lia.
Qed.

(** ** C63: decimals *)
Lemma pow10_le p q : (0 <= p <= q)%Z -> (10 ^ p <= 10 ^ q)%Z.
Proof. intros. apply Z.pow_le_mono_r; lia. Qed.
Definition decimal_of (t : rtype) (bytes : Z) (p : pyval) : Prop :=
  exists c, t = TBytes c (PInt bytes) (PBool false) /\ dget "precision" (c_extra c) = Some p
    /\ c_logical c = PStr "build.recap.Decimal".
Lemma fits16 p : (0 <= p <= 38)%Z -> decimal_fits 16 p.
Proof. intros H. unfold decimal_fits. etransitivity; [apply (pow10_le p 38); lia|]. vm_compute. discriminate. Qed.
Lemma fits32 p : (0 <= p <= 76)%Z -> decimal_fits 32 p.
Proof. intros H. unfold decimal_fits. etransitivity; [apply (pow10_le p 76); lia|]. vm_compute. discriminate. Qed.
Lemma not_fits32 p : (77 <= p)%Z -> ~ decimal_fits 32 p.
Proof.
  intros H X. unfold decimal_fits in X. pose proof (pow10_le 77 p ltac:(lia)) as Y.
  assert (Z' : (2 ^ (8 * 32 - 1) < 10 ^ 77)%Z) by (vm_compute; reflexivity). lia.
Qed.

Theorem mysql_decimals : forall col t s p,
  dget "DATA_TYPE" col = Some (PStr s) -> (exists w, In w ["decimal"; "dec"; "numeric"] /\ ci_eq s w) ->
  dget "NUMERIC_PRECISION" col = Some (PInt p) -> mysql_type col = Ok t ->
  decimal_of t 32 (PInt p) /\ ((0 <= p <= 65)%Z -> decimal_fits 32 p).
Proof.
  intros col t s p D (w & W & C) N H. split; [|intros; apply fits32; lia].
  unfold mysql_type, item in H. rewrite D in H. cbn [rbind as_str] in H. apply ci_lower in C.
  destruct (dget "CHARACTER_OCTET_LENGTH" col) as [oc|]; cbn [rbind] in H; [|discriminate].
  rewrite N in H. cbn [rbind] in H.
  destruct (dget "NUMERIC_SCALE" col) as [sc|]; cbn [rbind] in H; [|discriminate].
  rewrite C in H. clear C D. in_cases W; injection H; intros; subst; eexists; repeat split; reflexivity.
Qed.
Theorem snowflake_decimals : forall col t s p,
  dget "DATA_TYPE" col = Some (PStr s) -> (exists w, In w ["number"; "decimal"; "numeric"] /\ ci_eq s w) ->
  dget "NUMERIC_PRECISION" col = Some (PInt p) -> (1 <= p <= 38)%Z -> snowflake_type col = Ok t ->
  decimal_of t 16 (PInt p) /\ decimal_fits 16 p.
Proof.
  intros col t s p D (w & W & C) N B H. split; [|apply fits16; lia].
  unfold snowflake_type, item in H. rewrite D in H. cbn [rbind as_str] in H. apply ci_lower in C.
  destruct (dget "CHARACTER_OCTET_LENGTH" col) as [oc|]; cbn [rbind] in H; [|discriminate].
  rewrite N in H. cbn [rbind] in H.
  destruct (dget "NUMERIC_SCALE" col) as [sc|]; cbn [rbind] in H.
  2:{ rewrite C in H. in_cases W; discriminate. }
  assert (OE : or_else (PInt p) (PInt 38) = PInt p).
  { unfold or_else, truthy. destruct p; auto. lia. }
  rewrite C, OE in H. clear C D. in_cases W; injection H; intros; subst; eexists; repeat split; reflexivity.
Qed.
Theorem bigquery_decimals : forall f t p, bq_scalar f = Some t -> bq_precision f = PInt p -> (1 <= p)%Z ->
  (In (bq_type f) ["NUMERIC"; "DECIMAL"] ->
     decimal_of t 16 (PInt p) /\ ((p <= 38)%Z -> decimal_fits 16 p)) /\
  (In (bq_type f) ["BIGNUMERIC"; "BIGDECIMAL"] ->
     decimal_of t 32 (PInt p) /\ ((p <= 76)%Z -> decimal_fits 32 p)).
Proof.
  intros f t p H P B.
  assert (OE : forall d, or_else (PInt p) d = PInt p).
  { intros d. unfold or_else, truthy. destruct p; auto. lia. }
  unfold bq_scalar in H. rewrite P, !OE in H.
  split; intros W; (split; [|intros; first [apply fits16; lia|apply fits32; lia]]);
  cbn in W; in_cases W;
  match goal with E : _ = bq_type f |- _ => rewrite <- E in H end;
  cbn in H; injection H; intros; subst; eexists; repeat split; reflexivity.
Qed.
(** The defaults: 38 and 76 digits. *)
Theorem bigquery_default_decimals : forall f t, bq_scalar f = Some t -> bq_precision f = PNone ->
  (In (bq_type f) ["NUMERIC"; "DECIMAL"] -> decimal_of t 16 (PInt 38) /\ decimal_fits 16 38) /\
  (In (bq_type f) ["BIGNUMERIC"; "BIGDECIMAL"] -> decimal_of t 32 (PInt 76) /\ decimal_fits 32 76).
Proof.
  intros f t H P. unfold bq_scalar in H. rewrite P in H.
  pose proof (fits16 38 ltac:(lia)) as X16. pose proof (fits32 76 ltac:(lia)) as X32.
  split; intros W; (split; [|assumption]); clear X16 X32;
  cbn in W; in_cases W;
  match goal with E : _ = bq_type f |- _ => rewrite <- E in H end;
  cbn in H; injection H; intros; subst; eexists; repeat split; reflexivity.
Qed.
Theorem pg_decimals : forall enforce ns col R R' t s p,
  dget "DATA_TYPE" col = Some (PStr s) -> (exists w, In w ["decimal"; "numeric"] /\ ci_eq s w) ->
  dget "NUMERIC_PRECISION" col = Some (PInt p) -> (1 <= p)%Z -> pg_type enforce ns col R = (R', Ok t) ->
  decimal_of t 32 (PInt p) /\ (decimal_fits 32 p <-> (p <= 76)%Z).
Proof.
  intros enforce ns col R R' t s p D (w & W & C) N B H. split.
  2:{ split; [|intros; apply fits32; lia]. intros X. destruct (Z.le_gt_cases p 76); auto.
      exfalso. revert X. apply not_fits32. lia. }
  rewrite pg_type_cases in H. unfold pg_header, item in H. apply ci_lower in C.
  destruct (dget "COLUMN_NAME" col); cbn [rbind] in H; [|discriminate].
  rewrite D in H. cbn [rbind as_str] in H.
  destruct (dget "CHARACTER_OCTET_LENGTH" col); cbn [rbind] in H; [|discriminate].
  destruct (dget "CHARACTER_MAXIMUM_LENGTH" col); cbn [rbind] in H; [|discriminate].
  destruct (dget "UDT_NAME" col) as [ud|]; cbn [rbind] in H; [|discriminate].
  destruct (lower_or_empty ud); cbn [rbind] in H; [|discriminate].
  destruct (dget "ATTNDIMS" col); cbn [rbind] in H; [|discriminate].
  rewrite C in H. unfold pg_scalar, item in H. rewrite N in H.
  destruct (dget "NUMERIC_SCALE" col) as [sc|].
  - clear C D. in_cases W; injection H; intros; subst; eexists; repeat split; reflexivity.
  - clear C D. in_cases W; discriminate H.
Qed.

(** ** C64: MySQL integers *)
Definition mysql_range (w : string) (lo hi : Z) : Prop :=
  In (w, lo, hi) [("tinyint", - 128, 127); ("smallint", - 32768, 32767);
    ("mediumint", - 8388608, 8388607); ("int", - 2147483648, 2147483647);
    ("integer", - 2147483648, 2147483647);
    ("bigint", - 9223372036854775808, 9223372036854775807)]%Z.
Lemma mysql_int w lo hi col t s : mysql_range w lo hi ->
  dget "DATA_TYPE" col = Some (PStr s) -> ci_eq s w -> mysql_type col = Ok t ->
  exists bits, t = int_t bits true /\ (0 < bits)%Z /\ lo = (- 2 ^ (bits - 1))%Z /\ hi = (2 ^ (bits - 1) - 1)%Z.
Proof.
  intros W D C H. unfold mysql_type, item in H. rewrite D in H. cbn [rbind as_str] in H. apply ci_lower in C.
  destruct (dget "CHARACTER_OCTET_LENGTH" col) as [oc|]; cbn [rbind] in H; [|discriminate].
  destruct (dget "NUMERIC_PRECISION" col) as [pr|]; cbn [rbind] in H; [|discriminate].
  destruct (dget "NUMERIC_SCALE" col) as [sc|]; cbn [rbind] in H; [|discriminate].
  rewrite C in H. clear C D. unfold mysql_range in W.
  repeat (destruct W as [W|W]; [injection W; intros; subst; injection H; intros; subst;
    eexists; split; [reflexivity|]; split; [lia|]; split; reflexivity|]). destruct W.
Qed.
Theorem mysql_signed : forall w lo hi col t s, mysql_range w lo hi ->
  dget "DATA_TYPE" col = Some (PStr s) -> ci_eq s w -> mysql_type col = Ok t -> int_holds t lo hi.
Proof.
  intros w lo hi col t s W D C H. destruct (mysql_int _ _ _ _ _ _ W D C H) as (b & -> & B & -> & ->).
  unfold int_t. pose proof (Z.pow_pos_nonneg 2 (b - 1) ltac:(lia) ltac:(lia)). rewrite int_holds_iff; lia.
Qed.
(** The largest unsigned value is never representable. *)
Theorem mysql_unsigned : forall w lo hi col t s, mysql_range w lo hi ->
  dget "DATA_TYPE" col = Some (PStr s) -> ci_eq s w -> mysql_type col = Ok t ->
  ~ int_holds t 0 (2 * hi + 1).
Proof.
  intros w lo hi col t s W D C H. destruct (mysql_int _ _ _ _ _ _ W D C H) as (b & -> & B & -> & ->).
  unfold int_t. pose proof (Z.pow_pos_nonneg 2 (b - 1) ltac:(lia) ltac:(lia)). rewrite int_holds_iff; lia.
Qed.

(** ** C65: limits *)
Lemma limits_set_c t c : within_limits (set_c t c) <-> within_limits t.
Proof. destruct t; reflexivity. Qed.
Lemma children_set t c : children (set_c t c) = children t.
Proof. destruct t; reflexivity. Qed.
Lemma tree_iff t : tree_within_limits t <-> within_limits t /\ Forall tree_within_limits (children t).
Proof.
  split.
  - intros H. split; [apply H; constructor|]. apply Forall_forall. intros x I s N. apply H.
    eapply node_child; eauto.
  - intros [H F] s N. inversion N as [|? x I Nx]; subst; auto. rewrite Forall_forall in F. eapply F; eauto.
Qed.
Lemma tree_set_c t c : tree_within_limits (set_c t c) <-> tree_within_limits t.
Proof. rewrite !tree_iff, limits_set_c, children_set. reflexivity. Qed.
Lemma leaf_limits t : children t = [] -> within_limits t -> tree_within_limits t.
Proof. intros C W. apply tree_iff. rewrite C. auto. Qed.

Lemma null_dec col : nullable_column col \/ ~ nullable_column col.
Proof.
  unfold nullable_column. destruct (dget "IS_NULLABLE" col) as [[| | | |s| |]|];
    try (right; intros (x & X & _); congruence).
  destruct (String.eqb (upper s) "YES") eqn:Y.
  - left. exists s. split; auto. now apply nullable_upper.
  - right. intros (x & X & C). injection X; intros; subst. apply nullable_upper in C. congruence.
Qed.
Lemma field_limits col base f : field_spec col base f -> tree_within_limits base -> tree_within_limits f.
Proof.
  intros FS T. destruct (null_dec col) as [N|N].
  - assert (U : forall b, tree_within_limits b -> forall c, tree_within_limits (TUnion c [TNull c0; b])).
    { intros b Tb c. apply tree_iff. split; [exact I|]. constructor; [apply leaf_limits; [reflexivity|exact I]|].
      constructor; auto. }
    destruct (fs_nullable _ _ _ FS N) as [c Q]. destruct base; try (rewrite Q; apply U, T).
    destruct Q as (ts' & -> & M). apply tree_iff. split; [exact I|]. apply Forall_forall. intros x Ix.
    apply M in Ix as [Ix|[_ ->]]; [|apply leaf_limits; [reflexivity|exact I]].
    apply tree_iff in T as [_ T]. rewrite Forall_forall in T. apply T, Ix.
  - destruct (fs_required _ _ _ FS N) as (E & _). rewrite <- E in T. now apply tree_set_c in T.
Qed.

(** A limit that comes from the column. *)
Definition octets_ok (fixed : string -> Prop) (col : column) : Prop :=
  exists v, dget "CHARACTER_OCTET_LENGTH" col = Some v /\
  ((v = PNone /\ ~ text_of "DATA_TYPE" col fixed) \/ between v 1 9223372036854775807).

Lemma between_int z lo hi : (lo <= z <= hi)%Z -> between (PInt z) lo hi.
Proof.
  intros H. exists (inject_Z z). split; [reflexivity|].
  split; unfold Qle, inject_Z; cbn; lia.
Qed.

(** Words of MySQL types whose length must be known. *)
Definition mysql_fixed (s : string) : Prop :=
  (exists w r m, In w ["char"; "binary"] /\ s = (m ++ r)%string /\ ci_eq m w)
  \/ ci_eq s "enum" \/ ci_eq s "set".
Lemma lower_split h : forall a b, lower h = (a ++ b)%string ->
  exists a' b', h = (a' ++ b')%string /\ lower a' = a /\ lower b' = b.
Proof.
  induction h as [|c h IH]; intros a b H.
  - exists "", "". destruct a; cbn in H; [|discriminate]. subst. auto.
  - destruct a as [|x a]; cbn in H.
    + exists "", (String c h). cbn. auto.
    + injection H; intros H1 H2. destruct (IH _ _ H1) as (a' & b' & -> & A & B).
      exists (String c a'), b'. cbn. rewrite A. subst. auto.
Qed.
Lemma starts_ci w s : lower w = w -> starts w (lower s) = true -> exists m r, s = (m ++ r)%string /\ ci_eq m w.
Proof.
  intros L H. apply prefix_spec in H as [r H]. apply lower_split in H as (m & r' & -> & M & _).
  exists m, r'. split; auto. apply ci_lower. congruence.
Qed.
Lemma length_variable v : v = PNone \/ between v 1 9223372036854775807 -> length_ok v (PBool true).
Proof. intros [->|H]; [left; auto|right; auto]. Qed.

Theorem mysql_limits : forall col t, octets_ok mysql_fixed col -> mysql_type col = Ok t -> tree_within_limits t.
Proof.
  intros col t (v & O & V) H. unfold mysql_type, item in H.
  destruct (dget "DATA_TYPE" col) as [[| | | |s| |]|] eqn:D; cbn [rbind as_str] in H; try discriminate.
  rewrite O in H. cbn [rbind] in H.
  destruct (dget "NUMERIC_PRECISION" col) as [pr|]; cbn [rbind] in H; [|discriminate].
  destruct (dget "NUMERIC_SCALE" col) as [sc|]; cbn [rbind] in H; [|discriminate].
  assert (NF : mysql_fixed s -> length_ok v (PBool false)).
  { intros F. destruct V as [[-> N]|V]; [|right; auto]. elim N. exists s. auto. }
  assert (VV : length_ok v (PBool true)) by (apply length_variable; tauto).
  assert (ST : forall w, In w ["char"; "binary"] -> starts w (lower s) = true -> mysql_fixed s).
  { intros w W E. left. destruct (starts_ci w s) as (m & r & E1 & E2); auto.
    - cbn in W. intuition (subst; reflexivity).
    - exists w, r, m. auto. }
  split_ifs H; try discriminate H;
  try (injection H; intros; subst t; apply leaf_limits; [reflexivity|];
       first [exact VV | apply between_int; lia | right; apply between_int; lia | exact I]).
  - destruct (py_gt_z pr 23) as [[]|]; cbn [rbind] in H; try discriminate H; injection H; intros; subst t;
      (apply leaf_limits; [reflexivity|apply between_int; lia]).
  - injection H; intros; subst t. apply leaf_limits; [reflexivity|]. apply NF.
    match goal with E : (_ || _)%bool = true |- _ => rename E into EX end.
    apply orb_true_iff in EX as [E|E].
    + apply (ST "char"); cbn; auto.
    + right. unfold str_in in E. cbn [existsb] in E. rewrite orb_false_r in E.
      apply orb_true_iff in E as [E|E]; apply String.eqb_eq in E; [left|right]; apply ci_lower; exact E.
  - injection H; intros; subst t. apply leaf_limits; [reflexivity|]. apply NF.
    apply (ST "binary"); cbn; auto.
  - destruct (dget "DATETIME_PRECISION" col) as [p|]; cbn [rbind] in H; [|discriminate].
    destruct (get_time_unit (Some [p])) as [u|]; cbn [rbind] in H; [|discriminate].
    injection H; intros; subst t. apply leaf_limits; [reflexivity|apply between_int; lia].
Qed.

Definition octets_plain (col : column) : Prop :=
  dget "CHARACTER_OCTET_LENGTH" col = Some PNone \/
  exists z, dget "CHARACTER_OCTET_LENGTH" col = Some (PInt z) /\ (0 <= z <= 9223372036854775807)%Z.
Lemma or_else_ok v d : v = PNone \/ (exists z, v = PInt z /\ (0 <= z <= 9223372036854775807)%Z) ->
  (1 <= d <= 9223372036854775807)%Z -> length_ok (or_else v (PInt d)) (PBool true).
Proof.
  intros [->|(z & -> & B)] D; right; unfold or_else, truthy.
  - apply between_int; lia.
  - destruct (Z.eqb_spec z 0); cbn [negb]; apply between_int; lia.
Qed.
Theorem snowflake_limits : forall col t, octets_plain col -> snowflake_type col = Ok t -> tree_within_limits t.
Proof.
  intros col t O H. unfold snowflake_type, item in H.
  destruct (dget "DATA_TYPE" col) as [[| | | |s| |]|] eqn:D; cbn [rbind as_str] in H; try discriminate.
  assert (V : exists v, dget "CHARACTER_OCTET_LENGTH" col = Some v /\ forall d,
     (1 <= d <= 9223372036854775807)%Z -> length_ok (or_else v (PInt d)) (PBool true)).
  { destruct O as [O|(z & O & B)]; eexists; (split; [exact O|]); intros d DB; apply or_else_ok; eauto. }
  destruct V as (v & O' & V). rewrite O' in H. cbn [rbind] in H.
  destruct (get_time_unit _) as [u|]; cbn [rbind] in H;
  split_ifs H; try discriminate H;
  try (injection H; intros; subst t; apply leaf_limits; [reflexivity|];
       first [apply V; lia | apply between_int; lia | right; apply between_int; lia | exact I]);
  (destruct (dget "NUMERIC_PRECISION" col) as [pr|]; cbn [rbind] in H; [|discriminate];
   destruct (dget "NUMERIC_SCALE" col) as [sc|]; cbn [rbind] in H; [|discriminate];
   injection H; intros; subst t; apply leaf_limits; [reflexivity|right; apply between_int; lia]).
Qed.
Theorem sqlite_limits : forall col t, octets_plain col -> sqlite_type col = Ok t -> tree_within_limits t.
Proof.
  intros col t O H. unfold sqlite_type, item in H.
  destruct (dget "COLUMN_NAME" col) as [nm|]; cbn [rbind] in H; [|discriminate].
  destruct (dget "TYPE" col) as [ty|]; cbn [rbind] in H; [|discriminate].
  assert (V : exists v, dget "CHARACTER_OCTET_LENGTH" col = Some v /\ forall d,
     (1 <= d <= 9223372036854775807)%Z -> length_ok (or_else v (PInt d)) (PBool true)).
  { destruct O as [O|(z & O & B)]; eexists; (split; [exact O|]); intros d DB; apply or_else_ok; eauto. }
  destruct V as (v & O' & V). rewrite O' in H. cbn [rbind] in H.
  destruct (dget "NUMERIC_PRECISION" col) as [pr|]; cbn [rbind] in H; [|discriminate].
  destruct (type_text ty) as [tt|]; cbn [rbind] in H; [|discriminate].
  destruct (get_affinity tt).
  - injection H; intros; subst t. apply leaf_limits; [reflexivity|apply between_int; lia].
  - destruct (truthy pr).
    + destruct (py_gt_z pr 23) as [[]|]; cbn [rbind] in H; try discriminate H; injection H; intros; subst t;
      (apply leaf_limits; [reflexivity|apply between_int; lia]).
    + injection H; intros; subst t. apply leaf_limits; [reflexivity|apply between_int; lia].
  - injection H; intros; subst t. apply leaf_limits; [reflexivity|apply V; unfold sqlite_max_length; lia].
  - injection H; intros; subst t. apply leaf_limits; [reflexivity|apply V; unfold sqlite_max_length; lia].
  - injection H; intros; subst t. apply tree_iff. split; [exact I|].
    repeat (constructor; [apply leaf_limits; [reflexivity|
      first [exact I | apply between_int; lia | right; apply between_int; unfold sqlite_max_length; lia]]|]).
    constructor.
Qed.

(** PostgreSQL: char needs a length, bit needs a positive number of bits. *)
Definition pg_fixed (s : string) : Prop := exists m r, s = (m ++ r)%string /\ ci_eq m "char".
Definition pg_bits (s : string) : Prop := exists m r, s = (m ++ r)%string /\ ci_eq m "bit".
Definition bits_ok (col : column) : Prop :=
  text_of "DATA_TYPE" col pg_bits ->
  exists z, dget "CHARACTER_MAXIMUM_LENGTH" col = Some (PInt z) /\ (1 <= z <= 9223372036854775807)%Z.

Lemma pg_scalar_limits s oc ml col t :
  (oc = PNone /\ ~ pg_fixed s) \/ between oc 1 9223372036854775807 ->
  (pg_bits s -> exists z, ml = PInt z /\ (1 <= z <= 9223372036854775807)%Z) ->
  pg_scalar (lower s) oc ml col = Ok t -> tree_within_limits t.
Proof.
  intros V B H.
  assert (VV : length_ok oc (PBool true)) by (apply length_variable; tauto).
  assert (NF : starts "char" (lower s) = true -> length_ok oc (PBool false)).
  { intros E. destruct V as [[-> N]|V]; [|right; auto]. elim N. apply starts_ci; auto. }
  unfold pg_scalar in H. split_ifs H; try discriminate H;
  try (injection H; intros; subst t; apply leaf_limits; [reflexivity|];
       first [exact VV | exact (NF eq_refl) | apply between_int; lia | right; apply between_int; unfold max_field_size; lia | exact I]).
  - assert (E : exists z, ml = PInt z /\ (1 <= z <= 9223372036854775807)%Z).
    { apply B, starts_ci; auto. }
    destruct E as (z & -> & Bz). cbn [ceil_div8 rbind] in H. injection H; intros; subst t.
    apply leaf_limits; [reflexivity|]. right. apply between_int.
    pose proof (Z.div_mod (- z) 8 ltac:(lia)). pose proof (Z.mod_pos_bound (- z) 8 ltac:(lia)). lia.
  - destruct (item "DATETIME_PRECISION" col) as [p|]; cbn [rbind] in H; [|discriminate].
    destruct (get_time_unit (Some [p])) as [u|]; cbn [rbind] in H; [|discriminate].
    injection H; intros; subst t. apply leaf_limits; [reflexivity|apply between_int; lia].
  - destruct (item "NUMERIC_PRECISION" col) as [pr|]; cbn [rbind] in H; [|discriminate].
    destruct (item "NUMERIC_SCALE" col) as [sc|]; cbn [rbind] in H; [|discriminate].
    injection H; intros; subst t. apply leaf_limits; [reflexivity|right; apply between_int; lia].
  - destruct (item "ENUM_VALUES" col) as [e|]; cbn [rbind] in H; [|discriminate].
    destruct (truthy e); [|discriminate]. injection H; intros; subst t. apply leaf_limits; [reflexivity|exact I].
Qed.
Lemma elem_limits s t : elem s = Ok t -> tree_within_limits t.
Proof.
  unfold elem. destruct (String.eqb (lower s) "array"); [discriminate|]. apply pg_scalar_limits.
  - right. apply between_int. unfold max_field_size. lia.
  - intros _. eexists. split; [reflexivity|]. unfold max_field_size. lia.
Qed.
Lemma list_limits c v : tree_within_limits v -> tree_within_limits (TList c v PNone (PBool true)).
Proof. intros H. apply tree_iff. split; [left; auto|]. constructor; auto. Qed.
Lemma n_lists_limits v n : tree_within_limits v -> tree_within_limits (n_lists v n).
Proof.
  intros H. induction n; cbn.
  - apply tree_iff. split; [exact I|]. constructor; [apply leaf_limits; [reflexivity|exact I]|]. constructor; auto.
  - now apply list_limits.
Qed.
Theorem pg_limits : forall enforce ns col R R' t, octets_ok pg_fixed col -> bits_ok col ->
  pg_type enforce ns col R = (R', Ok t) -> tree_within_limits t.
Proof.
  intros enforce ns col R R' t (v & O & V) B H. rewrite pg_type_cases in H. unfold pg_header, item in H.
  destruct (dget "COLUMN_NAME" col) as [nm|]; cbn [rbind] in H; [|discriminate].
  destruct (dget "DATA_TYPE" col) as [[| | | |s| |]|] eqn:D; cbn [rbind as_str] in H; try discriminate.
  rewrite O in H. cbn [rbind] in H.
  destruct (dget "CHARACTER_MAXIMUM_LENGTH" col) as [ml|] eqn:ML; cbn [rbind] in H; [|discriminate].
  destruct (dget "UDT_NAME" col) as [ud|]; cbn [rbind] in H; [|discriminate].
  destruct (lower_or_empty ud) as [udt|]; cbn [rbind] in H; [|discriminate].
  destruct (dget "ATTNDIMS" col) as [nd|]; cbn [rbind] in H; [|discriminate].
  destruct (String.eqb (lower s) "array").
  - destruct (elem (lstrip_under udt)) as [e|] eqn:E; [|discriminate]. apply elem_limits in E.
    destruct enforce.
    + injection H; intros X Y. unfold n_dimension_list in X. destruct nd; try discriminate.
      * injection X; intros; subst. now apply n_lists_limits.
      * destruct (z <? 0)%Z; [discriminate|]. injection X; intros; subst. now apply n_lists_limits.
    + destruct nm as [| | | |nm| |]; try discriminate. cbv zeta in H.
      destruct (dmem _ R); [discriminate|]. destruct (re_match _ _); [|discriminate].
      injection H; intros; subst. apply list_limits. apply tree_iff. split; [exact I|].
      constructor; auto. constructor; auto. apply leaf_limits; [reflexivity|exact I].
  - injection H; intros X Y. eapply pg_scalar_limits; [| |exact X].
    + destruct V as [[-> N]|V]; [left|right; auto]. split; auto. intros F. apply N. exists s. auto.
    + intros P. rewrite <- (f_equal (fun o => match o with Some x => x | None => PNone end) ML).
      destruct (B ltac:(exists s; auto)) as (z & E & Bz). exists z. rewrite E. auto.
Qed.

(** The conditions are decidable. *)
Lemma lower_app a b : lower (a ++ b) = (lower a ++ lower b)%string.
Proof. induction a as [|c a IH]; cbn; auto. now rewrite IH. Qed.
Lemma starts_iff w s : lower w = w ->
  (starts w (lower s) = true <-> exists m r, s = (m ++ r)%string /\ ci_eq m w).
Proof.
  intros L. split; [apply starts_ci; auto|]. intros (m & r & -> & C). apply ci_lower in C.
  apply prefix_spec. exists (lower r). now rewrite lower_app, C, L.
Qed.
Lemma mysql_fixed_iff s : mysql_fixed s <->
  (starts "char" (lower s) || starts "binary" (lower s) || String.eqb (lower s) "enum"
   || String.eqb (lower s) "set")%bool = true.
Proof.
  unfold mysql_fixed. rewrite !orb_true_iff, !String.eqb_eq, !starts_iff, !ci_lower by reflexivity.
  split.
  - intros [(w & r & m & W & E & C)|[H|H]]; auto. cbn in W. in_cases W; left; left; [left|right]; eauto.
  - intros [[[(m & r & E & C)|(m & r & E & C)]|H]|H]; auto; left.
    + exists "char", r, m. cbn. auto.
    + exists "binary", r, m. cbn. auto.
Qed.

(** What a column has to fulfil for each database. *)
Inductive sized : (column -> M rtype) -> column -> Prop :=
| sized_mysql col : octets_ok mysql_fixed col -> sized (pure mysql_type) col
| sized_snowflake col : octets_plain col -> sized (pure snowflake_type) col
| sized_sqlite col : octets_plain col -> sized (pure sqlite_type) col
| sized_postgresql enforce ns col : octets_ok pg_fixed col -> bits_ok col -> sized (pg_type enforce ns) col.
Lemma sized_limits p col R R' t : sized p col -> p col R = (R', Ok t) -> tree_within_limits t.
Proof.
  intros [c O|c O|c O|e ns c O B] H.
  - injection H; intros X _. eapply mysql_limits; eauto.
  - injection H; intros X _. eapply snowflake_limits; eauto.
  - injection H; intros X _. eapply sqlite_limits; eauto.
  - eapply pg_limits; eauto.
Qed.
Lemma Forall_nth_error {A} (P : A -> Prop) l : (forall i x, nth_error l i = Some x -> P x) -> Forall P l.
Proof.
  intros H. apply Forall_forall. intros x I. apply In_nth_error in I as [i E]. eauto.
Qed.
Theorem schema_limits : forall p cols R R' t, db_parser p -> Forall (sized p) cols ->
  to_recap p cols R = (R', Ok t) -> tree_within_limits t.
Proof.
  intros p cols R R' t DB F H.
  destruct (columns_to_fields _ _ _ _ _ DB H) as (bs & fs & -> & M & L & LF & Q).
  apply tree_iff. split; [exact I|]. cbn [children]. apply Forall_nth_error. intros i f Hf.
  assert (Hc : exists col, nth_error cols i = Some col).
  { destruct (nth_error cols i) eqn:E; eauto. apply nth_error_None in E.
    assert (i < List.length fs) by (apply nth_error_Some; congruence). lia. }
  destruct Hc as [col Hc].
  destruct (Forall2_combine _ _ _ _ _ _ Q L _ Hc Hf) as (b & Hb & FS).
  destruct (mmap_nth _ _ _ _ _ _ _ _ M Hc Hb) as (R1 & R2 & PB).
  eapply field_limits; [exact FS|]. eapply sized_limits; [|exact PB].
  rewrite Forall_forall in F. apply F. eapply nth_error_In; eauto.
Qed.

(** ** C60: which arrays can be read *)
Definition readable_elements : list string :=
  ["int8"; "int4"; "float8"; "float4"; "text"; "json"; "jsonb"; "varchar"; "uuid"; "bytea"; "bit"].

Fixpoint no_dot (s : string) : bool :=
  match s with EmptyString => true | String c r => negb (Ascii.eqb c ".") && no_dot r end.
Lemma dots_under_no_dot s : no_dot (dots_under s) = true.
Proof.
  induction s as [|c s IH]; auto. change (dots_under (String c s)) with
    (String (if Ascii.eqb c "." then "_"%char else c) (dots_under s)).
  change (no_dot (String (if Ascii.eqb c "." then "_"%char else c) (dots_under s))) with
    (negb (Ascii.eqb (if Ascii.eqb c "." then "_"%char else c) ".") && no_dot (dots_under s)).
  rewrite IH, andb_true_r. destruct (Ascii.eqb c ".") eqn:E; [reflexivity|]. now rewrite E.
Qed.
Lemma alnum_not_dot c : alnum_ c -> Ascii.eqb c "." = false.
Proof.
  intros H. apply Ascii.eqb_neq. intros ->. unfold alnum_, alpha_ in H. cbn in H. lia.
Qed.
Lemma all_alnum_no_dot s : SpecTypes.all_chars alnum_ s -> no_dot s = true.
Proof.
  induction s as [|c s IH]; auto. intros [H K].
  change (negb (Ascii.eqb c ".") && no_dot s = true). now rewrite (alnum_not_dot c H), IH.
Qed.
Lemma identifier_no_dot s : identifier s -> no_dot s = true.
Proof.
  destruct s as [|c s]; [intros []|]. intros [H K]. apply (all_alnum_no_dot (String c s)).
  split; auto. left. exact H.
Qed.
Lemma split_dot a : forall b r q, no_dot a = true -> no_dot b = true ->
  (a ++ String "." r = b ++ String "." q)%string -> a = b /\ r = q.
Proof.
  induction a as [|c a IH]; intros b r q A B H; destruct b as [|d b].
  - cbn in H. injection H; auto.
  - cbn in H. injection H; intros _ X. subst d. discriminate B.
  - cbn in H. injection H; intros _ X. subst c. discriminate A.
  - injection H; intros H1 X. subst d.
    apply andb_true_iff in A as [_ A]. apply andb_true_iff in B as [_ B].
    destruct (IH _ _ _ A B H1) as [-> ->]. auto.
Qed.
Lemma no_dot_app a b : no_dot (a ++ b)%string = (no_dot a && no_dot b)%bool.
Proof. induction a as [|c a IH]; auto. cbn [append no_dot]. now rewrite IH, andb_assoc. Qed.
Lemma dotted_two a x : identifier a -> no_dot x = true ->
  (dotted_name (a ++ "." ++ x)%string <-> identifier x).
Proof.
  intros IA NX. split.
  - intros (segs & L & F & E). destruct segs as [|s1 [|s2 r]]; cbn in L; try lia.
    inversion F as [|? ? F1 F2]; subst. inversion F2 as [|? ? F3 F4]; subst.
    destruct r as [|s3 r].
    + change (String.concat "." [s1; s2]) with (s1 ++ String "." s2)%string in E.
      change (a ++ "." ++ x)%string with (a ++ String "." x)%string in E.
      apply split_dot in E as [_ ->]; auto using identifier_no_dot.
    + exfalso.
      change (String.concat "." (s1 :: s2 :: s3 :: r)) with
        (s1 ++ String "." (s2 ++ String "." (String.concat "." (s3 :: r))))%string in E.
      change (a ++ "." ++ x)%string with (a ++ String "." x)%string in E.
      apply split_dot in E as [_ ->]; auto using identifier_no_dot.
      rewrite no_dot_app in NX. apply andb_true_iff in NX as [_ NX]. discriminate NX.
  - intros IX. exists [a; x]. split; [cbn; lia|]. split; auto.
Qed.

Lemma root_identifier : identifier "_root".
Proof. cbn. unfold alnum_, alpha_. cbn. repeat split; lia. Qed.

Definition array_header (col : column) : Prop :=
  array_column col /\ (forall k, In k ["CHARACTER_OCTET_LENGTH"; "CHARACTER_MAXIMUM_LENGTH"; "ATTNDIMS"] ->
     dget k col <> None).
Theorem arrays_readable : forall col R nm udt,
  array_header col -> dget "COLUMN_NAME" col = Some (PStr nm) ->
  dget "UDT_NAME" col = Some (PStr udt) ->
  (exists w, In w readable_elements /\ ci_eq udt ("_" ++ w)) ->
  dmem (array_alias "_root" nm) R = false ->
  ((exists R' t, pg_type false "_root" col R = (R', Ok t)) <-> identifier (dots_under nm)).
Proof.
  intros col R nm udt [A K] N U (w & W & C) D.
  rewrite <- (dotted_two "_root" (dots_under nm) root_identifier (dots_under_no_dot nm)).
  change ("_root" ++ "." ++ dots_under nm)%string with (array_alias "_root" nm).
  rewrite <- alias_regex_spec.
  assert (H : exists v, forall S, pg_type false "_root" col S =
     let a := array_alias "_root" nm in
     if dmem a S then (S, Err ValueError)
     else if re_match alias_regex a
          then (S ++ [(a, stored S (self_list a v))], Ok (self_list a v))
          else (S, Err ValueError)).
  { assert (E : exists v, elem (lstrip_under (lower udt)) = Ok v).
    { apply ci_lower in C. rewrite C. clear -W. in_cases W; eexists; reflexivity. }
    destruct E as [v E]. exists v. intros S. rewrite pg_type_cases.
    destruct A as (s & DT & CA). unfold pg_header, item. rewrite N, DT, U. cbn [rbind as_str].
    pose proof (K "CHARACTER_OCTET_LENGTH" ltac:(cbn; auto)) as K1.
    pose proof (K "CHARACTER_MAXIMUM_LENGTH" ltac:(cbn; auto)) as K2.
    pose proof (K "ATTNDIMS" ltac:(cbn; auto)) as K3.
    destruct (dget "CHARACTER_OCTET_LENGTH" col); [|congruence]. cbn [rbind].
    destruct (dget "CHARACTER_MAXIMUM_LENGTH" col); [|congruence]. cbn [rbind].
    assert (LE : lower_or_empty (PStr udt) = Ok (lower udt)).
    { unfold lower_or_empty. destruct udt; reflexivity. }
    rewrite LE. cbn [rbind]. destruct (dget "ATTNDIMS" col); [|congruence]. cbn [rbind].
    apply ci_lower in CA. rewrite CA. change (lower "ARRAY") with "array".
    cbn [String.eqb Ascii.eqb eqb]. change (String.eqb "array" "array") with true. cbv iota.
    rewrite E. reflexivity. }
  destruct H as [v H]. rewrite H. cbv zeta. rewrite D.
  destruct (re_match alias_regex (array_alias "_root" nm)).
  - split; eauto.
  - split; [intros (R' & t & X)|]; discriminate.
Qed.
(** Element types that are readable as columns but not as elements. *)
Definition unreadable (w : string) (e : exn) : Prop :=
  In (w, e) [("timestamp", KeyError); ("timestamptz", KeyError); ("numeric", KeyError);
             ("bool", ValueError); ("int2", ValueError); ("bpchar", ValueError)].
Theorem arrays_unreadable : forall enforce ns col R udt w e nm,
  array_header col -> dget "COLUMN_NAME" col = Some nm ->
  dget "UDT_NAME" col = Some (PStr udt) -> unreadable w e -> ci_eq udt ("_" ++ w) ->
  pg_type enforce ns col R = (R, Err e).
Proof.
  intros enforce ns col R udt w e nm [(s & DT & CA) K] N U W C. rewrite pg_type_cases.
  assert (E : elem (lstrip_under (lower udt)) = Err e).
  { apply ci_lower in C. rewrite C. unfold unreadable in W. clear -W.
    repeat (destruct W as [W|W]; [injection W; intros; subst; reflexivity|]). destruct W. }
  unfold pg_header, item. rewrite N, DT, U. cbn [rbind as_str].
  pose proof (K "CHARACTER_OCTET_LENGTH" ltac:(cbn; auto)) as K1.
  pose proof (K "CHARACTER_MAXIMUM_LENGTH" ltac:(cbn; auto)) as K2.
  pose proof (K "ATTNDIMS" ltac:(cbn; auto)) as K3.
  destruct (dget "CHARACTER_OCTET_LENGTH" col); [|congruence]. cbn [rbind].
  destruct (dget "CHARACTER_MAXIMUM_LENGTH" col); [|congruence]. cbn [rbind].
  assert (LE : lower_or_empty (PStr udt) = Ok (lower udt)) by (unfold lower_or_empty; destruct udt; reflexivity).
  rewrite LE. cbn [rbind]. destruct (dget "ATTNDIMS" col); [|congruence]. cbn [rbind].
  apply ci_lower in CA. rewrite CA. change (lower "ARRAY") with "array".
  change (String.eqb "array" "array") with true. cbv iota. rewrite E. reflexivity.
Qed.

(** ** C61: unfolding the self-reference *)
Theorem array_unfolding : forall ns col R R' t,
  array_column col -> pg_type false ns col R = (R', Ok t) ->
  exists p, node_of p t /\ forall E, exists u q,
    resolve (R' ++ E) p = Ok u /\ node_of q u /\ is_proxy q = true /\
    forall live, resolve live q = Err TypeError.
Proof.
  intros ns col R R' t A H. rewrite pg_type_cases in H.
  destruct (pg_header col) as [[[[[[nm dt] oc] ml] udt] nd]|] eqn:HD; [|discriminate].
  destruct (header_array _ _ _ _ _ _ _ HD) as (EA & _). apply is_array_spec in A. rewrite EA, A in H.
  destruct (elem (lstrip_under udt)) as [v|] eqn:EL; [|discriminate].
  destruct nm as [| | | |nm| |]; try discriminate. cbv zeta in H.
  destruct (dmem _ R) eqn:DM; [discriminate|]. destruct (re_match _ _); [|discriminate].
  injection H; intros; subst. set (a := array_alias ns nm) in *.
  exists (TProxy (mkC PNone (PStr a) PNone []) None). split.
  { eapply node_child; [left; reflexivity|]. eapply node_child; [right; left; reflexivity|]. constructor. }
  intros E. cbn [resolve c_alias c_extra proxy_reg]. unfold from_alias.
  assert (G : dget a ((R ++ [(a, stored R (self_list a v))]) ++ E) = Some (stored R (self_list a v))).
  { rewrite !dget_app. unfold dmem in DM. destruct (dget a R); [discriminate|].
    cbn. now rewrite String.eqb_refl. }
  rewrite G. cbn [rbind set_attrs]. eexists. exists (TProxy (mkC PNone (PStr a) PNone []) (Some R)).
  split; [reflexivity|]. split; [|split; [reflexivity|]].
  - cbn [stored self_list freeze set_c get_c map].
    eapply node_child; [left; reflexivity|]. eapply node_child; [right; left; reflexivity|]. constructor.
  - intros live. cbn [resolve c_alias proxy_reg]. unfold from_alias.
    unfold dmem in DM. destruct (dget a R); [discriminate|]. reflexivity.
Qed.

(** ** C66: SQLite nullability *)
Lemma dget_dupd k (a b : column) : dget k (dupd a b) = match dget k (rev b) with Some v => Some v | None => dget k a end.
Proof.
  unfold dupd. revert a. induction b as [|[k' v] b IH]; intros a; cbn; auto.
  rewrite IH. cbn. rewrite dget_app. cbn. rewrite dget_dset. destruct (dget k (rev b)); auto.
  destruct (String.eqb k k'); auto.
Qed.

Lemma added row col : add_information_schema row = Ok col ->
  exists n, dget "NOTNULL" row = Some n /\
  (truthy n = true \/ exists k, dget "PK" row = Some k) /\
  (forall k, dget "PK" row = Some k -> dget "IS_NULLABLE" col =
     Some (PStr (if (truthy n || truthy k)%bool then "NO" else "YES"))) /\
  dget "COLUMN_NAME" col = dget "NAME" row /\ dget "TYPE" col = dget "TYPE" row
  /\ dget "COLUMN_DEFAULT" col = dget "DFLT_VALUE" row.
Proof.
  unfold add_information_schema, item. intros H.
  destruct (dget "NOTNULL" row) as [n|]; cbn [rbind] in H; [|discriminate]. exists n. split; auto.
  assert (Q : exists pk, (if truthy n then Ok PNone else
      match dget "PK" row with Some v => Ok v | None => Err KeyError end) = Ok pk /\
      forall k, dget "PK" row = Some k -> (truthy n || truthy k)%bool = (truthy n || truthy pk)%bool).
  { destruct (truthy n); [exists PNone; split; auto|].
    destruct (dget "PK" row) as [k|]; cbn [rbind] in H; [|discriminate]. exists k. split; auto.
    intros k' E. injection E; intros; subst. auto. }
  assert (QP : truthy n = true \/ exists k, dget "PK" row = Some k).
  { destruct (truthy n); auto. right. destruct (dget "PK" row); cbn [rbind] in H; [eauto|discriminate]. }
  split; [exact QP|].
  destruct Q as (pk & E & PK). rewrite E in H. cbn [rbind] in H.
  destruct (dget "NAME" row) as [nm|]; cbn [rbind] in H; [|discriminate].
  destruct (dget "DFLT_VALUE" row) as [df|]; cbn [rbind] in H; [|discriminate].
  destruct (dget "TYPE" row) as [[| | | |ty| |]|] eqn:T; cbn [rbind] in H; try discriminate.
  assert (HF : forall a b : column, Ok a = Ok b -> b = a) by congruence. apply HF in H. subst col.
  rewrite !dget_dupd, !rev_app_distr, !dget_app.
  set (X := rev (match numeric_search ty with Some _ => _ | None => _ end)).
  assert (XK : forall k, In k ["IS_NULLABLE"; "COLUMN_NAME"; "TYPE"; "COLUMN_DEFAULT"] -> dget k X = None).
  { unfold X. intros k K. destruct (numeric_search ty) as [[[w p] q]|].
    - destruct (get_affinity (Some (upper w))); cbn in K; in_cases K; reflexivity.
    - cbn in K; in_cases K; reflexivity. }
  rewrite !XK by (cbn; auto). repeat split; auto. intros k K. rewrite (PK k K). reflexivity.
Qed.
Lemma rmap_nth {A B} (g : A -> res B) l : forall ys i x, rmap g l = Ok ys -> nth_error l i = Some x ->
  exists y, nth_error ys i = Some y /\ g x = Ok y.
Proof.
  induction l as [|a l IH]; intros ys i x H Hx; [destruct i; discriminate|]. cbn [rmap] in H.
  destruct (g a) as [y|] eqn:E; cbn [rbind] in H; [|discriminate].
  destruct (rmap g l) as [ys'|] eqn:F; cbn [rbind] in H; [|discriminate].
  injection H; intros; subst. destruct i; cbn in *; [injection Hx; intros; subst; eauto|]. eapply IH; eauto.
Qed.
Lemma rmap_len {A B} (g : A -> res B) l : forall ys, rmap g l = Ok ys -> List.length ys = List.length l.
Proof.
  induction l as [|a l IH]; intros ys H; cbn [rmap] in H.
  - injection H; intros; subst; auto.
  - destruct (g a); cbn [rbind] in H; [|discriminate]. destruct (rmap g l) as [ys'|]; cbn [rbind] in H; [|discriminate].
    injection H; intros; subst. cbn. now rewrite (IH ys').
Qed.

Theorem sqlite_nullability : forall rows R R' fields i row f n k,
  sqlite_schema rows R = (R', Ok (TStruct c0 fields)) ->
  nth_error rows i = Some row -> nth_error fields i = Some f ->
  dget "NOTNULL" row = Some (PInt n) -> dget "PK" row = Some (PInt k) ->
  extra "name" f = dget "NAME" row /\
  (n = 0%Z -> k = 0%Z -> accepts_null f) /\
  (n <> 0%Z \/ k <> 0%Z -> ~ numeric_column row -> ~ accepts_null f).
Proof.
  intros rows R R' fields i row f n k H Hr Hf N K. unfold sqlite_schema, mbind, lift in H.
  destruct (rmap add_information_schema rows) as [cols|] eqn:M; [|discriminate].
  destruct (rmap_nth _ _ _ _ _ M Hr) as (col & Hc & A).
  destruct (added _ _ A) as (n' & N' & _ & NU & NM & TY & _). rewrite N in N'. injection N'; intros; subst n'.
  specialize (NU _ K).
  destruct (columns_to_fields _ _ _ _ _ db_sqlite H) as (bs & fs & E & MM & L & LF & Q).
  injection E; intros; subst fs.
  destruct (Forall2_combine _ _ _ _ _ _ Q L _ Hc Hf) as (b & Hb & FS). cbn in FS.
  split; [|split].
  - destruct (fs_name _ _ _ FS) as (v & E1 & E2). rewrite E2, <- NM, E1. reflexivity.
  - intros -> ->. apply (fs_null _ _ _ FS). exists "YES". split; [exact NU|]. apply ci_lower. reflexivity.
  - intros NZ NN. eapply sqlite_not_null_columns; eauto.
    + unfold numeric_column in *. rewrite TY. exact NN.
    + intros (s & E1 & C). rewrite NU in E1. injection E1; intros; subst.
      apply ci_lower in C. revert C. unfold truthy.
      destruct (Z.eqb_spec n 0), (Z.eqb_spec k 0); cbn; try lia; discriminate.
Qed.
