(** C110: the values of Snowflake columns. *)
From Coq Require Import String Ascii List NArith ZArith QArith Bool Lia.
From Verif Require Import PyVal RType Registry SpecTypes FromDict Nullable Url Dbapi SpecDb SpecInstances SpecRows
  DbapiFacts DbapiMore DbReads DbRanges RowFacts RowTypes RowMysql.
Import ListNotations.
Open Scope nat_scope.
Open Scope string_scope.
Open Scope list_scope.

Definition sf_read (t : sf_type) : res rtype :=
  match t with
  | SfNumber p s => Ok (decimal_t 16 (PInt p) (PInt s))
  | SfFloat => Ok (float_t 64)
  | SfBool => Ok (TBool c0)
  | SfText n => Ok (TString c0 (PInt (Z.min (4 * Z.of_nat n) sf_text_max)) (PBool true))
  | SfBinary n => Ok (TBytes c0 (PInt (Z.of_nat n)) (PBool true))
  | SfDate => Ok (time_t "build.recap.Date" 32 "day")
  | SfTimestamp _ _ => Ok (time_t "build.recap.Timestamp" 64 "nanosecond")
  | SfTime _ => Ok (time_t "build.recap.Time" 32 "nanosecond")
  | SfOther _ => Err ValueError
  end.
Lemma or_else_int z d : (z <> 0)%Z -> or_else (PInt z) d = PInt z.
Proof. intros N. unfold or_else. cbn [truthy]. destruct (Z.eqb_spec z 0); [congruence|reflexivity]. Qed.
Lemma or_else_zero z : or_else (PInt z) (PInt 0) = PInt z.
Proof. unfold or_else. cbn [truthy]. destruct (Z.eqb_spec z 0); [subst|]; reflexivity. Qed.

Lemma sf_type_read d col : sf_legal (d_type d) -> described sf_type sf_facts d col ->
  snowflake_type col = sf_read (d_type d).
Proof.
  intros L D.
  assert (F : forall k v, In (k, v) (sf_facts (d_type d)) -> item k col = Ok v) by (intros; eapply fact_item; eauto).
  unfold snowflake_type. destruct (d_type d) as [p s| | |n|n| |k p|p|n]; cbn [sf_facts In] in F; cbn [sf_legal sf_read] in *.
  all: rewrite (F "DATA_TYPE" _ ltac:(auto)), (F "CHARACTER_OCTET_LENGTH" _ ltac:(auto)),
    (F "NUMERIC_PRECISION" _ ltac:(auto)), (F "NUMERIC_SCALE" _ ltac:(auto 10)); cbn [rbind as_str].
  - change (lower "NUMBER") with "number". cbn -[or_else]. rewrite or_else_int by lia. rewrite or_else_zero. reflexivity.
  - reflexivity.
  - reflexivity.
  - change (lower "TEXT") with "text". cbn -[or_else Z.min Z.mul Z.of_nat]. rewrite or_else_int; [reflexivity|].
    unfold sf_text_max. lia.
  - change (lower "BINARY") with "binary". cbn -[or_else Z.of_nat]. rewrite or_else_int by lia. reflexivity.
  - reflexivity.
  - destruct L as [[<-|[<-|[<-|[]]]] _]; reflexivity.
  - reflexivity.
  - destruct L as [<-|[<-|[<-|[<-|[<-|[<-|[]]]]]]]; reflexivity.
Qed.

Lemma sf_column d col R R' Rf t v : sf_legal (d_type d) -> described sf_type sf_facts d col ->
  pure snowflake_type col R = (R', Ok t) -> grow R' Rf -> sf_values (d_type d) v ->
  (holds (names_in Rf) t v <-> sf_covered (d_type d) v).
Proof.
  intros L D H _ V. unfold pure, lift in H. injection H as _ H. rewrite (sf_type_read d col L D) in H.
  set (env := names_in Rf). clearbody env. destruct d as [nm nl ty]. cbn [d_type] in *. clear D.
  destruct ty as [p s| | |n|n| |k p|p|n]; cbn [sf_read sf_values sf_legal sf_covered] in *; try discriminate H; injection H as <-.
  - destruct V as (u & -> & V). rewrite holds_decimal by lia. split; auto. intros _. split; auto.
    apply decimal_fit with (p := p); auto; [lia|]. apply fits16. lia.
  - destruct V as (q & -> & V). rewrite holds_float, format64. tauto.
  - destruct V as (b & ->). split; auto. intros _. constructor.
  - destruct V as (s & -> & [V1 V2] & V3). rewrite holds_string. cbn [fits truthy]. split; auto. intros _. unfold text_within, sf_text_max in *. apply Z.min_glb; [|lia]. change (Z.of_nat (String.length s) <= 4 * Z.of_nat n)%Z. lia.
  - destruct V as (s & -> & V). rewrite holds_bytes. cbn [fits truthy]. split; auto. intros _. lia.
  - destruct V as (n & -> & V). rewrite holds_day. split; auto. intros _. unfold int_range, day_1, last_day in *.
    change (2 ^ (32 - 1))%Z with 2147483648%Z. lia.
  - destruct V as (n & -> & V). rewrite (holds_instant env 64 _ 9) by (try constructor; lia). tauto.
  - destruct V as (n & -> & V). rewrite (holds_clock env 32 _ 9) by (try constructor; lia). tauto.
Qed.

Lemma snowflake_fresh_parser : fresh_parser (pure snowflake_type).
Proof. intros col R R' t H. unfold pure, lift in H. injection H as _ H. eapply snowflake_fresh; eauto. Qed.

Theorem snowflake_rows : forall ds cols R R' t row,
  Forall (fun d => sf_legal (d_type d)) ds -> Forall2 (described sf_type sf_facts) ds cols ->
  to_recap (pure snowflake_type) cols R = (R', Ok t) -> in_table sf_type sf_values ds row ->
  (holds (names_in R') t (DRow row) <-> row_of sf_type sf_covered ds row).
Proof.
  intros ds cols R R' t row. apply rows_of_table.
  - apply snowflake_fresh_parser.
  - intros. eapply pure_grows; eauto.
  - exact sf_column.
Qed.
Theorem snowflake_readable : forall ds cols R,
  Forall (fun d => sf_legal (d_type d)) ds -> Forall2 (described sf_type sf_facts) ds cols ->
  ((exists t, to_recap (pure snowflake_type) cols R = (R, Ok t)) <-> Forall (fun d => sf_readable (d_type d)) ds).
Proof.
  intros ds cols R L F. rewrite (pure_table_ok _ sf_facts _ ds cols R snowflake_fresh_parser F).
  symmetry. apply (Forall2_Forall _ _ _ _ _ F). intros d col I D. rewrite Forall_forall in L.
  rewrite (sf_type_read d col) by (auto; apply L; auto).
  destruct (d_type d); cbn; split; eauto; try tauto; intros (t & E); discriminate.
Qed.

(** Noon, and the first second of the year 3000. *)
Definition noon (p : Z) : datum := DClock (43200 * 10 ^ p) p.
Definition year_3000 (p : Z) : datum := DInstant (32503680000 * 10 ^ p) p.
Theorem snowflake_lost : forall p, (0 <= p <= 9)%Z ->
  (sf_values (SfTime p) (noon p) /\ ~ sf_covered (SfTime p) (noon p)) /\
  (forall k, In k sf_kinds -> sf_values (SfTimestamp k p) (year_3000 p) /\ ~ sf_covered (SfTimestamp k p) (year_3000 p)).
Proof.
  intros p P. pose proof (pow10_pos p ltac:(lia)) as PP.
  assert (E : forall x, (x * 10 ^ p * 10 ^ (9 - p) = x * 10 ^ 9)%Z).
  { intros x. rewrite <- Z.mul_assoc, <- Z.pow_add_r by lia. do 2 f_equal. lia. }
  split; [split|intros k K; split].
  - eexists. split; [reflexivity|]. lia.
  - cbn [sf_covered noon]. rewrite E. vm_compute. intros [_ X]. discriminate.
  - eexists. split; [reflexivity|]. unfold year_1, year_10000. lia.
  - cbn [sf_covered year_3000]. rewrite E. vm_compute. intros [_ X]. discriminate.
Qed.
