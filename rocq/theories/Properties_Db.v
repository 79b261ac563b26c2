(** Property theorems for the database converters (C47-C53, C60-C67). *)
From Coq Require Import String Ascii List NArith ZArith QArith Bool Lia.
From Verif Require Import PyVal RType Regex Registry SpecTypes FromDict Nullable Url Dbapi BigQuery SpecDb
  DbapiFacts DbapiMore DbReads SpecBigQuery BigQueryFacts DbRanges.
Import ListNotations.
Open Scope nat_scope.
Open Scope string_scope.
Open Scope list_scope.

(** ** Example columns *)
Definition my_col (name ty nullable : string) (octet precision scale datetime default : pyval) : column :=
  [("TABLE_NAME", PStr "t"); ("COLUMN_NAME", PStr name); ("DATA_TYPE", PStr ty);
   ("IS_NULLABLE", PStr nullable); ("COLUMN_DEFAULT", default); ("CHARACTER_OCTET_LENGTH", octet);
   ("NUMERIC_PRECISION", precision); ("NUMERIC_SCALE", scale); ("DATETIME_PRECISION", datetime)].
Definition my_table : list column :=
  [my_col "id" "BIGINT" "NO" PNone (PInt 19) (PInt 0) PNone PNone;
   my_col "email" "varchar" "Yes" (PInt 1020) PNone PNone PNone PNone;
   my_col "price" "decimal" "YES" PNone (PInt 10) (PInt 2) PNone (PStr "0.00");
   my_col "at" "datetime" "NO" PNone PNone PNone (PInt 3) PNone].

Definition pg_col (name ty udt nullable : string) (octet maxl datetime ndims : pyval) : column :=
  [("COLUMN_NAME", PStr name); ("DATA_TYPE", PStr ty); ("UDT_NAME", PStr udt);
   ("IS_NULLABLE", PStr nullable); ("COLUMN_DEFAULT", PNone); ("CHARACTER_OCTET_LENGTH", octet);
   ("CHARACTER_MAXIMUM_LENGTH", maxl); ("NUMERIC_PRECISION", PNone); ("NUMERIC_SCALE", PNone);
   ("DATETIME_PRECISION", datetime); ("ATTNDIMS", ndims); ("ENUM_VALUES", PNone)].
Definition pg_tags : list column :=
  [pg_col "id" "integer" "int4" "NO" PNone PNone PNone (PInt 0);
   pg_col "tags" "ARRAY" "_text" "YES" PNone PNone PNone (PInt 2)].
Definition pg_plain : list column :=
  [pg_col "id" "integer" "int4" "NO" PNone PNone PNone (PInt 0);
   pg_col "seen" "timestamp without time zone" "timestamp" "NO" PNone PNone (PInt 3) (PInt 0)].

(** ** C47 *)
Theorem C47_columns_become_fields : forall p cols R R' t, db_parser p ->
  to_recap p cols R = (R', Ok t) ->
  exists bases fields, t = TStruct c0 fields /\ mmap p cols R = (R', Ok bases)
    /\ List.length bases = List.length cols /\ List.length fields = List.length cols
    /\ Forall2 (fun cb f => field_spec (fst cb) (snd cb) f) (combine cols bases) fields.
Proof. exact columns_to_fields. Qed.
Print Assumptions C47_columns_become_fields.

Example C47_mysql : exists fs, to_recap (pure mysql_type) my_table builtin_aliases = (builtin_aliases, Ok (TStruct c0 fs))
  /\ map (extra "name") fs = [Some (PStr "id"); Some (PStr "email"); Some (PStr "price"); Some (PStr "at")]
  /\ map (extra "default") fs = [None; Some PNone; Some (PStr "0.00"); None]
  /\ nth_error fs 1 = Some (TUnion (mkC PNone PNone PNone [("default", PNone); ("name", PStr "email")])
       [TNull c0; TString c0 (PInt 1020) (PBool true)]).
Proof. eexists. repeat split; reflexivity. Qed.
Example C47_postgresql : exists R' fs, to_recap (pg_type false "_root") pg_tags builtin_aliases = (R', Ok (TStruct c0 fs))
  /\ map (extra "name") fs = [Some (PStr "id"); Some (PStr "tags")].
Proof. eexists _, _. split; vm_compute; reflexivity. Qed.

(** ** C48 *)
Theorem C48_not_null_partial : forall p cols R R' fields i col f,
  strict_parser p -> to_recap p cols R = (R', Ok (TStruct c0 fields)) ->
  nth_error cols i = Some col -> nth_error fields i = Some f ->
  (nullable_column col <-> accepts_null f).
Proof. exact not_null_columns. Qed.
Print Assumptions C48_not_null_partial.

Theorem C48_sqlite_not_null_partial : forall cols R R' fields i col f,
  to_recap (pure sqlite_type) cols R = (R', Ok (TStruct c0 fields)) ->
  nth_error cols i = Some col -> nth_error fields i = Some f ->
  ~ numeric_column col -> ~ nullable_column col -> ~ accepts_null f.
Proof. exact sqlite_not_null_columns. Qed.
Print Assumptions C48_sqlite_not_null_partial.

(** Missing: SQLite columns of numeric affinity and, when dimensions are enforced, PostgreSQL arrays
    with no dimension recorded.  Both are read as unions with null. *)
Definition sqlite_row (name ty : string) (notnull pk : Z) : column :=
  [("CID", PInt 0); ("NAME", PStr name); ("TYPE", PStr ty); ("NOTNULL", PInt notnull);
   ("DFLT_VALUE", PNone); ("PK", PInt pk)].
Theorem C48_not_null_refuted :
  (exists fields f, sqlite_schema [sqlite_row "amount" "DECIMAL(10,2)" 1 0] builtin_aliases
       = (builtin_aliases, Ok (TStruct c0 fields)) /\ nth_error fields 0 = Some f /\ accepts_null f)
  /\ (exists t, pg_type true "_root" (pg_col "tags" "ARRAY" "_text" "NO" PNone PNone PNone (PInt 0)) builtin_aliases
       = (builtin_aliases, Ok t) /\ accepts_null t).
Proof.
  split.
  - eexists _, _. split; [vm_compute; reflexivity|]. split; [reflexivity|]. exists c0. left. reflexivity.
  - eexists. split; [vm_compute; reflexivity|]. exists c0. left. reflexivity.
Qed.
Print Assumptions C48_not_null_refuted.

Example C48_snowflake : exists fs,
  to_recap (pure snowflake_type) [my_col "A" "NUMBER" "NO" PNone (PInt 38) (PInt 0) PNone PNone;
                                  my_col "B" "TEXT" "YES" (PInt 64) PNone PNone PNone PNone] builtin_aliases
  = (builtin_aliases, Ok (TStruct c0 fs)) /\ List.length fs = 2.
Proof. eexists. split; reflexivity. Qed.

(** ** C49 *)
Theorem C49_coarsest_unit : forall p v dflt, (0 <= p <= 9)%Z -> py_int v = Ok p ->
  (dflt = "nanosecond" \/ (dflt = "microsecond" /\ (p <= 6)%Z)) ->
  exists u, get_time_unit (Some [v]) = Ok u /\ coarsest p (unit_or u dflt).
Proof. exact unit_coarsest. Qed.
Print Assumptions C49_coarsest_unit.

Theorem C49_timestamp_columns : forall p R R' col t v s,
  p = pure mysql_type \/ (exists enforce ns, p = pg_type enforce ns) ->
  dget "DATA_TYPE" col = Some (PStr s) -> starts "timestamp" (lower s) = true ->
  dget "DATETIME_PRECISION" col = Some (PInt v) -> (0 <= v <= 6)%Z ->
  p col R = (R', Ok t) ->
  exists u, t = TInt (lge "build.recap.Timestamp" [("unit", PStr u)]) (PInt 64) (PBool true)
    /\ coarsest v u.
Proof. exact timestamp_columns. Qed.
Print Assumptions C49_timestamp_columns.

Theorem C49_snowflake_timestamps : forall col t s base p,
  dget "DATA_TYPE" col = Some (PStr s) -> In base snow_times -> p < 10 ->
  ci_eq s (base ++ "(" ++ digit p ++ ")") ->
  snowflake_type col = Ok t ->
  exists u, t = TInt (lge "build.recap.Timestamp" [("unit", PStr u)]) (PInt 64) (PBool true)
    /\ coarsest (Z.of_nat p) u.
Proof. exact snowflake_timestamps. Qed.
Print Assumptions C49_snowflake_timestamps.

Theorem C49_snowflake_times : forall col t s p,
  dget "DATA_TYPE" col = Some (PStr s) -> p < 10 -> ci_eq s ("time(" ++ digit p ++ ")") ->
  snowflake_type col = Ok t ->
  exists u, t = TInt (lge "build.recap.Time" [("unit", PStr u)]) (PInt 32) (PBool true)
    /\ coarsest (Z.of_nat p) u.
Proof. exact snowflake_times. Qed.
Print Assumptions C49_snowflake_times.

Example C49_units :
  map (fun n => get_time_unit (Some [PInt n])) [0; 1; 3; 4; 6; 7]%Z =
    [Ok (Some "second"); Ok (Some "millisecond"); Ok (Some "millisecond"); Ok (Some "microsecond");
     Ok (Some "microsecond"); Ok None]
  /\ (exists t, pg_type false "_root" (pg_col "seen" "TIMESTAMP WITH TIME ZONE" "timestamptz" "NO" PNone PNone (PInt 3) (PInt 0))
        builtin_aliases = (builtin_aliases, Ok t) /\ extra "unit" t = Some (PStr "millisecond"))
  /\ (exists t, snowflake_type (my_col "A" "TIMESTAMP_NTZ(4)" "NO" PNone PNone PNone PNone PNone) = Ok t
        /\ extra "unit" t = Some (PStr "microsecond"))
  /\ (exists t, snowflake_type (my_col "A" "Time(0)" "NO" PNone PNone PNone PNone PNone) = Ok t
        /\ extra "unit" t = Some (PStr "second")).
Proof. split; [reflexivity|]. split; [|split]; eexists; split; vm_compute; reflexivity. Qed.
(** Snowflake reads the precision from the type text only; DATETIME_PRECISION is ignored. *)
Example C49_snowflake_column_precision : exists t,
  snowflake_type (my_col "A" "TIMESTAMP_NTZ" "NO" PNone PNone PNone (PInt 3) PNone) = Ok t
  /\ extra "unit" t = Some (PStr "nanosecond").
Proof. eexists. split; vm_compute; reflexivity. Qed.

(** ** C50
    Full property: a table that was read once can be read again.  True when no array column name
    occurs twice in the history; a second read of a table with an array column always fails. *)
Theorem C50_distinct_reads_partial : forall tables types,
  Forall2 (fun t s => snd (pg_read t builtin_aliases) = Ok s) tables types ->
  NoDup (flat_map aliases tables) ->
  pg_reads tables builtin_aliases = map Ok types.
Proof. exact distinct_reads. Qed.
Print Assumptions C50_distinct_reads_partial.

Theorem C50_second_read_refuted : forall R before between t s,
  nth_error (pg_reads (before ++ t :: between ++ [t]) R) (List.length before) = Some (Ok s) ->
  (exists col, In col t /\ array_column col) ->
  nth_error (pg_reads (before ++ t :: between ++ [t]) R) (List.length before + S (List.length between))
    = Some (Err ValueError).
Proof. exact second_read_fails. Qed.
Print Assumptions C50_second_read_refuted.

Example C50_history : exists a b,
  pg_reads [pg_plain; pg_tags; pg_plain; pg_tags; pg_plain] builtin_aliases
  = [Ok a; Ok b; Ok a; Err ValueError; Ok a].
Proof. eexists _, _. vm_compute. reflexivity. Qed.
Example C50_distinct : aliases pg_tags = ["_root.tags"] /\ aliases pg_plain = []
  /\ NoDup (flat_map aliases [pg_plain; pg_tags; pg_plain]).
Proof. split; [reflexivity|]. split; [reflexivity|]. cbn. constructor; [intros []|constructor]. Qed.

(** ** C51 *)
Theorem C51_array_dimensions : forall ns col R R' t n,
  array_column col -> dget "ATTNDIMS" col = Some (PInt (Z.of_nat n)) ->
  pg_type true ns col R = (R', Ok t) ->
  R' = R /\ exists v, nested v n t /\ children v = [] /\ ~ accepts_null v.
Proof. exact array_dimensions. Qed.
Print Assumptions C51_array_dimensions.

Example C51_two : exists t, pg_type true "_root" (pg_col "tags" "ARRAY" "_int8" "NO" PNone PNone PNone (PInt 2)) builtin_aliases
  = (builtin_aliases, Ok t) /\ nested (TInt c0 (PInt 64) (PBool true)) 2 t.
Proof. eexists. split; [vm_compute; reflexivity|]. repeat constructor. Qed.

(** ** C52 *)
Theorem C52_affinity : forall t c, determined t c <-> class_of (get_affinity (Some t)) = c.
Proof.
  intros t c. split.
  - intros H. exact (determined_unique t _ _ (affinity_rules t) H).
  - intros <-. apply affinity_rules.
Qed.
Print Assumptions C52_affinity.
Theorem C52_no_type : get_affinity None = ABlob /\ class_of ABlob = ClassBlob.
Proof. split; reflexivity. Qed.
Print Assumptions C52_no_type.

Example C52_cases :
  map (fun t => class_of (get_affinity (Some t))) ["Unsigned Big int"; "Nvarchar(100)"; ""; "double precision"; "DATETIME"; "CHARINT"]
  = [ClassInteger; ClassText; ClassBlob; ClassReal; ClassNumeric; ClassInteger].
Proof. reflexivity. Qed.
Example C52_floating : determined "FLOATING POINT" ClassInteger.
Proof. apply by_rule1. exists "FLOATING PO", "INT", "". split; [reflexivity|]. apply ci_lower. reflexivity. Qed.

(** ** C53 *)
Theorem C53_bigquery : forall fields t, bq_to_recap fields = Ok t ->
  exists fs, t = TStruct c0 fs /\ Forall2 reads fields fs.
Proof. exact bq_schema. Qed.
Print Assumptions C53_bigquery.
Theorem C53_bigquery_supported : forall fields,
  (exists t, bq_to_recap fields = Ok t) <-> Forall supported fields.
Proof. exact bq_schema_supported. Qed.
Print Assumptions C53_bigquery_supported.

Definition bq (name ty mode doc : string) (fs : list bq_field) : bq_field :=
  BqField ty mode (PStr name) (PStr doc) PNone PNone PNone PNone fs.
Definition bq_table : list bq_field :=
  [bq "id" "INTEGER" "REQUIRED" "" [];
   bq "address" "RECORD" "REPEATED" "where" [bq "zip" "STRING" "NULLABLE" "code" []; bq "geo" "STRUCT" "NULLABLE" "" [bq "x" "FLOAT" "REQUIRED" "" []]]].
Example C53_nested : exists i z g, bq_to_recap bq_table = Ok (TStruct c0
   [i; TList (mkC PNone PNone (PStr "where") [("name", PStr "address")]) (TStruct c0 [z; g]) PNone (PBool true)])
  /\ accepts_null z /\ accepts_null g /\ ~ accepts_null i /\ c_doc (get_c z) = PStr "code".
Proof.
  eexists _, _, _. split; [vm_compute; reflexivity|].
  split; [eexists; left; reflexivity|]. split; [eexists; left; reflexivity|]. split; [intros []|reflexivity].
Qed.

(** ** C60: array columns are readable whenever their element type is *)
Theorem C60_arrays_readable_partial : forall col R nm udt,
  array_header col -> dget "COLUMN_NAME" col = Some (PStr nm) ->
  dget "UDT_NAME" col = Some (PStr udt) ->
  (exists w, In w readable_elements /\ ci_eq udt ("_" ++ w)) ->
  dmem (array_alias "_root" nm) R = false ->
  ((exists R' t, pg_type false "_root" col R = (R', Ok t)) <-> identifier (dots_under nm)).
Proof. exact arrays_readable. Qed.
Print Assumptions C60_arrays_readable_partial.

Theorem C60_arrays_unreadable_refuted : forall enforce ns col R udt w e nm,
  array_header col -> dget "COLUMN_NAME" col = Some nm ->
  dget "UDT_NAME" col = Some (PStr udt) -> unreadable w e -> ci_eq udt ("_" ++ w) ->
  pg_type enforce ns col R = (R, Err e).
Proof. exact arrays_unreadable. Qed.
Print Assumptions C60_arrays_unreadable_refuted.

Theorem C60_names_refuted :
  snd (pg_read [pg_col "my-tags" "ARRAY" "_text" "NO" PNone PNone PNone (PInt 1)] builtin_aliases) = Err ValueError
  /\ snd (pg_read [pg_col "a.b" "ARRAY" "_text" "NO" PNone PNone PNone (PInt 1);
                   pg_col "a_b" "ARRAY" "_text" "NO" PNone PNone PNone (PInt 1)] builtin_aliases) = Err ValueError
  /\ (exists t, snd (pg_read [pg_col "a_b" "ARRAY" "_text" "NO" PNone PNone PNone (PInt 1)] builtin_aliases) = Ok t).
Proof. split; [vm_compute; reflexivity|]. split; [vm_compute; reflexivity|]. eexists. vm_compute. reflexivity. Qed.
Print Assumptions C60_names_refuted.

Example C60_timestamps :
  (exists t, pg_type false "_root" (pg_col "seen" "timestamp" "timestamp" "NO" PNone PNone (PInt 3) (PInt 0)) builtin_aliases
     = (builtin_aliases, Ok t))
  /\ pg_type false "_root" (pg_col "seen" "ARRAY" "_timestamp" "NO" PNone PNone PNone (PInt 1)) builtin_aliases
     = (builtin_aliases, Err KeyError).
Proof. split; [eexists|]; vm_compute; reflexivity. Qed.
Example C60_header : array_header (pg_col "a.b" "array" "_uuid" "NO" PNone PNone PNone (PInt 1))
  /\ identifier (dots_under "a.b").
Proof.
  split; [split|].
  - exists "array". split; [reflexivity|]. apply ci_lower. reflexivity.
  - intros k K. cbn in K. intuition (subst; discriminate).
  - cbn. unfold alnum_, alpha_. cbn. repeat split; lia.
Qed.

(** ** C61: the reference inside a PostgreSQL array type can be followed any number of times.
    The first step works, the second never does. *)
Theorem C61_array_unfolding_refuted : forall ns col R R' t,
  array_column col -> pg_type false ns col R = (R', Ok t) ->
  exists p, node_of p t /\ forall E, exists u q,
    resolve (R' ++ E) p = Ok u /\ node_of q u /\ is_proxy q = true /\
    forall live, resolve live q = Err TypeError.
Proof. exact array_unfolding. Qed.
Print Assumptions C61_array_unfolding_refuted.
Example C61_applies : exists R' t, pg_type false "_root" (pg_col "tags" "ARRAY" "_text" "NO" PNone PNone PNone (PInt 2)) builtin_aliases
  = (R', Ok t).
Proof. eexists _, _. vm_compute. reflexivity. Qed.

(** ** C62: time-of-day columns can hold every time of the day *)
Theorem C62_snowflake_time_partial : forall col t s p u n,
  dget "DATA_TYPE" col = Some (PStr s) -> p < 10 -> ci_eq s ("time(" ++ digit p ++ ")") ->
  snowflake_type col = Ok t -> extra "unit" t = Some (PStr u) -> time_unit u n ->
  (int_holds t 0 (last_of_day n) <-> p <= 3).
Proof. exact snowflake_time_range. Qed.
Print Assumptions C62_snowflake_time_partial.
Theorem C62_snowflake_plain_time_refuted : forall col t s,
  dget "DATA_TYPE" col = Some (PStr s) -> ci_eq s "TIME" -> snowflake_type col = Ok t ->
  extra "unit" t = Some (PStr "nanosecond") /\ ~ int_holds t 0 (last_of_day 9).
Proof. exact snowflake_plain_time. Qed.
Print Assumptions C62_snowflake_plain_time_refuted.
Theorem C62_bigquery_time_refuted : forall f t, bq_type f = "TIME" -> bq_scalar f = Some t ->
  extra "unit" t = Some (PStr "microsecond") /\ ~ int_holds t 0 (last_of_day 6).
Proof. exact bigquery_time. Qed.
Print Assumptions C62_bigquery_time_refuted.
Example C62_examples :
  (exists t, snowflake_type (my_col "A" "TIME(3)" "NO" PNone PNone PNone PNone PNone) = Ok t
     /\ extra "unit" t = Some (PStr "millisecond"))
  /\ (exists t, bq_scalar (bq "x" "TIME" "REQUIRED" "" []) = Some t)
  /\ (exists t, snowflake_type (my_col "A" "TIME" "NO" PNone PNone PNone (PInt 3) PNone) = Ok t).
Proof. split; [|split]; eexists; try split; vm_compute; reflexivity. Qed.

(** ** C63: the fixed size of a decimal holds all values of the declared precision *)
Theorem C63_mysql_decimals : forall col t s p,
  dget "DATA_TYPE" col = Some (PStr s) -> (exists w, In w ["decimal"; "dec"; "numeric"] /\ ci_eq s w) ->
  dget "NUMERIC_PRECISION" col = Some (PInt p) -> mysql_type col = Ok t ->
  decimal_of t 32 (PInt p) /\ ((0 <= p <= 65)%Z -> decimal_fits 32 p).
Proof. exact mysql_decimals. Qed.
Print Assumptions C63_mysql_decimals.
Theorem C63_snowflake_decimals : forall col t s p,
  dget "DATA_TYPE" col = Some (PStr s) -> (exists w, In w ["number"; "decimal"; "numeric"] /\ ci_eq s w) ->
  dget "NUMERIC_PRECISION" col = Some (PInt p) -> (1 <= p <= 38)%Z -> snowflake_type col = Ok t ->
  decimal_of t 16 (PInt p) /\ decimal_fits 16 p.
Proof. exact snowflake_decimals. Qed.
Print Assumptions C63_snowflake_decimals.
Theorem C63_bigquery_decimals : forall f t p, bq_scalar f = Some t -> bq_precision f = PInt p -> (1 <= p)%Z ->
  (In (bq_type f) ["NUMERIC"; "DECIMAL"] ->
     decimal_of t 16 (PInt p) /\ ((p <= 38)%Z -> decimal_fits 16 p)) /\
  (In (bq_type f) ["BIGNUMERIC"; "BIGDECIMAL"] ->
     decimal_of t 32 (PInt p) /\ ((p <= 76)%Z -> decimal_fits 32 p)).
Proof. exact bigquery_decimals. Qed.
Print Assumptions C63_bigquery_decimals.
Theorem C63_bigquery_default_decimals : forall f t, bq_scalar f = Some t -> bq_precision f = PNone ->
  (In (bq_type f) ["NUMERIC"; "DECIMAL"] -> decimal_of t 16 (PInt 38) /\ decimal_fits 16 38) /\
  (In (bq_type f) ["BIGNUMERIC"; "BIGDECIMAL"] -> decimal_of t 32 (PInt 76) /\ decimal_fits 32 76).
Proof. exact bigquery_default_decimals. Qed.
Print Assumptions C63_bigquery_default_decimals.
(** PostgreSQL: exactly up to 76 digits, while the database allows 1000. *)
Theorem C63_postgresql_decimals_partial : forall enforce ns col R R' t s p,
  dget "DATA_TYPE" col = Some (PStr s) -> (exists w, In w ["decimal"; "numeric"] /\ ci_eq s w) ->
  dget "NUMERIC_PRECISION" col = Some (PInt p) -> (1 <= p)%Z -> pg_type enforce ns col R = (R', Ok t) ->
  decimal_of t 32 (PInt p) /\ (decimal_fits 32 p <-> (p <= 76)%Z).
Proof. exact pg_decimals. Qed.
Print Assumptions C63_postgresql_decimals_partial.
Definition pg_numeric : column :=
  dset "NUMERIC_PRECISION" (PInt 100) (dset "NUMERIC_SCALE" (PInt 5) (pg_col "n" "numeric" "numeric" "NO" PNone PNone PNone (PInt 0))).
Theorem C63_postgresql_decimals_refuted : exists t,
  pg_type false "_root" pg_numeric builtin_aliases = (builtin_aliases, Ok t)
  /\ decimal_of t 32 (PInt 100) /\ ~ decimal_fits 32 100.
Proof.
  eexists. split; [vm_compute; reflexivity|]. split; [eexists; repeat split; reflexivity|].
  apply not_fits32. lia.
Qed.
Print Assumptions C63_postgresql_decimals_refuted.
Example C63_examples :
  (exists t, mysql_type (my_col "a" "DECIMAL" "NO" PNone (PInt 65) (PInt 30) PNone PNone) = Ok t)
  /\ (exists t, snowflake_type (my_col "a" "NUMBER" "NO" PNone (PInt 38) (PInt 0) PNone PNone) = Ok t)
  /\ (exists t, bq_scalar (bq "a" "BIGNUMERIC" "NULLABLE" "" []) = Some t).
Proof. split; [|split]; eexists; vm_compute; reflexivity. Qed.

(** ** C64: MySQL integer columns can hold every value of the column *)
Theorem C64_signed_partial : forall w lo hi col t s, mysql_range w lo hi ->
  dget "DATA_TYPE" col = Some (PStr s) -> ci_eq s w -> mysql_type col = Ok t -> int_holds t lo hi.
Proof. exact mysql_signed. Qed.
Print Assumptions C64_signed_partial.
(** Unsigned columns: DATA_TYPE is the same, COLUMN_TYPE says unsigned and is not looked at. *)
Theorem C64_unsigned_refuted : forall w lo hi col t s, mysql_range w lo hi ->
  dget "DATA_TYPE" col = Some (PStr s) -> ci_eq s w -> mysql_type col = Ok t ->
  ~ int_holds t 0 (2 * hi + 1).
Proof. exact mysql_unsigned. Qed.
Print Assumptions C64_unsigned_refuted.
Example C64_int : exists t,
  mysql_type (("COLUMN_TYPE", PStr "int unsigned") :: my_col "id" "int" "NO" PNone (PInt 10) (PInt 0) PNone PNone) = Ok t
  /\ t = TInt c0 (PInt 32) (PBool true) /\ mysql_range "int" (- 2147483648) 2147483647.
Proof. eexists. split; [vm_compute; reflexivity|]. split; [reflexivity|]. unfold mysql_range. cbn. auto. Qed.

(** ** C65: schemas read from a database respect the limits of the type specification *)
Theorem C65_limits_partial : forall p cols R R' t, db_parser p -> Forall (sized p) cols ->
  to_recap p cols R = (R', Ok t) -> tree_within_limits t.
Proof. exact schema_limits. Qed.
Print Assumptions C65_limits_partial.
Theorem C65_limits_refuted :
  (exists t s, mysql_type (my_col "c" "char" "NO" (PInt 0) PNone PNone PNone PNone) = Ok t
     /\ node_of s t /\ ~ within_limits s)
  /\ (exists R' t s, sqlite_schema [sqlite_row "v" "VARCHAR(99999999999999999999)" 0 0] builtin_aliases = (R', Ok t)
     /\ node_of s t /\ ~ within_limits s).
Proof.
  split.
  - eexists _, _. split; [vm_compute; reflexivity|]. split; [constructor|].
    intros [[X _]|(q & E & L & _)]; [discriminate|]. injection E; intros; subst. vm_compute in L. congruence.
  - eexists _, _, _. split; [vm_compute; reflexivity|]. split.
    + eapply node_child; [left; reflexivity|]. eapply node_child; [right; left; reflexivity|]. constructor.
    + intros [[X _]|(q & E & _ & L)]; [discriminate|]. injection E; intros; subst. vm_compute in L. congruence.
Qed.
Print Assumptions C65_limits_refuted.
Example C65_sized : Forall (sized (pure mysql_type)) my_table
  /\ Forall (sized (pg_type false "_root")) pg_tags.
Proof.
  assert (N : forall name ty nl pr sc dt df,
    (starts "char" (lower ty) || starts "binary" (lower ty) || String.eqb (lower ty) "enum"
     || String.eqb (lower ty) "set")%bool = false ->
    sized (pure mysql_type) (my_col name ty nl PNone pr sc dt df)).
  { intros name ty nl pr sc dt df E. constructor. exists PNone. split; [reflexivity|]. left. split; auto.
    intros (s & E1 & F). injection E1; intros; subst. apply mysql_fixed_iff in F. congruence. }
  assert (P : forall name ty udt nl dt nd,
    starts "char" (lower ty) = false -> starts "bit" (lower ty) = false ->
    sized (pg_type false "_root") (pg_col name ty udt nl PNone PNone dt nd)).
  { intros name ty udt nl dt nd E1 E2. constructor.
    - exists PNone. split; [reflexivity|]. left. split; auto. intros (s & E & F). injection E; intros; subst.
      apply starts_iff in F; [congruence|reflexivity].
    - intros (s & E & F). injection E; intros; subst. apply starts_iff in F; [congruence|reflexivity]. }
  split; (repeat apply Forall_cons; [..|apply Forall_nil]);
    try (apply N; reflexivity); try (apply P; reflexivity).
  constructor. exists (PInt 1020). split; [reflexivity|]. right. apply between_int. lia.
Qed.

(** ** C66: a SQLite column that may hold NULL becomes a nullable field *)
Theorem C66_sqlite_nullable_partial : forall rows R R' fields i row f n k,
  sqlite_schema rows R = (R', Ok (TStruct c0 fields)) ->
  nth_error rows i = Some row -> nth_error fields i = Some f ->
  dget "NOTNULL" row = Some (PInt n) -> dget "PK" row = Some (PInt k) ->
  extra "name" f = dget "NAME" row /\
  (n = 0%Z -> k = 0%Z -> accepts_null f) /\
  (n <> 0%Z \/ k <> 0%Z -> ~ numeric_column row -> ~ accepts_null f).
Proof. exact sqlite_nullability. Qed.
Print Assumptions C66_sqlite_nullable_partial.
(** Missing: primary keys other than INTEGER PRIMARY KEY.  SQLite lets them be NULL (a documented
    exception to the SQL standard), the field does not. *)
Theorem C66_sqlite_primary_key_refuted : exists f,
  sqlite_schema [sqlite_row "code" "TEXT" 0 1] builtin_aliases = (builtin_aliases, Ok (TStruct c0 [f]))
  /\ ~ accepts_null f.
Proof. eexists. split; [vm_compute; reflexivity|]. intros []. Qed.
Print Assumptions C66_sqlite_primary_key_refuted.
Example C66_table : exists fs,
  sqlite_schema [sqlite_row "id" "INTEGER" 0 1; sqlite_row "note" "varchar(20)" 0 0; sqlite_row "w" "REAL" 1 0] builtin_aliases
    = (builtin_aliases, Ok (TStruct c0 fs))
  /\ map (extra "name") fs = [Some (PStr "id"); Some (PStr "note"); Some (PStr "w")].
Proof. eexists. split; vm_compute; reflexivity. Qed.

(** ** C67: every BigQuery column type can be read *)
Theorem C67_bigquery_types_partial : forall f, (exists t, bq_to_field f = Ok t) <-> supported f.
Proof. exact bq_supported. Qed.
Print Assumptions C67_bigquery_types_partial.
(** False for the other types of GoogleSQL: BOOL, BIGINT, GEOGRAPHY, INTERVAL, RANGE. *)
Theorem C67_bigquery_types_refuted : forall mode nm d df ml p s fs,
  map (fun ty => bq_to_field (BqField ty mode nm d df ml p s fs)) ["BOOL"; "BIGINT"; "GEOGRAPHY"; "INTERVAL"; "RANGE"]
  = [Err ValueError; Err ValueError; Err ValueError; Err ValueError; Err ValueError].
Proof. reflexivity. Qed.
Print Assumptions C67_bigquery_types_refuted.
Example C67_supported : Forall supported bq_table.
Proof.
  constructor; [apply sup_scalar; cbn; tauto|]. constructor; [|constructor].
  apply sup_record; [cbn; tauto|]. constructor; [apply sup_scalar; cbn; tauto|]. constructor; [|constructor].
  apply sup_record; [cbn; tauto|]. constructor; [apply sup_scalar; cbn; tauto|constructor].
Qed.
