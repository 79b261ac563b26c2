(** Property theorems for the values of database columns (C108-C113). *)
From Coq Require Import String Ascii List NArith ZArith QArith Bool Lia.
From Verif Require Import PyVal RType Registry FromDict Dbapi DbapiFacts DbReads SpecDb SpecInstances SpecRows RowFacts RowMysql
  RowPostgres RowSnowflake RowSqlite BigQuery SpecNested RowBigQuery Hive RowHive EnumArrays.
From Verif Require SpecJson.
Import ListNotations.
Open Scope nat_scope.
Open Scope string_scope.
Open Scope list_scope.

(** A row of information_schema.columns for a column without a default value. *)
Definition shown {A} (facts : A -> list (string * pyval)) (d : decl A) : list (string * pyval) :=
  [("COLUMN_NAME", PStr (d_name d)); ("IS_NULLABLE", PStr (if d_null d then "YES" else "NO"));
   ("COLUMN_DEFAULT", PNone)] ++ facts (d_type d).
Ltac columns := repeat constructor; cbn; try discriminate; intros ? ? H;
  repeat (destruct H as [[= <- <-]|H]; [reflexivity|]); destruct H.
Ltac table := unfold in_table, row_of; repeat (apply Forall2_cons; [split; [reflexivity|]; cbn [d_null d_type snd fst]; right|]);
  try apply Forall2_nil.
Ltac value := eexists; split; [reflexivity|].

(** ** C108: values of MySQL columns *)
(** A row of the table is a value of the type that is read iff each of its values is covered. *)
Theorem C108_rows_partial : forall ds cols R R' t row,
  Forall (fun d => my_legal (d_type d)) ds -> Forall2 (described my_type my_facts) ds cols ->
  to_recap (pure mysql_type) cols R = (R', Ok t) -> in_table my_type my_values ds row ->
  (holds (names_in R') t (DRow row) <-> row_of my_type my_covered ds row).
Proof. exact mysql_rows. Qed.
Print Assumptions C108_rows_partial.
Theorem C108_readable_partial : forall ds cols R,
  Forall (fun d => my_legal (d_type d)) ds -> Forall2 (described my_type my_facts) ds cols ->
  ((exists t, to_recap (pure mysql_type) cols R = (R, Ok t)) <-> Forall (fun d => my_readable (d_type d)) ds).
Proof. exact mysql_readable. Qed.
Print Assumptions C108_readable_partial.
(** Columns of these types have values that are lost. *)
Theorem C108_lost_refuted :
  (forall i, exists v, my_values (MyInteger i true) v /\ ~ my_covered (MyInteger i true) v) /\
  (forall n w, 1 <= n -> 1 <= w -> exists v, my_values (MyChar n w) v /\ ~ my_covered (MyChar n w) v) /\
  (forall ls w l l', In l ls -> In l' ls -> String.length l <> String.length l' ->
     exists v, my_values (MyEnum ls w) v /\ ~ my_covered (MyEnum ls w) v) /\
  (forall n v, 1 <= n <= 56 -> my_values (MyBit n) v -> ~ my_covered (MyBit n) v).
Proof. exact mysql_lost. Qed.
Print Assumptions C108_lost_refuted.
Definition my_table : list (decl my_type) :=
  [mkDecl "id" false (MyInteger MyMedium true); mkDecl "name" true (MyVarchar 2 4);
   mkDecl "at" false (MyDatetime 3); mkDecl "price" false (MyDecimal 5 2)].
(** -12.34 on 1 January 2000, half a second after midnight. *)
Definition my_line (id : Z) : list (string * datum) :=
  [("id", DInt id); ("name", DText (accents 2)); ("at", DInstant 946684800500 3); ("price", DNumber (-1234) 2)].
Example C108_case : exists t, to_recap (pure mysql_type) (map (shown my_facts) my_table) [] = ([], Ok t) /\
  in_table my_type my_values my_table (my_line 8388607) /\ in_table my_type my_values my_table (my_line 8388608) /\
  holds (names_in []) t (DRow (my_line 8388607)) /\ ~ holds (names_in []) t (DRow (my_line 8388608)).
Proof.
  assert (L : Forall (fun d => my_legal (d_type d)) my_table) by (repeat constructor; cbn; lia).
  assert (D : Forall2 (described my_type my_facts) my_table (map (shown my_facts) my_table)) by columns.
  destruct (proj2 (C108_readable_partial _ _ [] L D)) as (t & E); [repeat constructor|].
  assert (V : forall z, (0 <= z < 2 ^ 24)%Z -> in_table my_type my_values my_table (my_line z)).
  { intros z Z. table; value.
    - cbn. lia.
    - vm_compute. lia.
    - unfold year_1000, year_10000. lia.
    - lia. }
  exists t. split; auto. split; [apply V; lia|]. split; [apply V; lia|].
  rewrite (C108_rows_partial _ _ _ _ _ (my_line 8388607) L D E) by (apply V; lia).
  rewrite (C108_rows_partial _ _ _ _ _ (my_line 8388608) L D E) by (apply V; lia). split.
  - table; cbn; auto; lia.
  - intros H. inversion H as [|? ? ? ? [_ [[? ?]|X]]]; subst; [discriminate|]. cbn in X. lia.
Qed.

(** ** C109: values of PostgreSQL columns *)
Theorem C109_rows_partial : forall enforce ns ds cols R R' t row,
  Forall (fun d => pg_legal (d_type d)) ds -> Forall2 (described pg_decl pg_facts) ds cols ->
  to_recap (pg_type enforce ns) cols R = (R', Ok t) -> in_table pg_decl pg_values ds row ->
  (holds (names_in R') t (DRow row) <-> row_of pg_decl (pg_covered enforce) ds row).
Proof. exact pg_rows. Qed.
Print Assumptions C109_rows_partial.
Theorem C109_readable_partial : forall enforce ns ds cols R,
  Forall (fun d => pg_legal (d_type d)) ds -> Forall2 (described pg_decl pg_facts) ds cols ->
  (forall R' t, to_recap (pg_type enforce ns) cols R = (R', Ok t) -> Forall (fun d => pg_readable (d_type d)) ds) /\
  (enforce = true \/ Forall (fun d => not_array (d_type d)) ds -> Forall (fun d => pg_readable (d_type d)) ds ->
   exists t, to_recap (pg_type enforce ns) cols R = (R, Ok t)).
Proof. exact pg_tables. Qed.
Print Assumptions C109_readable_partial.
Theorem C109_lost_refuted :
  (forall n, pg_legal_base (PgChar n) -> exists v, pg_base_values (PgChar n) v /\ ~ pg_base_covered (PgChar n) v) /\
  (forall v, pg_base_values (PgNumeric None) v -> ~ pg_base_covered (PgNumeric None) v) /\
  (forall p s, pg_legal_base (PgNumeric (Some (p, s))) -> (77 <= p)%Z ->
     exists v, pg_base_values (PgNumeric (Some (p, s))) v /\ ~ pg_base_covered (PgNumeric (Some (p, s))) v) /\
  (forall z p, (4 <= p <= 6)%Z -> exists v, pg_base_values (PgTimestamp z p) v /\ ~ pg_base_covered (PgTimestamp z p) v) /\
  (forall b n, exists v, pg_values (PgArray b n) v /\ ~ pg_covered false (PgArray b n) v) /\
  (forall b n x, n <= 5 -> pg_base_values b x -> exists v, pg_values (PgArray b n) v /\ ~ pg_covered true (PgArray b n) v).
Proof. exact pg_lost. Qed.
Print Assumptions C109_lost_refuted.
(** Arrays of enumerations: a table is read only if the name of the enumeration looks like the name of
    a built-in type, and then as arrays of that type; the labels are lost. *)
Theorem C109_enum_arrays_refuted : forall enforce ns ds cols R R' t i d n ls k,
  Forall2 (described pg_decl pg_facts) ds cols -> nth_error ds i = Some d -> d_type d = PgArray (PgEnum n ls) k ->
  to_recap (pg_type enforce ns) cols R = (R', Ok t) ->
  builtin_like n /\ exists c fs f, t = TStruct c fs /\ nth_error fs i = Some f /\ forall c s, ~ SpecJson.shown (TEnum c s) f.
Proof. exact enum_arrays. Qed.
Print Assumptions C109_enum_arrays_refuted.
Definition pg_table : list (decl pg_decl) :=
  [mkDecl "id" false (PgColumn PgBig); mkDecl "tags" true (PgArray PgText 1);
   mkDecl "mood" false (PgColumn (PgEnum "mood" ["sad"; "ok"]))].
Definition pg_line (tag : datum) : list (string * datum) :=
  [("id", DInt 7); ("tags", DList [tag; DText "b"]); ("mood", DText "ok")].
(** With the default option of the converter NULL elements are lost. *)
(** An enumeration called mood is not read in arrays; one called charge is read as texts of 2^30 bytes. *)
Definition pg_enums (n : string) : list (decl pg_decl) := [mkDecl "id" false (PgColumn PgBig); mkDecl "all" true (PgArray (PgEnum n ["sad"; "ok"]) 1)].
Example C109_enum_case :
  Forall2 (described pg_decl pg_facts) (pg_enums "mood") (map (shown pg_facts) (pg_enums "mood")) /\
  Forall2 (described pg_decl pg_facts) (pg_enums "Charge") (map (shown pg_facts) (pg_enums "Charge")) /\
  snd (to_recap (pg_type true "db") (map (shown pg_facts) (pg_enums "mood")) []) = Err ValueError /\ ~ builtin_like "mood" /\
  builtin_like "Charge" /\ exists c f, snd (to_recap (pg_type true "db") (map (shown pg_facts) (pg_enums "Charge")) []) = Ok (TStruct c0 [c; f]) /\
    SpecJson.shown (TString c0 (PInt 1073741824) (PBool false)) f.
Proof.
  split; [columns|]. split; [columns|]. split; [vm_compute; reflexivity|]. split; [|split].
  - intros B.
    assert (X : forall w, In w builtin_words \/ In w builtin_beginnings -> starts w "mood" = false).
    { unfold builtin_words, builtin_beginnings. cbn [In]. intuition (subst; reflexivity). }
    destruct B as (u & m & r & E & [k U] & W).
    assert (k = 0) as -> by (destruct k; auto; subst u; destruct k; discriminate E). subst u. cbn in E.
    assert (exists w, ci_eq m w /\ (In w builtin_words \/ In w builtin_beginnings)) as (w & C & I) by (destruct W as [[(w & C & I) _]|(w & C & I)]; eauto).
    enough (starts w "mood" = true) by (rewrite (X w I) in *; discriminate). rewrite <- (lower_words w I).
    apply DbReads.ci_lower in C. rewrite <- C. apply DbapiFacts.prefix_spec. exists (Url.lower r). rewrite <- DbRanges.lower_app, <- E. reflexivity.
  - exists "", "Char", "ge". repeat split; [now exists 0|]. right. exists "char". split; [|cbn; tauto]. apply DbReads.ci_lower. reflexivity.
  - eexists _, _. split; [vm_compute; reflexivity|]. right with (c := TList c0 (TUnion c0 [TNull c0; TString c0 (PInt 1073741824) (PBool false)]) PNone (PBool true)).
    + cbn. tauto.
    + eright; [left; reflexivity|]. eright; [right; left; reflexivity|]. left.
Qed.
Example C109_case : exists R t, to_recap (pg_type false "db") (map (shown pg_facts) pg_table) [] = (R, Ok t) /\
  in_table pg_decl pg_values pg_table (pg_line (DText "a")) /\ in_table pg_decl pg_values pg_table (pg_line DNull) /\
  holds (names_in R) t (DRow (pg_line (DText "a"))) /\ ~ holds (names_in R) t (DRow (pg_line DNull)).
Proof.
  assert (L : Forall (fun d => pg_legal (d_type d)) pg_table) by (repeat constructor; cbn; discriminate).
  assert (D : Forall2 (described pg_decl pg_facts) pg_table (map (shown pg_facts) pg_table)) by columns.
  destruct (to_recap (pg_type false "db") (map (shown pg_facts) pg_table) []) as [R [t|e]] eqn:E; [|vm_compute in E; discriminate].
  assert (W : forall s, s = "a" \/ s = "b" -> pg_base_values PgText (DText s)).
  { intros s [-> | ->]; eexists; (split; [reflexivity|]); vm_compute; reflexivity. }
  assert (V : forall d, d = DNull \/ d = DText "a" -> in_table pg_decl pg_values pg_table (pg_line d)).
  { intros d X. table.
    - exists 7%Z. split; auto. cbn. lia.
    - exists 1. split; [lia|]. constructor. intros y [<-|[<-|[]]].
      + destruct X as [-> | ->]; [apply levels_null|apply levels_value; auto].
      + apply levels_value. auto.
    - exists "ok". cbn. auto. }
  exists R, t. split; auto. split; [auto|]. split; [auto|].
  rewrite (C109_rows_partial _ _ _ _ _ _ _ (pg_line (DText "a")) L D E) by auto.
  rewrite (C109_rows_partial _ _ _ _ _ _ _ (pg_line DNull) L D E) by auto. split.
  - table; cbn; auto. intros x H. split.
    + inversion H as [|l y I Y]; subst; [discriminate|]. destruct I as [<-|[<-|[]]]; inversion Y; discriminate.
    + intros _. exact Logic.I.
  - intros H. inversion H as [|? ? ? ? _ H']; subst. inversion H' as [|? ? ? ? [_ [[_ ?]|X]]]; subst; [discriminate|].
    cbn in X. destruct (X DNull) as [N _]; [|congruence]. apply leaf_in with (y := DNull); [cbn; auto|constructor].
Qed.

(** ** C110: values of Snowflake columns *)
Theorem C110_rows_partial : forall ds cols R R' t row,
  Forall (fun d => sf_legal (d_type d)) ds -> Forall2 (described sf_type sf_facts) ds cols ->
  to_recap (pure snowflake_type) cols R = (R', Ok t) -> in_table sf_type sf_values ds row ->
  (holds (names_in R') t (DRow row) <-> row_of sf_type sf_covered ds row).
Proof. exact snowflake_rows. Qed.
Print Assumptions C110_rows_partial.
Theorem C110_readable_partial : forall ds cols R,
  Forall (fun d => sf_legal (d_type d)) ds -> Forall2 (described sf_type sf_facts) ds cols ->
  ((exists t, to_recap (pure snowflake_type) cols R = (R, Ok t)) <-> Forall (fun d => sf_readable (d_type d)) ds).
Proof. exact snowflake_readable. Qed.
Print Assumptions C110_readable_partial.
Theorem C110_lost_refuted : forall p, (0 <= p <= 9)%Z ->
  (sf_values (SfTime p) (noon p) /\ ~ sf_covered (SfTime p) (noon p)) /\
  (forall k, In k sf_kinds -> sf_values (SfTimestamp k p) (year_3000 p) /\ ~ sf_covered (SfTimestamp k p) (year_3000 p)).
Proof. exact snowflake_lost. Qed.
Print Assumptions C110_lost_refuted.
Definition sf_table : list (decl sf_type) :=
  [mkDecl "id" false (SfNumber 38 0); mkDecl "name" true (SfText 2); mkDecl "at" false (SfTime 3)].
(** One second, and twelve hours, after midnight. *)
Definition sf_line (ms : Z) : list (string * datum) :=
  [("id", DNumber (10 ^ 37) 0); ("name", DText (accents 2)); ("at", DClock ms 3)].
Example C110_case : exists t, to_recap (pure snowflake_type) (map (shown sf_facts) sf_table) [] = ([], Ok t) /\
  in_table sf_type sf_values sf_table (sf_line 1000) /\ in_table sf_type sf_values sf_table (sf_line 43200000) /\
  holds (names_in []) t (DRow (sf_line 1000)) /\ ~ holds (names_in []) t (DRow (sf_line 43200000)).
Proof.
  assert (L : Forall (fun d => sf_legal (d_type d)) sf_table) by (repeat constructor; cbn; unfold sf_text_max; lia).
  assert (D : Forall2 (described sf_type sf_facts) sf_table (map (shown sf_facts) sf_table)) by columns.
  destruct (proj2 (C110_readable_partial _ _ [] L D)) as (t & E); [repeat constructor|].
  assert (V : forall z, (0 <= z < 86400000)%Z -> in_table sf_type sf_values sf_table (sf_line z)).
  { intros z Z. table; value.
    - lia.
    - destruct (accents_chars 2). unfold text_within, sf_text_max. lia.
    - lia. }
  exists t. split; auto. split; [apply V; lia|]. split; [apply V; lia|].
  rewrite (C110_rows_partial _ _ _ _ _ (sf_line 1000) L D E) by (apply V; lia).
  rewrite (C110_rows_partial _ _ _ _ _ (sf_line 43200000) L D E) by (apply V; lia). split.
  - table; cbn; auto; lia.
  - intros H. inversion H as [|? ? ? ? _ H1]; subst. inversion H1 as [|? ? ? ? _ H2]; subst.
    inversion H2 as [|? ? ? ? [_ [[? ?]|X]]]; subst; [discriminate|]. cbn in X. lia.
Qed.

(** ** C111: values of SQLite columns *)
Theorem C111_rows_partial : forall ds rows R R' t row,
  Forall (fun d => sq_legal (d_type d)) ds -> Forall2 sq_described ds rows ->
  sqlite_schema rows R = (R', Ok t) -> in_table sq_type sq_values ds row ->
  (holds (names_in R') t (DRow row) <-> row_of sq_type sq_covered ds row).
Proof. exact sqlite_rows. Qed.
Print Assumptions C111_rows_partial.
Theorem C111_readable : forall ds rows R,
  Forall (fun d => sq_legal (d_type d)) ds -> Forall2 sq_described ds rows ->
  exists t, sqlite_schema rows R = (R, Ok t).
Proof. exact sqlite_readable. Qed.
Print Assumptions C111_readable.
Theorem C111_lost_refuted :
  (forall t c v, determined (sq_text t) c -> c <> ClassNumeric ->
     (v = DInt 1 \/ v = DFloat (1 # 2) \/ v = DText "a" \/ v = DBytes "a") -> sq_values t v /\
     (sq_covered t v -> match c with ClassInteger => v = DInt 1 | ClassReal => v = DFloat (1 # 2) | ClassText => v = DText "a" | _ => v = DBytes "a" end)) /\
  (forall t w n, determined (sq_text t) ClassReal -> sq_size t w n -> (1 <= n <= 23)%Z ->
     sq_values t (DFloat wide) /\ ~ sq_covered t (DFloat wide)) /\
  (forall t w n, determined (sq_text t) ClassText -> sq_size t w n -> length_word w -> (1 <= n < sq_max)%Z ->
     exists s, sq_values t (DText s) /\ ~ sq_covered t (DText s)).
Proof. exact sqlite_lost. Qed.
Print Assumptions C111_lost_refuted.
Definition sq_table : list (decl sq_type) :=
  [mkDecl "id" false (SqPlain "INTEGER"); mkDecl "name" true (SqSized "" "VARCHAR" "4" None)].
Definition sq_shown : list (list (string * pyval)) :=
  [[("NAME", PStr "id"); ("TYPE", PStr "INTEGER"); ("NOTNULL", PInt 0); ("DFLT_VALUE", PNone); ("PK", PInt 1)];
   [("NAME", PStr "name"); ("TYPE", PStr "VARCHAR(4)"); ("NOTNULL", PInt 0); ("DFLT_VALUE", PNone); ("PK", PInt 0)]].
Definition sq_line (s : string) : list (string * datum) := [("id", DInt 1); ("name", DText s)].
Example C111_case : exists t, sqlite_schema sq_shown [] = ([], Ok t) /\
  in_table sq_type sq_values sq_table (sq_line "four") /\ in_table sq_type sq_values sq_table (sq_line "seven") /\
  holds (names_in []) t (DRow (sq_line "four")) /\ ~ holds (names_in []) t (DRow (sq_line "seven")).
Proof.
  assert (D1 : forall c, digit_char c -> word_char c) by (unfold word_char; auto).
  assert (L : Forall (fun d => sq_legal (d_type d)) sq_table).
  { constructor; [|constructor; [|constructor]].
    - cbn. repeat (constructor || discriminate || split).
    - cbn -[digit_char word_char]. split; [auto|]. split; [exact Logic.I|]. split; [discriminate|].
      split; [repeat split; right; left; vm_compute; split; discriminate|].
      split; [|discriminate]. split; [discriminate|]. cbn. repeat split; vm_compute; discriminate. }
  assert (D : Forall2 sq_described sq_table sq_shown).
  { constructor; [|constructor; [|constructor]]; constructor; try reflexivity; eauto.
    - eexists. reflexivity.
    - exists 0%Z, 1%Z. repeat split; intros; try discriminate. lia.
    - eexists. reflexivity.
    - exists 0%Z, 0%Z. repeat split. }
  destruct (C111_readable _ _ [] L D) as (t & E).
  assert (V : forall s, String.length s <= 5 -> in_table sq_type sq_values sq_table (sq_line s)).
  { intros s S. table; cbn [sq_values]; [cbn; lia|unfold sq_max; lia]. }
  assert (K : determined "VARCHAR(4)" ClassText) by exact (affinity_rules "VARCHAR(4)").
  assert (Z4 : sq_size (SqSized "" "VARCHAR" "4" None) "VARCHAR" 4) by exact (sq_size_first "" "VARCHAR" "4" None).
  exists t. split; auto. split; [apply V; cbn; lia|]. split; [apply V; cbn; lia|].
  rewrite (C111_rows_partial _ _ _ _ _ (sq_line "four") L D E) by (apply V; cbn; lia).
  rewrite (C111_rows_partial _ _ _ _ _ (sq_line "seven") L D E) by (apply V; cbn; lia). split.
  - table.
    + exists ClassInteger. split; [exact (affinity_rules "INTEGER")|exact Logic.I].
    + exists ClassText. split; auto. intros w n S _ _. inversion S; subst. cbn. lia.
  - intros H. inversion H as [|? ? ? ? _ H1]; subst. inversion H1 as [|? ? ? ? [_ [[_ ?]|X]]]; subst; [discriminate|].
    destruct X as (c & C & X). rewrite (determined_unique _ _ _ C K) in X.
    specialize (X _ _ Z4). cbn in X. assert (Y : (5 <= 4)%Z); [|lia]. apply X; [|lia].
    left. left. exists "VAR", "CHAR", "". split; [reflexivity|]. apply ci_lower. reflexivity.
Qed.

(** ** C112: values of BigQuery fields *)
Theorem C112_rows_partial : forall env fs t row, all_fields big_legal fs -> bq_to_recap (map big_reports fs) = Ok t ->
  big_row big_leaf fs row -> (holds env t (DRow row) <-> big_row big_leaf_covered fs row).
Proof. exact bigquery_rows. Qed.
Print Assumptions C112_rows_partial.
Theorem C112_readable_partial : forall fs, all_fields big_legal fs ->
  ((exists t, bq_to_recap (map big_reports fs) = Ok t) <-> all_fields big_readable fs).
Proof. exact bigquery_readable. Qed.
Print Assumptions C112_readable_partial.
Theorem C112_lost_refuted :
  (forall n, 1 <= n -> exists s, big_leaf (BigString (Some n)) (DText s) /\ ~ big_leaf_covered (BigString (Some n)) (DText s)) /\
  (big_leaf BigTime (DClock (43200 * 10 ^ 6) 6) /\ ~ big_leaf_covered BigTime (DClock (43200 * 10 ^ 6) 6)) /\
  (forall b ty, exists v, big_leaf (BigNumeric b ty None) v /\ ~ big_leaf_covered (BigNumeric b ty None) v).
Proof. exact bigquery_lost. Qed.
Print Assumptions C112_lost_refuted.
Definition big_table : list big_field_decl :=
  [("id", Required, PNone, PNone, BigInteger "INTEGER");
   ("visits", Repeated, PStr "one per day", PNone,
    BigRecord "RECORD" [("at", Nullable, PNone, PNone, BigTime); ("cost", Required, PNone, PNone, BigNumeric false "NUMERIC" None)])].
(** The cost in billionths. *)
Definition big_line (cost : Z) : list (string * datum) :=
  [("id", DInt 1); ("visits", DList [DRow [("at", DNull); ("cost", DNumber cost 9)]])].
Example C112_case : exists t, bq_to_recap (map big_reports big_table) = Ok t /\
  big_row big_leaf big_table (big_line (3 * 10 ^ 9)) /\ big_row big_leaf big_table (big_line (35 * 10 ^ 8)) /\
  holds (names_in []) t (DRow (big_line (3 * 10 ^ 9))) /\ ~ holds (names_in []) t (DRow (big_line (35 * 10 ^ 8))).
Proof.
  assert (L : all_fields big_legal big_table).
  { repeat constructor; cbn; auto; discriminate. }
  destruct (proj2 (C112_readable_partial _ L)) as (t & E); [repeat constructor|].
  assert (W : forall (P : big_type -> datum -> Prop) z, big_row P big_table (big_line z) <->
    P (BigInteger "INTEGER") (DInt 1) /\ P (BigNumeric false "NUMERIC" None) (DNumber z 9)).
  { intros P z. split.
    - intros H. inversion H as [|? ? ? ? A H1]; subst. inversion H1 as [|? ? ? ? B _]; subst.
      cbn [fst snd by_mode] in A, B. destruct A as [_ A], B as [_ B]. split; [exact A|]. destruct B as (l & [= <-] & B).
      destruct (B _ (or_introl eq_refl)) as (row & [= <-] & _ & _ & _ & C & _). exact C.
    - intros [A B]. unfold big_row. constructor; [split; [reflexivity|exact A]|]. constructor; [|constructor].
      split; [reflexivity|]. eexists. split; [reflexivity|]. intros x [<-|[]]. eexists. split; [reflexivity|].
      split; [reflexivity|]. split; [left; reflexivity|]. split; [reflexivity|]. split; [exact B|exact Logic.I]. }
  assert (V : forall z, (0 <= z < 10 ^ 38)%Z -> big_row big_leaf big_table (big_line z)).
  { intros z Z. apply W. split; eexists; (split; [reflexivity|]); [cbn; lia|lia]. }
  exists t. split; auto. split; [apply V; lia|]. split; [apply V; lia|].
  rewrite (C112_rows_partial _ _ _ (big_line (3 * 10 ^ 9)) L E) by (apply V; lia).
  rewrite (C112_rows_partial _ _ _ (big_line (35 * 10 ^ 8)) L E) by (apply V; lia). rewrite !W. split.
  - split; [exact Logic.I|]. exists 3%Z. reflexivity.
  - intros [_ (z & X)]. lia.
Qed.

(** ** C113: values of Hive columns *)
(** The values of the type that is read are exactly these. *)
Theorem C113_rows_partial : forall env name cols t row, hive_to_recap name cols = Ok t ->
  (holds env t (DRow row) <-> hive_row hive_taken cols row).
Proof. exact hive_rows. Qed.
Print Assumptions C113_rows_partial.
Theorem C113_kept_partial : forall h, hive_safe h -> forall v, hive_in hive_stored h v -> hive_in hive_taken h v.
Proof. exact hive_kept. Qed.
Print Assumptions C113_kept_partial.
Theorem C113_lost_refuted :
  (forall n, (1 <= n)%Z -> exists v, (hive_stored (HVarchar n) v /\ ~ hive_taken (HVarchar n) v) /\
     (hive_stored (HChar n) v /\ ~ hive_taken (HChar n) v)) /\
  (forall p, p = HTimestamp \/ p = HTimestampLocalTz ->
     exists v, hive_stored (HPrim p) v /\ ~ hive_taken (HPrim p) v).
Proof. exact hive_lost. Qed.
Print Assumptions C113_lost_refuted.
Definition hive_table : list hcolumn :=
  [mkHCol "id" (HPrim HLong) None;
   mkHCol "u" (HUnion [HPrim HShort; HUnion [HPrim HBoolean; HStruct ["a"] [HList (HDecimal 3 1)]]]) (Some "two kinds")].
Definition hive_line (v : datum) : list (string * datum) := [("id", DNull); ("u", v)].
Example C113_case : exists t, hive_to_recap "t" hive_table = Ok t /\ Forall (fun c => hive_safe (hc_type c)) hive_table /\
  holds (names_in []) t (DRow (hive_line (DRow [("a", DList [DNumber 999 1; DNull])]))) /\
  holds (names_in []) t (DRow (hive_line (DBool true))) /\
  ~ holds (names_in []) t (DRow (hive_line (DRow [("a", DList [DNumber 1000 1])]))).
Proof.
  destruct (hive_to_recap "t" hive_table) as [t|e] eqn:E; [|vm_compute in E; discriminate].
  exists t. split; auto. split.
  { repeat constructor; discriminate. }
  rewrite !(C113_rows_partial _ _ _ _ _ E). split; [|split].
  - constructor; [cbn; auto|]. constructor; [|constructor]. split; [reflexivity|]. right. cbn [snd hc_type hive_in].
    right. left. right. left. eexists. split; [reflexivity|]. split; [reflexivity|]. split; [|reflexivity].
    right. eexists. split; [reflexivity|]. intros w [<-|[<-|[]]]; [right|left; reflexivity].
    exists 999%Z, 1%Z, 999%Z. split; [reflexivity|]. split; [reflexivity|lia].
  - constructor; [cbn; auto|]. constructor; [|constructor]. split; [reflexivity|]. right. cbn [snd hc_type hive_in].
    right. left. left. exists true. reflexivity.
  - intros H. inversion H as [|? ? ? ? _ H1]; subst. inversion H1 as [|? ? ? ? [_ X] _]; subst. cbn in X.
    destruct X as [X|[(z & X & _)|[[(b & X)|[(row & X & Y)|[]]]|[]]]]; try discriminate X. injection X as <-.
    destruct Y as (_ & [X|(l & X & Y)] & _); [discriminate|]. injection X as <-.
    destruct (Y _ (or_introl eq_refl)) as [X|(u & k & z & X & S & B)]; [discriminate|]. injection X as <- <-.
    unfold same_number in S. lia.
Qed.
