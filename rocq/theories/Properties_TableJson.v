(** C125: rows of tables and the JSON schemas that are printed for the tables. *)
From Coq Require Import String Ascii List NArith ZArith QArith Bool Lia.
From Verif Require Import PyVal RType Registry FromDict SpecTypes SpecDb SpecPrinted SpecJson SpecInstances SpecRows SpecTableJson
  Dbapi DbapiFacts DbapiMore Url JsonSchema Commands RowFacts RowPostgres TableJson ArrayJson.
From Verif Require Properties_Rows Properties_Formats Properties_Db.
Import ListNotations.
Open Scope nat_scope.
Open Scope string_scope.
Open Scope list_scope.

(** ** The objects that are accepted: those with the columns that cannot be NULL and with the JSON types of the columns *)
Theorem C125_mysql_objects_partial : forall ds cols R R' t d o,
  Forall (fun d => my_legal (d_type d)) ds -> Forall2 (described my_type my_facts) ds cols -> named_columns ds ->
  to_recap (pure mysql_type) cols R = (R', Ok t) -> schema_output FJson t = Ok (ODocument (PDict d)) ->
  (accepts (PDict d) (PDict d) (PDict o) <-> table_object my_member ds o) /\
  (misfit my_member ds o -> rejects (PDict d) (PDict d) (PDict o)).
Proof.
  intros ds cols R R' t d o L D [ND NE]. eapply table_accepts; [exact db_mysql| |exact ND].
  eapply all_good; eauto. intros. eapply my_good; eauto.
Qed.
Print Assumptions C125_mysql_objects_partial.
(** PostgreSQL without array columns. *)
Theorem C125_postgresql_objects_partial : forall enforce ns ds cols R R' t d o,
  Forall (fun d => pg_legal (d_type d) /\ not_array (d_type d)) ds -> Forall2 (described pg_decl pg_facts) ds cols -> named_columns ds ->
  to_recap (pg_type enforce ns) cols R = (R', Ok t) -> schema_output FJson t = Ok (ODocument (PDict d)) ->
  (accepts (PDict d) (PDict d) (PDict o) <-> table_object pg_member ds o) /\
  (misfit pg_member ds o -> rejects (PDict d) (PDict d) (PDict o)).
Proof.
  intros enforce ns ds cols R R' t d o L D [ND NE]. eapply table_accepts; [exact (db_postgresql enforce ns)| |exact ND].
  eapply (all_good _ pg_member _ (fun a => pg_legal a /\ not_array a)); eauto. intros. eapply pg_good; eauto.
Qed.
Print Assumptions C125_postgresql_objects_partial.
Theorem C125_snowflake_objects_partial : forall ds cols R R' t d o,
  Forall (fun d => sf_legal (d_type d)) ds -> Forall2 (described sf_type sf_facts) ds cols -> named_columns ds ->
  to_recap (pure snowflake_type) cols R = (R', Ok t) -> schema_output FJson t = Ok (ODocument (PDict d)) ->
  (accepts (PDict d) (PDict d) (PDict o) <-> table_object sf_member ds o) /\
  (misfit sf_member ds o -> rejects (PDict d) (PDict d) (PDict o)).
Proof.
  intros ds cols R R' t d o L D [ND NE]. eapply table_accepts; [exact db_snowflake| |exact ND].
  eapply all_good; eauto. intros. eapply sf_good; eauto.
Qed.
Print Assumptions C125_snowflake_objects_partial.

(** ** Rows whose NULLs are left out are accepted *)
Theorem C125_mysql_rows_partial : forall ds cols R R' t d row o,
  Forall (fun d => my_legal (d_type d)) ds -> Forall2 (described my_type my_facts) ds cols -> named_columns ds ->
  to_recap (pure mysql_type) cols R = (R', Ok t) -> schema_output FJson t = Ok (ODocument (PDict d)) ->
  in_table my_type my_values ds row -> row_object row o -> accepts (PDict d) (PDict d) (PDict o).
Proof.
  intros ds cols R R' t d row o L D N H S IT RO. apply (C125_mysql_objects_partial ds cols R R' t d o L D N H S).
  eapply row_fits; [exact my_fits|exact IT|apply N|exact RO].
Qed.
Print Assumptions C125_mysql_rows_partial.
Theorem C125_postgresql_rows_partial : forall enforce ns ds cols R R' t d row o,
  Forall (fun d => pg_legal (d_type d) /\ not_array (d_type d)) ds -> Forall2 (described pg_decl pg_facts) ds cols -> named_columns ds ->
  to_recap (pg_type enforce ns) cols R = (R', Ok t) -> schema_output FJson t = Ok (ODocument (PDict d)) ->
  in_table pg_decl pg_values ds row -> row_object row o -> accepts (PDict d) (PDict d) (PDict o).
Proof.
  intros enforce ns ds cols R R' t d row o L D N H S IT RO. apply (C125_postgresql_objects_partial enforce ns ds cols R R' t d o L D N H S).
  eapply (row_fits pg_member (fun a v => not_array a /\ pg_values a v)); [intros a v [A V]; now apply pg_fits| |apply N|exact RO].
  clear -L IT. induction IT as [|c [n v] ds row [E X] IT IH]; [constructor|]. inversion L as [|? ? [_ NA] L']; subst. constructor; [|now apply IH].
  split; [exact E|]. destruct X as [X|X]; [now left|right; now split].
Qed.
Print Assumptions C125_postgresql_rows_partial.
Theorem C125_snowflake_rows_partial : forall ds cols R R' t d row o,
  Forall (fun d => sf_legal (d_type d)) ds -> Forall2 (described sf_type sf_facts) ds cols -> named_columns ds ->
  to_recap (pure snowflake_type) cols R = (R', Ok t) -> schema_output FJson t = Ok (ODocument (PDict d)) ->
  in_table sf_type sf_values ds row -> row_object row o -> accepts (PDict d) (PDict d) (PDict o).
Proof.
  intros ds cols R R' t d row o L D N H S IT RO. apply (C125_snowflake_objects_partial ds cols R R' t d o L D N H S).
  eapply row_fits; [exact sf_fits|exact IT|apply N|exact RO].
Qed.
Print Assumptions C125_snowflake_rows_partial.

(** ** Rows that are rejected *)
(** A NULL that is written as null, in any MySQL table. *)
Theorem C125_null_refuted : forall ds cols R R' t d c o,
  Forall (fun d => my_legal (d_type d)) ds -> Forall2 (described my_type my_facts) ds cols -> named_columns ds ->
  to_recap (pure mysql_type) cols R = (R', Ok t) -> schema_output FJson t = Ok (ODocument (PDict d)) ->
  In c ds -> d_null c = true -> dget (d_name c) o = Some PNone -> rejects (PDict d) (PDict d) (PDict o).
Proof.
  intros ds cols R R' t d c o L D N H S I _ X. apply (C125_mysql_objects_partial ds cols R R' t d o L D N H S).
  exists c. split; auto. right. exists PNone. split; auto. destruct (d_type c); cbn [my_member takes]; intros T; inversion T; try discriminate; contradiction.
Qed.
Print Assumptions C125_null_refuted.
(** An instant that is written as a text, as JSON Schema's own format "date-time" has it. *)
Theorem C125_instant_refuted : forall ds cols R R' t d c p o s,
  Forall (fun d => my_legal (d_type d)) ds -> Forall2 (described my_type my_facts) ds cols -> named_columns ds ->
  to_recap (pure mysql_type) cols R = (R', Ok t) -> schema_output FJson t = Ok (ODocument (PDict d)) ->
  In c ds -> d_type c = MyDatetime p \/ d_type c = MyTimestamp p -> dget (d_name c) o = Some (PStr s) ->
  rejects (PDict d) (PDict d) (PDict o).
Proof.
  intros ds cols R R' t d c p o s L D N H S I T X. apply (C125_mysql_objects_partial ds cols R R' t d o L D N H S).
  exists c. split; auto. right. exists (PStr s). split; auto. destruct T as [-> | ->]; cbn [my_member takes]; intros Y; inversion Y; contradiction.
Qed.
Print Assumptions C125_instant_refuted.
(** SQLite: every whole number and every text in a column of numeric affinity (NUMERIC, DECIMAL, BOOLEAN, DATE, ...). *)
Theorem C125_sqlite_refuted : forall cols ns R R' t d i col n ty o x,
  Forall2 called cols ns -> NoDup ns -> to_recap (pure sqlite_type) cols R = (R', Ok t) ->
  schema_output FJson t = Ok (ODocument (PDict d)) -> nth_error cols i = Some col -> nth_error ns i = Some n ->
  dget "TYPE" col = Some (PStr ty) -> determined ty ClassNumeric ->
  dget n o = Some x -> whole_or_text x -> rejects (PDict d) (PDict d) (PDict o).
Proof. exact sqlite_numeric_rejects. Qed.
Print Assumptions C125_sqlite_refuted.

(** PostgreSQL: no object that has a member for an array column is accepted, whatever the member is.
    If the array cannot be NULL, nothing is accepted at all.  (A schema could have an id only in the
    default of a column.) *)
Theorem C125_arrays_refuted : forall namespace cols ns R R' t d i col n,
  Forall2 called cols ns -> NoDup ns -> to_recap (pg_type false namespace) cols R = (R', Ok t) ->
  schema_output FJson t = Ok (ODocument (PDict d)) -> (forall s, ~ has_id (PDict d) s) ->
  nth_error cols i = Some col -> nth_error ns i = Some n -> array_column col ->
  (forall o x, dget n o = Some x -> ~ accepts (PDict d) (PDict d) (PDict o)) /\
  (~ nullable_column col -> forall v, ~ accepts (PDict d) (PDict d) v).
Proof. exact array_members. Qed.
Print Assumptions C125_arrays_refuted.

(** ** Cases *)
(** The id is one that the type that is read does not have (C108). *)
Definition my_line : list (string * datum) :=
  [("id", DInt 8388608); ("name", DNull); ("at", DInstant 946684800500 3); ("price", DNumber (-1234) 2)].
Definition my_object : list (string * pyval) :=
  [("id", PInt 8388608); ("at", PInt 946684800500); ("price", PStr "-12.34"); ("more", PBool true)].
Lemma my_case : exists t d, to_recap (pure mysql_type) (map (Properties_Rows.shown my_facts) Properties_Rows.my_table) [] = ([], Ok t) /\
  schema_output FJson t = Ok (ODocument (PDict d)) /\
  Forall (fun d => my_legal (d_type d)) Properties_Rows.my_table /\
  Forall2 (described my_type my_facts) Properties_Rows.my_table (map (Properties_Rows.shown my_facts) Properties_Rows.my_table) /\
  named_columns Properties_Rows.my_table.
Proof.
  eexists _, _. split; [vm_compute; reflexivity|]. split; [vm_compute; reflexivity|].
  split; [repeat constructor; cbn; lia|]. split; [Properties_Rows.columns|].
  split; [repeat constructor; cbn; intuition discriminate|repeat constructor; discriminate].
Qed.
Example C125_case : in_table my_type my_values Properties_Rows.my_table my_line /\ row_object my_line my_object /\
  exists t d, to_recap (pure mysql_type) (map (Properties_Rows.shown my_facts) Properties_Rows.my_table) [] = ([], Ok t) /\
    schema_output FJson t = Ok (ODocument (PDict d)) /\ accepts (PDict d) (PDict d) (PDict my_object) /\
    rejects (PDict d) (PDict d) (PDict (my_object ++ [("name", PNone)])) /\
    rejects (PDict d) (PDict d) (PDict (dset "at" (PStr "2000-01-01T00:00:00.5") my_object)) /\
    rejects (PDict d) (PDict d) (PDict (ddel "id" my_object)).
Proof.
  assert (IT : in_table my_type my_values Properties_Rows.my_table my_line).
  { apply Forall2_cons; [|apply Forall2_cons; [|apply Forall2_cons; [|apply Forall2_cons; [|apply Forall2_nil]]]]; (split; [reflexivity|]).
    - right. eexists. split; [reflexivity|]. cbn. lia.
    - left. auto.
    - right. eexists. split; [reflexivity|]. unfold year_1000, year_10000. lia.
    - right. eexists. split; [reflexivity|]. lia. }
  assert (RO : row_object my_line my_object).
  { intros n v I. cbn [In my_line] in I. destruct I as [[= <- <-]|[[= <- <-]|[[= <- <-]|[[= <- <-]|[]]]]].
    - eexists. split; reflexivity.
    - reflexivity.
    - eexists. split; [reflexivity|]. exists 946684800500%Z. reflexivity.
    - eexists. split; [reflexivity|]. eexists. reflexivity. }
  split; auto. split; auto. destruct my_case as (t & d & H & S & L & D & N). exists t, d. split; auto. split; auto. split; [|split; [|split]].
  - eapply C125_mysql_rows_partial; eauto.
  - eapply (C125_null_refuted _ _ _ _ _ _ (mkDecl "name" true (MyVarchar 2 4))); try eassumption; try reflexivity; right; now left.
  - eapply (C125_instant_refuted _ _ _ _ _ _ (mkDecl "at" false (MyDatetime 3)) 3%Z); try eassumption; try reflexivity; [right; right; now left|now left].
  - eapply C125_mysql_objects_partial; eauto. exists (mkDecl "id" false (MyInteger MyMedium true)). split; [now left|]. left. split; reflexivity.
Qed.
(** A table with an enumeration. *)
Definition pg_moods : list (decl pg_decl) :=
  [mkDecl "id" false (PgColumn PgInteger); mkDecl "mood" false (PgColumn (PgEnum "mood" ["sad"; "ok"])); mkDecl "ok" true (PgColumn PgBool)].
Example C125_postgresql_case : exists t d,
  to_recap (pg_type false "_root") (map (Properties_Rows.shown pg_facts) pg_moods) [] = ([], Ok t) /\ schema_output FJson t = Ok (ODocument (PDict d)) /\
  (forall s, accepts (PDict d) (PDict d) (PDict [("id", PFloat 1); ("mood", PStr s)]) <-> s = "sad" \/ s = "ok").
Proof.
  assert (L : Forall (fun d => pg_legal (d_type d) /\ not_array (d_type d)) pg_moods).
  { repeat constructor. cbn. discriminate. }
  assert (D : Forall2 (described pg_decl pg_facts) pg_moods (map (Properties_Rows.shown pg_facts) pg_moods)) by Properties_Rows.columns.
  assert (N : named_columns pg_moods) by (split; [repeat constructor; cbn; intuition discriminate|repeat constructor; discriminate]).
  eexists _, _. split; [vm_compute; reflexivity|]. split; [vm_compute; reflexivity|]. intros s.
  match goal with |- accepts (PDict ?d) _ (PDict ?o) <-> _ =>
    destruct (C125_postgresql_objects_partial false "_root" pg_moods (map (Properties_Rows.shown pg_facts) pg_moods) [] [] _ d o L D N ltac:(vm_compute; reflexivity) ltac:(vm_compute; reflexivity)) as [E _] end.
  rewrite E. split.
  - intros T. destruct (T _ (or_intror (or_introl eq_refl))) as [_ X]. destruct (X (PStr s) eq_refl) as (y & [= <-] & I). cbn in I. intuition.
  - intros X c I. destruct I as [<-|[<-|[<-|[]]]]; split; try discriminate; intros x [= <-].
    + apply (ty_integer _ 1). reflexivity.
    + exists s. split; auto. destruct X as [-> | ->]; cbn; auto.
Qed.
Example C125_sqlite_case : Forall2 called [Properties_Formats.numeric_column "price"] ["price"] /\ determined "DECIMAL(5,2)" ClassNumeric /\
  exists R' t d, to_recap (pure sqlite_type) [Properties_Formats.numeric_column "price"] [] = (R', Ok t) /\
    schema_output FJson t = Ok (ODocument (PDict d)) /\ whole_or_text (PInt 5) /\ whole_or_text (PStr "5.00").
Proof.
  split; [repeat constructor; discriminate|]. split; [exact (affinity_rules "DECIMAL(5,2)")|].
  eexists _, _, _. split; [vm_compute; reflexivity|]. split; [vm_compute; reflexivity|].
  split; [left; apply (ty_integer _ 5); reflexivity|right; eapply ty_string; reflexivity].
Qed.
Example C125_arrays_case : Forall2 called Properties_Db.pg_tags ["id"; "tags"] /\
  exists R' t d, to_recap (pg_type false "_root") Properties_Db.pg_tags builtin_aliases = (R', Ok t) /\
    schema_output FJson t = Ok (ODocument (PDict d)) /\ (forall s, ~ has_id (PDict d) s) /\
    ~ accepts (PDict d) (PDict d) (PDict [("id", PInt 1); ("tags", PList [PStr "a"; PStr "b"])]).
Proof.
  split; [exact (proj1 Properties_Formats.C123_pg_case)|]. eexists _, _, _. split; [vm_compute; reflexivity|]. split; [vm_compute; reflexivity|].
  match goal with |- (forall s, ~ has_id ?d s) /\ _ => assert (N : forall s, ~ has_id d s) end.
  { intros s (e & I & G). apply no_ids in I; [|vm_compute; reflexivity]. congruence. }
  split; [exact N|].
  match goal with |- ~ accepts (PDict ?d) _ (PDict ?o) =>
    refine (proj1 (C125_arrays_refuted "_root" Properties_Db.pg_tags ["id"; "tags"] builtin_aliases _ _ d 1 _ "tags"
      (proj1 Properties_Formats.C123_pg_case) ltac:(repeat constructor; cbn; intuition discriminate) ltac:(vm_compute; reflexivity)
      ltac:(vm_compute; reflexivity) N eq_refl eq_refl _) o (PList [PStr "a"; PStr "b"]) eq_refl) end.
  eexists. split; [reflexivity|]. repeat split; now left.
Qed.
