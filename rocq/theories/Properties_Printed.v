(** C91: the Recap document that is printed for a database schema can be read back. *)
From Coq Require Import String Ascii List NArith ZArith QArith Bool Lia.
From Verif Require Import PyVal RType Registry FromDict ToDict SpecTypes SpecCompact Equality
  Url Dbapi SpecDb DbapiMore DbRanges BigQuery Hive SpecHive SpecPrinted Commands Printed HivePrinted Properties_Db.
Import ListNotations.
Open Scope nat_scope.
Open Scope string_scope.
Open Scope list_scope.

(** ** C91 *)
Theorem C91_tables_partial : forall p cols R R' t,
  db_parser p -> Forall named cols -> Forall (sized p) cols -> to_recap p cols R = (R', Ok t) ->
  exists d, schema_output FRecap t = Ok (ODocument d)
    /\ forall R0, (forall a, In (PStr a) (defined_aliases t) -> ~ In a (dkeys R0)) ->
       exists R2 t', from_dict d R0 = (R2, Ok t') /\ same_meaning (names_in t) t t'.
Proof.
  intros p cols R R' t DB N S H. pose proof (table_printed p cols R R' t DB N S H) as P.
  destruct (P []) as (d & _ & _ & W & _); [intros a _ []|].
  exists (PDict d). unfold schema_output. rewrite W. split; [reflexivity|].
  intros R0 A. destruct (P R0 A) as (d' & R2 & t' & W' & F & M).
  rewrite W in W'. injection W' as <-. eauto.
Qed.
Print Assumptions C91_tables_partial.

Theorem C91_bigquery_partial : forall fields t,
  Forall bq_plain fields -> bq_to_recap fields = Ok t ->
  exists d, schema_output FRecap t = Ok (ODocument d)
    /\ forall R0, exists R2 t', from_dict d R0 = (R2, Ok t') /\ same_meaning builtin_ref t t'.
Proof.
  intros fields t B H. pose proof (bq_printed fields t B H) as P.
  destruct (P []) as (d & _ & _ & W & _).
  exists (PDict d). unfold schema_output. rewrite W. split; [reflexivity|].
  intros R0. destruct (P R0) as (d' & R2 & t' & W' & F & M).
  rewrite W in W'. injection W' as <-. eauto.
Qed.
Print Assumptions C91_bigquery_partial.

Theorem C91_hive_partial : forall name cols t,
  Forall (fun c => hive_sizes (hc_type c)) cols -> Forall uncommented cols -> hive_to_recap name cols = Ok t ->
  exists d, schema_output FRecap t = Ok (ODocument d)
    /\ forall R0, exists R2 t', from_dict d R0 = (R2, Ok t') /\ same_meaning builtin_ref t t'.
Proof.
  intros name cols t S U H. pose proof (hive_printed name cols t S U H) as P.
  destruct (P []) as (d & _ & _ & W & _).
  exists (PDict d). unfold schema_output. rewrite W. split; [reflexivity|].
  intros R0. destruct (P R0) as (d' & R2 & t' & W' & F & M).
  rewrite W in W'. injection W' as <-. eauto.
Qed.
Print Assumptions C91_hive_partial.

(** A CHAR(0) column is a string of at most zero bytes, and printing the table fails.  The
    description of a nullable BigQuery column is printed beside "optional", and reading gives it to
    the type of the column instead of the column. *)
Definition char0 : list column := [my_col "c" "char" "NO" (PInt 0) PNone PNone PNone PNone].
Definition described : list bq_field := [bq "zip" "STRING" "NULLABLE" "code" []].
Theorem C91_refuted :
  (exists R t, to_recap (pure mysql_type) char0 builtin_aliases = (R, Ok t)
     /\ schema_output FRecap t = Err ValueError)
  /\ (exists f f' d R2, bq_to_recap described = Ok (TStruct c0 [f])
     /\ schema_output FRecap (TStruct c0 [f]) = Ok (ODocument d)
     /\ from_dict d builtin_aliases = (R2, Ok (TStruct c0 [f']))
     /\ c_doc (get_c f) = PStr "code" /\ c_doc (get_c f') = PNone).
Proof.
  split.
  - eexists _, _. split; [vm_compute; reflexivity|]. vm_compute; reflexivity.
  - eexists _, _, _, _. split; [vm_compute; reflexivity|]. split; [vm_compute; reflexivity|].
    split; [vm_compute; reflexivity|]. split; reflexivity.
Qed.
Print Assumptions C91_refuted.

(** The comment of a Hive column moves in the same way. *)
Definition commented : list hcolumn := [mkHCol "id" (HPrim HLong) (Some "the key")].
Theorem C91_comment_refuted : exists t f f' d R2 c,
  hive_to_recap "users" commented = Ok t /\ children t = [f]
  /\ schema_output FRecap t = Ok (ODocument d)
  /\ from_dict d builtin_aliases = (R2, Ok (TStruct c [f']))
  /\ c_doc (get_c f) = PStr "the key" /\ c_doc (get_c f') = PNone.
Proof.
  eexists _, _, _, _, _, _. split; [vm_compute; reflexivity|]. split; [vm_compute; reflexivity|].
  split; [vm_compute; reflexivity|]. split; [vm_compute; reflexivity|]. split; reflexivity.
Qed.
Print Assumptions C91_comment_refuted.

(** A MySQL table, a PostgreSQL table with a two-dimensional array (whose document defines and
    refers to an alias), and a nested BigQuery table. *)
Ltac no_dup := repeat constructor; cbn; intuition discriminate.
Example C91_named : Forall named my_table /\ Forall named pg_tags.
Proof.
  split; repeat (constructor; [split; [split; [no_dup|repeat constructor]|discriminate]|]); constructor.
Qed.
Example C91_pg : match to_recap (pg_type false "_root") pg_tags builtin_aliases with
  | (_, Ok t) =>
      defined_aliases t = [PStr "_root.tags"]
      /\ schema_output FRecap t = Ok (ODocument (PDict
           [("type", PStr "struct");
            ("fields", PList
               [PDict [("type", PStr "int"); ("name", PStr "id"); ("bits", PInt 32)];
                PDict [("type", PStr "list"); ("alias", PStr "_root.tags");
                       ("values", PList [PDict [("type", PStr "string"); ("bytes", PInt 1073741824)];
                                         PStr "_root.tags"]);
                       ("name", PStr "tags"); ("optional", PBool true)]])]))
  | _ => False
  end.
Proof. vm_compute. repeat split. Qed.

Definition nested : list bq_field :=
  [bq "id" "INTEGER" "REQUIRED" "the key" [];
   bq "address" "RECORD" "REPEATED" "where"
     [bq "zip" "STRING" "NULLABLE" "" []; bq "geo" "STRUCT" "NULLABLE" "" [bq "x" "FLOAT" "REQUIRED" "" []]]].
Example C91_nested : Forall bq_plain nested /\ exists t, bq_to_recap nested = Ok t /\ t <> TStruct c0 [].
Proof.
  split.
  - assert (P : forall n ty m d fs, (m = "NULLABLE" -> d = "") -> Forall bq_plain fs -> bq_plain (bq n ty m d fs)).
    { intros n ty m d fs M F. constructor; cbn; auto; [repeat constructor|].
      intros E. rewrite (M E). reflexivity. }
    repeat (apply Forall_nil || apply Forall_cons || (apply P; [intros E; discriminate E || reflexivity|])).
  - eexists. split; [vm_compute; reflexivity|discriminate].
Qed.

(** A Hive table with a map, a nested union and a struct. *)
Definition hive_table : list hcolumn :=
  [mkHCol "id" (HPrim HLong) None;
   mkHCol "price" (HDecimal 10 2) (Some "");
   mkHCol "tags" (HMap (HPrim HString) (HList (HVarchar 20))) None;
   mkHCol "value" (HUnion [HPrim HInt; HUnion [HPrim HString; HPrim HInt]; HList (HPrim HDate)]) None;
   mkHCol "address" (HStruct ["zip"; "geo"] [HChar 5; HStruct ["x"] [HPrim HDouble]]) None;
   mkHCol "nothing" (HPrim HVoid) None].
Example C91_hive_table : Forall (fun c => hive_sizes (hc_type c)) hive_table /\ Forall uncommented hive_table
  /\ exists t, hive_to_recap "users" hive_table = Ok t /\ length (children t) = 6.
Proof.
  split; [repeat constructor; cbn; lia|]. split; [repeat (constructor; [first [left; reflexivity|right; reflexivity]|]); constructor|].
  eexists. split; [vm_compute; reflexivity|reflexivity].
Qed.
