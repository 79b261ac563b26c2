(** C131: the Avro schemas that are printed for tables, and the rows of the tables. *)
From Coq Require Import String Ascii List NArith ZArith QArith Bool Lia.
From Verif Require Import PyVal RType Registry SpecTypes Url Dbapi SpecDb DbapiMore BigQuery Hive Avro Commands SpecInstances SpecRows SpecAvroData SpecNested SpecHiveAvro HiveAvro.
Import ListNotations.
Open Scope nat_scope.
Open Scope string_scope.
Open Scope list_scope.

(** A Hive table with columns of these types is printed, and every row that it can store is a datum of the schema. *)
Theorem C131_printed_partial : forall name cols t, Forall (fun c => avro_shown (hc_type c)) cols -> hive_to_recap name cols = Ok t ->
  exists o, schema_output FAvro t = Ok (ODocument (PDict o)).
Proof. exact hive_avro_printed. Qed.
Print Assumptions C131_printed_partial.
Theorem C131_rows_partial : forall name cols t v row, name <> "" -> Forall (fun c => hc_name c <> "" /\ avro_shown (hc_type c)) cols ->
  hive_to_recap name cols = Ok t -> schema_output FAvro t = Ok (ODocument v) -> hive_row hive_stored cols row ->
  data "" v "" v (DRow row).
Proof. exact hive_avro_rows. Qed.
Print Assumptions C131_rows_partial.
(** A Hive table with a text of any length, an instant, an interval or a map, alone or inside another type, is not printed. *)
Theorem C131_hidden_refuted : forall name cols t c v, hive_to_recap name cols = Ok t -> In c cols -> avro_hidden (hc_type c) ->
  schema_output FAvro t <> Ok v.
Proof. exact hive_avro_hidden. Qed.
Print Assumptions C131_hidden_refuted.
(** A row with a struct is not a datum of what is printed. *)
Theorem C131_structs_refuted : forall name cols t v i c ns hs row n r, hive_to_recap name cols = Ok t ->
  schema_output FAvro t = Ok (ODocument v) -> nth_error cols i = Some c -> hc_type c = HStruct ns hs ->
  nth_error row i = Some (n, DRow r) -> ~ data "" v "" v (DRow row).
Proof. exact struct_rows. Qed.
Print Assumptions C131_structs_refuted.
(** What is printed for a table of another database has no rows among its data. *)
Theorem C131_unnamed_refuted :
  (forall p cols R R' t v row, db_parser p -> to_recap p cols R = (R', Ok t) -> schema_output FAvro t = Ok (ODocument v) ->
     ~ data "" v "" v (DRow row)) /\
  (forall fields t v row, bq_to_recap fields = Ok t -> schema_output FAvro t = Ok (ODocument v) -> ~ data "" v "" v (DRow row)).
Proof. exact unnamed_tables. Qed.
Print Assumptions C131_unnamed_refuted.

(** Samples with a name, prices and a reading that is a number, a truth value or a text. *)
Definition samples : list hcolumn :=
  [mkHCol "name" (HVarchar 2) (Some "short"); mkHCol "prices" (HList (HDecimal 5 2)) None;
   mkHCol "reading" (HUnion [HPrim HInt; HPrim HBoolean; HVarchar 1; HVarchar 2]) None].
(** A character of two bytes. *)
Definition accented : string := String (ascii_of_nat 195) (String (ascii_of_nat 169) "").
Definition a_sample : list (string * datum) :=
  [("name", DText (accented ++ accented)); ("prices", DList [DNumber 12345 2; DNull]); ("reading", DText accented)].
Lemma samples_shown : Forall (fun c => hc_name c <> "" /\ avro_shown (hc_type c)) samples.
Proof.
  constructor; [split; [discriminate|constructor; lia]|]. constructor; [split; [discriminate|constructor; constructor; lia]|].
  constructor; [|constructor]. split; [discriminate|]. constructor. repeat constructor; try lia; cbn; tauto.
Qed.
Example C131_case : exists t o, hive_to_recap "samples" samples = Ok t /\ schema_output FAvro t = Ok (ODocument (PDict o)) /\
  hive_row hive_stored samples a_sample /\ data "" (PDict o) "" (PDict o) (DRow a_sample).
Proof.
  assert (W : hive_row hive_stored samples a_sample).
  { constructor; [split; [reflexivity|right]|constructor; [split; [reflexivity|right]|constructor; [split; [reflexivity|right]|constructor]]].
    - eexists. split; [reflexivity|]. split; vm_compute; lia.
    - eexists. split; [reflexivity|]. intros w [<-|[<-|[]]]; [right|now left]. exists 12345%Z. split; [reflexivity|]. change (10 ^ 5)%Z with 100000%Z. lia.
    - right. right. left. exists accented. split; [reflexivity|]. split; vm_compute; lia. }
  assert (T : exists t, hive_to_recap "samples" samples = Ok t) by (eexists; vm_compute; reflexivity). destruct T as [t T].
  assert (S : Forall (fun c => avro_shown (hc_type c)) samples) by (eapply Forall_impl; [|exact samples_shown]; cbn; tauto).
  destruct (C131_printed_partial _ _ _ S T) as [o O]. exists t, o. split; auto. split; auto. split; auto.
  apply (C131_rows_partial "samples" samples t _ _ ltac:(discriminate) samples_shown T O W).
Qed.
(** Columns of the commonest type of text, and of structs. *)
Example C131_texts : forall v, (exists t, hive_to_recap "notes" [mkHCol "note" (HPrim HString) None] = Ok t) /\
  forall t, hive_to_recap "notes" [mkHCol "note" (HPrim HString) None] = Ok t -> schema_output FAvro t <> Ok v.
Proof.
  intros v. split; [eexists; vm_compute; reflexivity|]. intros t T. eapply C131_hidden_refuted; [exact T|now left|]. constructor. cbn. auto.
Qed.
Example C131_inner : forall v, (exists t, hive_to_recap "notes" [mkHCol "note" (HUnion [HPrim HInt; HList (HPrim HString)]) None] = Ok t) /\
  forall t, hive_to_recap "notes" [mkHCol "note" (HUnion [HPrim HInt; HList (HPrim HString)]) None] = Ok t -> schema_output FAvro t <> Ok v.
Proof.
  intros v. split; [eexists; vm_compute; reflexivity|]. intros t T. eapply C131_hidden_refuted; [exact T|now left|].
  apply ah_union with (HList (HPrim HString)); [cbn; auto|]. constructor. constructor. cbn. auto.
Qed.
Definition points : list hcolumn := [mkHCol "at" (HStruct ["x"; "y"] [HPrim HInt; HPrim HInt]) None].
Definition a_point (x y : Z) : list (string * datum) := [("at", DRow [("x", DInt x); ("y", DInt y)])].
Example C131_points : exists t o, hive_to_recap "points" points = Ok t /\ schema_output FAvro t = Ok (ODocument (PDict o)) /\
  forall x y, int_range 32 true x -> int_range 32 true y -> hive_row hive_stored points (a_point x y) /\ ~ data "" (PDict o) "" (PDict o) (DRow (a_point x y)).
Proof.
  assert (T : exists t, hive_to_recap "points" points = Ok t) by (eexists; vm_compute; reflexivity). destruct T as [t T].
  assert (O : exists o, schema_output FAvro t = Ok (ODocument (PDict o))).
  { vm_compute in T. injection T as <-. eexists. vm_compute. reflexivity. }
  destruct O as [o O]. exists t, o. split; auto. split; auto. intros x y X Y. split.
  - constructor; [|constructor]. split; [reflexivity|right]. eexists. split; [reflexivity|]. split; [reflexivity|]. split; [right; exists x; auto|]. split; [reflexivity|]. split; [right; exists y; auto|reflexivity].
  - exact (C131_structs_refuted "points" points t _ 0 _ _ _ (a_point x y) "at" _ T O eq_refl eq_refl eq_refl).
Qed.
Definition ids : list bq_field := [BqField "INT64" "REQUIRED" (PStr "id") PNone PNone PNone PNone PNone []].
Example C131_bigquery : exists t o, bq_to_recap ids = Ok t /\
  schema_output FAvro t = Ok (ODocument (PDict o)) /\ forall z, ~ data "" (PDict o) "" (PDict o) (DRow [("id", DInt z)]).
Proof.
  assert (T : exists t, bq_to_recap ids = Ok t) by (eexists; vm_compute; reflexivity). destruct T as [t T].
  assert (O : exists o, schema_output FAvro t = Ok (ODocument (PDict o))).
  { vm_compute in T. injection T as <-. eexists. vm_compute. reflexivity. }
  destruct O as [o O]. exists t, o. split; auto. split; auto. intros z. exact (proj2 C131_unnamed_refuted ids t _ _ T O).
Qed.
