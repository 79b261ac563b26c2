(** C123: the formats in which the schema of a table can be printed. *)
From Coq Require Import String Ascii List NArith ZArith QArith Bool Lia.
From Verif Require Import PyVal PyValFacts RType Registry FromDict ToDict SpecTypes SpecJson Url Dbapi SpecDb DbapiFacts DbapiMore
  BigQuery Hive SpecHive HiveFacts HiveMore SpecPrinted Avro AvroProps JsonSchema Proto Commands PrintedFormats HiveFormats Properties_Db Properties_Printed.
Import ListNotations.
Open Scope nat_scope.
Open Scope string_scope.
Open Scope list_scope.

(** ** JSON Schema *)
Theorem C123_json_partial : forall p cols ns R R' t,
  db_parser p -> Forall2 called cols ns -> NoDup ns -> to_recap p cols R = (R', Ok t) ->
  exists d ps, schema_output FJson t = Ok (ODocument (PDict d))
    /\ dget "type" d = Some (PStr "object") /\ dget "properties" d = Some (PDict ps) /\ dkeys ps = ns
    /\ forall n, required_name d n -> In n ns.
Proof.
  intros p cols ns R R' t DB CA ND H. destruct (table_json p cols ns R R' t DB CA H) as (bs & fs & d & ps & _ & _ & _ & _ & _ & J & T & P & K & RQ).
  exists d, ps. unfold schema_output. rewrite J. repeat split; auto. intros n Q. apply RQ in Q as (f & I & _). eapply in_combine_r. exact I.
Qed.
Print Assumptions C123_json_partial.

(** MySQL, Snowflake and PostgreSQL: exactly the columns that cannot be null are required. *)
Theorem C123_required_partial : forall p cols ns R R' t d i col n,
  strict_parser p -> Forall2 called cols ns -> NoDup ns -> to_recap p cols R = (R', Ok t) ->
  schema_output FJson t = Ok (ODocument (PDict d)) -> nth_error cols i = Some col -> nth_error ns i = Some n ->
  (required_name d n <-> ~ nullable_column col).
Proof.
  intros p cols ns R R' t d i col n SP CA ND H S C N. assert (DB : db_parser p) by (destruct SP; constructor).
  destruct (table_required p cols ns R R' t d i col n DB CA ND H S C N) as (R1 & R2 & b & f & PB & F & FS & RQ).
  rewrite RQ, (optional_column col b f F (strict_scalar p col R1 R2 b SP PB) FS). reflexivity.
Qed.
Print Assumptions C123_required_partial.

(** SQLite: a column of numeric affinity is required even if it can be null. *)
Theorem C123_required_refuted : forall cols ns R R' t d i col n ty,
  Forall2 called cols ns -> NoDup ns -> to_recap (pure sqlite_type) cols R = (R', Ok t) ->
  schema_output FJson t = Ok (ODocument (PDict d)) -> nth_error cols i = Some col -> nth_error ns i = Some n ->
  dget "TYPE" col = Some (PStr ty) -> determined ty ClassNumeric -> required_name d n.
Proof.
  intros cols ns R R' t d i col n ty CA ND H S C N T D.
  destruct (table_required _ cols ns R R' t d i col n db_sqlite CA ND H S C N) as (R1 & R2 & b & f & PB & F & FS & RQ).
  apply RQ. eapply numeric_required; eauto. eapply sqlite_numeric; eauto. unfold pure in PB. injection PB; auto.
Qed.
Print Assumptions C123_required_refuted.

(** PostgreSQL: the definition of the type of an array column, to which the column refers, refers to nothing but itself. *)
Theorem C123_arrays_refuted : forall namespace cols ns R R' t d i col n,
  Forall2 called cols ns -> NoDup ns -> to_recap (pg_type false namespace) cols R = (R', Ok t) ->
  schema_output FJson t = Ok (ODocument (PDict d)) -> nth_error cols i = Some col -> nth_error ns i = Some n -> array_column col ->
  exists ps p, dget "properties" d = Some (PDict ps) /\ dget n ps = Some (PDict p)
    /\ dget "$ref" p = Some (pointer (array_alias namespace n))
    /\ dget (array_alias namespace n) (definitions d) = Some (PDict [("$ref", pointer (array_alias namespace n))]).
Proof. exact pg_loops. Qed.
Print Assumptions C123_arrays_refuted.

Theorem C123_bigquery_partial : forall fields ns t, Forall2 bq_called fields ns -> NoDup ns -> bq_to_recap fields = Ok t ->
  exists d ps, schema_output FJson t = Ok (ODocument (PDict d))
    /\ dget "type" d = Some (PStr "object") /\ dget "properties" d = Some (PDict ps) /\ dkeys ps = ns
    /\ forall i f n, nth_error fields i = Some f -> nth_error ns i = Some n -> (required_name d n <-> bq_mode f <> "NULLABLE").
Proof. exact bq_json. Qed.
Print Assumptions C123_bigquery_partial.

(** All columns of a Hive table can be NULL.  Those of type void, and those of union types that are
    not read as null and one other type, are required nevertheless. *)
Theorem C123_hive_partial : forall name cols t,
  Forall (fun c => hc_name c <> "" /\ hive_called (hc_type c)) cols -> NoDup (map hc_name cols) -> hive_to_recap name cols = Ok t ->
  exists d ps, schema_output FJson t = Ok (ODocument (PDict d))
    /\ dget "type" d = Some (PStr "object") /\ dget "properties" d = Some (PDict ps) /\ dkeys ps = map hc_name cols
    /\ forall i col f, nth_error cols i = Some col -> nth_error (children t) i = Some f ->
       (required_name d (hc_name col) <->
        hc_type col = HPrim HVoid \/ exists hs, hc_type col = HUnion hs /\ List.length (children f) <> 2).
Proof. exact hive_json. Qed.
Print Assumptions C123_hive_partial.
Theorem C123_hive_required_refuted : forall name cols t d i col f,
  Forall (fun c => hc_name c <> "" /\ hive_called (hc_type c)) cols -> NoDup (map hc_name cols) -> hive_to_recap name cols = Ok t ->
  schema_output FJson t = Ok (ODocument (PDict d)) -> nth_error cols i = Some col -> nth_error (children t) i = Some f ->
  hc_type col = HPrim HVoid \/ hc_type col = HUnion [HPrim HInt; HPrim HString] ->
  accepts_null f /\ required_name d (hc_name col).
Proof.
  intros name cols t d i col f C ND H D Hc Hf T.
  destruct (hive_json name cols t C ND H) as (d' & ps & D' & _ & _ & _ & RQ). rewrite D in D'. injection D' as <-.
  destruct (hive_table_spec _ _ _ H) as (c & fs & -> & _ & F). cbn [children] in Hf.
  destruct (Forall2_at _ _ _ _ _ F Hc) as (g & Hg & HF). rewrite Hf in Hg. injection Hg as <-.
  split; [apply (hfd_null _ _ HF)|]. apply (RQ i col f Hc Hf). destruct T as [T|T]; [now left|]. right. eexists. split; [exact T|].
  unfold hive_to_recap in H. destruct (rmap hive_column cols) as [fs'|] eqn:E; cbn [rbind] in H; [|discriminate].
  assert (F2 : Forall2 (fun c f => hive_column c = Ok f) cols fs') by (eapply rmap_forall2; [|exact E]; auto).
  injection H as <- <-. destruct (Forall2_at _ _ _ _ _ F2 Hc) as (g & Hg & HG). rewrite Hf in Hg. injection Hg as <-.
  unfold hive_column in HG. rewrite T in HG. cbn in HG. injection HG as <-. cbn. discriminate.
Qed.
Print Assumptions C123_hive_required_refuted.

(** ** Protobuf: no table of any database can be printed. *)
Theorem C123_protobuf_refuted :
  (forall p cols R R' t, db_parser p -> to_recap p cols R = (R', Ok t) -> schema_output FProtobuf t = Err AssertionError) /\
  (forall fields t, bq_to_recap fields = Ok t -> schema_output FProtobuf t = Err AssertionError) /\
  (forall name cols t, hive_to_recap name cols = Ok t -> schema_output FProtobuf t = Err AssertionError).
Proof.
  split; [|split].
  - intros p cols R R' t DB H. destruct (columns_to_fields _ _ _ _ _ DB H) as (bs & fs & -> & _). reflexivity.
  - intros fields t H. unfold bq_to_recap in H. apply rbind_Ok in H as (fs & _ & H). injection H; intros <-. reflexivity.
  - intros name cols t H. unfold hive_to_recap in H. apply rbind_Ok in H as (fs & _ & H). injection H; intros <-. reflexivity.
Qed.
Print Assumptions C123_protobuf_refuted.

(** ** Avro: the record has no name, which Avro demands, unless the table is one of Hive. *)
Theorem C123_avro_refuted :
  (forall p cols R R' t v, db_parser p -> to_recap p cols R = (R', Ok t) -> schema_output FAvro t = Ok (ODocument v) ->
     exists o, v = PDict o /\ dget "name" o = None) /\
  (forall fields t v, bq_to_recap fields = Ok t -> schema_output FAvro t = Ok (ODocument v) ->
     exists o, v = PDict o /\ dget "name" o = None).
Proof.
  assert (G : forall fs v, schema_output FAvro (TStruct c0 fs) = Ok (ODocument v) -> exists o, v = PDict o /\ dget "name" o = None).
  { intros fs v H. unfold schema_output in H. apply rbind_Ok in H as (w & H & E). injection E; intros; subst w.
    destruct (from_dicts _ _ _ H) as [o ->]. exists o. split; auto. rewrite (name_written builtin_aliases (TStruct c0 fs) o); auto. }
  split.
  - intros p cols R R' t v DB H. destruct (columns_to_fields _ _ _ _ _ DB H) as (bs & fs & -> & _). apply G.
  - intros fields t v H. unfold bq_to_recap in H. apply rbind_Ok in H as (fs & _ & H). injection H; intros <-. apply G.
Qed.
Print Assumptions C123_avro_refuted.
(** A Hive table becomes a record with the name of the table. *)
Theorem C123_avro_hive_partial : forall name cols t v, name <> "" -> hive_to_recap name cols = Ok t ->
  schema_output FAvro t = Ok (ODocument v) -> exists o, v = PDict o /\ dget "name" o = Some (PStr name).
Proof.
  intros name cols t v NE H S. unfold hive_to_recap in H. apply rbind_Ok in H as (fs & _ & H). injection H; intros <-.
  unfold schema_output in S. apply rbind_Ok in S as (w & S & E). injection E; intros; subst w.
  destruct (from_dicts _ _ _ S) as [o ->]. exists o. split; auto. erewrite (name_written builtin_aliases _ o); [|  |exact S]; [|reflexivity].
  cbn. destruct name; [congruence|reflexivity].
Qed.
Print Assumptions C123_avro_hive_partial.
(** A BigQuery table with a text column of any length cannot be printed at all. *)
Theorem C123_avro_text_refuted : forall fields t f, bq_to_recap fields = Ok t -> In f fields ->
  In (bq_type f) ["STRING"; "JSON"; "BYTES"] -> bq_max_length f = PNone -> forall v, schema_output FAvro t <> Ok v.
Proof.
  intros fields t f H I T ML v S. unfold bq_to_recap in H. apply rbind_Ok in H as (fs & M & H). injection H; intros <-.
  unfold schema_output in S. apply rbind_Ok in S as (w & S & _). unfold avro_from in S. apply rbind_Ok in S as (u & S & _). cbn [avro_from_f] in S.
  assert (X : exists g, In g fs /\ bq_to_field f = Ok g).
  { clear -M I. revert fs M. induction fields as [|x l IH]; intros fs M; [destruct I|]. cbn [rmap] in M.
    apply rbind_Ok in M as (g & G & M). apply rbind_Ok in M as (gs & M & E). injection E; intros <-.
    destruct I as [<-|I]; [exists g; split; [now left|auto]|]. destruct (IH I gs M) as (h & J & K). exists h. split; [now right|auto]. }
  destruct X as (g & J & G). destruct (tree_struct _ _ _ _ _ g S eq_refl J) as [y Y]. revert Y. eapply bq_no_avro; eauto.
Qed.
Print Assumptions C123_avro_text_refuted.

(** ** Cases *)
Example C123_case :
  Forall2 called my_table ["id"; "email"; "price"; "at"] /\ NoDup ["id"; "email"; "price"; "at"] /\
  match to_recap (pure mysql_type) my_table builtin_aliases with
  | (_, Ok t) => schema_output FJson t = Ok (ODocument (PDict
      [("type", PStr "object");
       ("properties", PDict
          [("id", PDict [("type", PStr "integer")]);
           ("email", PDict [("default", PNone); ("type", PStr "string")]);
           ("price", PDict [("default", PStr "0.00"); ("type", PStr "string"); ("format", PStr "byte")]);
           ("at", PDict [("type", PStr "integer")])]);
       ("required", PList [PStr "id"; PStr "at"])]))
  | _ => False
  end.
Proof.
  split; [repeat constructor; discriminate|]. split; [repeat constructor; cbn; intuition discriminate|]. vm_compute. reflexivity.
Qed.
Example C123_pg_case : Forall2 called pg_tags ["id"; "tags"] /\
  match to_recap (pg_type false "_root") pg_tags builtin_aliases with
  | (_, Ok t) => schema_output FJson t = Ok (ODocument (PDict
      [("type", PStr "object");
       ("properties", PDict
          [("id", PDict [("type", PStr "integer")]);
           ("tags", PDict [("default", PNone); ("$ref", PStr "#/$defs/_root.tags")])]);
       ("required", PList [PStr "id"]);
       ("$defs", PDict [("_root.tags", PDict [("$ref", PStr "#/$defs/_root.tags")])])]))
  | _ => False
  end.
Proof. split; [repeat constructor; discriminate|]. vm_compute. reflexivity. Qed.
Definition numeric_column (n : string) : column :=
  [("COLUMN_NAME", PStr n); ("TYPE", PStr "DECIMAL(5,2)"); ("IS_NULLABLE", PStr "YES"); ("COLUMN_DEFAULT", PNone);
   ("CHARACTER_OCTET_LENGTH", PNone); ("NUMERIC_PRECISION", PInt 5)].
Example C123_numeric_case : nullable_column (numeric_column "price") /\ determined "DECIMAL(5,2)" ClassNumeric /\
  match to_recap (pure sqlite_type) [numeric_column "price"] builtin_aliases with
  | (_, Ok t) => match schema_output FJson t with Ok (ODocument (PDict d)) => required_name d "price" | _ => False end
  | _ => False
  end.
Proof.
  split; [exists "YES"; split; [reflexivity|now apply nullable_upper]|]. split; [exact (affinity_rules "DECIMAL(5,2)")|].
  vm_compute. eexists. split; [reflexivity|]. now left.
Qed.
Example C123_bigquery_case : Forall2 bq_called nested ["id"; "address"] /\
  (exists t d, bq_to_recap nested = Ok t /\ schema_output FJson t = Ok (ODocument d) /\ forall v, schema_output FAvro t <> Ok v) /\
  (exists t, bq_to_recap described = Ok t /\ forall v, schema_output FAvro t <> Ok v).
Proof.
  split.
  - repeat (first [apply Forall2_nil | apply Forall2_cons]); (apply bq_called_intro; [reflexivity|discriminate|]); intros g I; cbn in I; [destruct I|].
    destruct I as [<-|[<-|[]]]; eexists; (apply bq_called_intro; [reflexivity|discriminate|]); intros h J; cbn in J; [destruct J|].
    destruct J as [<-|[]]. eexists. apply bq_called_intro; [reflexivity|discriminate|]. intros k [].
  - split; [do 2 eexists; (split; [vm_compute; reflexivity|]); (split; [vm_compute; reflexivity|])|eexists; (split; [vm_compute; reflexivity|])];
      intros v H; vm_compute in H; discriminate H.
Qed.
Example C123_hive_case : match hive_to_recap "orders" [mkHCol "id" (HPrim HLong) None] with
  | Ok t => exists v, schema_output FAvro t = Ok (ODocument v) /\ schema_output FProtobuf t = Err AssertionError
  | _ => False
  end.
Proof. vm_compute. eauto. Qed.
Example C123_hive_json_case : Forall (fun c => hc_name c <> "" /\ hive_called (hc_type c)) hive_table /\ NoDup (map hc_name hive_table)
  /\ exists t d, hive_to_recap "users" hive_table = Ok t /\ schema_output FJson t = Ok (ODocument (PDict d))
  /\ dget "required" d = Some (PList [PStr "value"; PStr "nothing"]).
Proof.
  split; [repeat (constructor; [split; [discriminate|repeat (constructor || discriminate)]|]); constructor|].
  split; [repeat constructor; cbn; intuition discriminate|].
  eexists _, _. split; [vm_compute; reflexivity|]. split; vm_compute; reflexivity.
Qed.
