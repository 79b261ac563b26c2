(** Vocabulary of the property of schemas that are read in one format and printed in another (C124);
    independent of recap/converters. *)
From Coq Require Import String Ascii List NArith ZArith QArith Bool.
From Verif Require Import PyVal SpecJson SpecAvro SpecAvroSchema.
Import ListNotations.
Open Scope nat_scope.
Open Scope string_scope.
Open Scope list_scope.

(** ** JSON schemas *)
(** Somewhere the schema describes a text. *)
Inductive json_text : pyval -> Prop :=
| jt_name : json_text (PStr "string")
| jt_type d : dget "type" d = Some (PStr "string") -> json_text (PDict d)
| jt_types d l j : dget "type" d = Some (PList l) -> In j l -> json_text j -> json_text (PDict d)
| jt_property d ps n j : dget "type" d = Some (PStr "object") -> dget "properties" d = Some (PDict ps) -> In (n, j) ps ->
    json_text j -> json_text (PDict d)
| jt_items d j : dget "type" d = Some (PStr "array") -> dget "items" d = Some j -> json_text j -> json_text (PDict d).
(** A schema without references and without empty names, in which the types of a list are names. *)
Definition self_contained (j : pyval) : Prop :=
  forall d, inside (PDict d) j -> dget "$ref" d = None /\ dget "$dynamicRef" d = None
    /\ (forall l x, dget "type" d = Some (PList l) -> In x l -> exists s, x = PStr s)
    /\ (forall ps, dget "properties" d = Some (PDict ps) -> ~ In "" (dkeys ps)).

(** ** Avro schemas *)
(** Somewhere the schema describes a text or bytes, without a logical type. *)
Inductive avro_text : pyval -> Prop :=
| at_name s : s = "string" \/ s = "bytes" -> avro_text (PStr s)
| at_type d s : dget "logicalType" d = None -> dget "type" d = Some (PStr s) -> s = "string" \/ s = "bytes" -> avro_text (PDict d)
| at_field d l j : dget "logicalType" d = None -> dget "type" d = Some (PStr "record") -> dget "fields" d = Some (PList l) ->
    In j l -> avro_text j -> avro_text (PDict d)
| at_items d j : dget "logicalType" d = None -> dget "type" d = Some (PStr "array") -> dget "items" d = Some j ->
    avro_text j -> avro_text (PDict d)
| at_values d j : dget "logicalType" d = None -> dget "type" d = Some (PStr "map") -> dget "values" d = Some j ->
    avro_text j -> avro_text (PDict d)
| at_branch d l j : dget "logicalType" d = None -> dget "type" d = Some (PList l) -> In j l -> avro_text j -> avro_text (PDict d)
| at_object d e : dget "logicalType" d = None -> dget "type" d = Some (PDict e) -> avro_text (PDict e) -> avro_text (PDict d).

(** A named record whose fields are primitive types and unions of primitive types. *)
Definition flat_type (j : pyval) : Prop :=
  (exists s, j = PStr s /\ In s avro_prims) \/ exists l, j = PList (map PStr l) /\ forall s, In s l -> In s avro_prims.
Definition flat_field (j : pyval) : Prop :=
  exists o n ty, j = PDict o /\ dget "name" o = Some (PStr n) /\ n <> "" /\ no_dot n /\ dget "namespace" o = None
    /\ dget "logicalType" o = None /\ dget "type" o = Some ty /\ flat_type ty.
Definition flat_record (j : pyval) : Prop :=
  exists d n b l, j = PDict d /\ dget "type" d = Some (PStr "record") /\ dget "logicalType" d = None
    /\ dget "name" d = Some (PStr n) /\ (n = b \/ exists a, n = (a ++ "." ++ b)%string) /\ no_dot b /\ b <> ""
    /\ dget "fields" d = Some (PList l) /\ Forall flat_field l.
