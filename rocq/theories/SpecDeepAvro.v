(** Avro records whose fields may be unions of nested types (C124); independent of recap/converters. *)
From Coq Require Import String Ascii List NArith ZArith Bool.
From Verif Require Import PyVal RType SpecAvro SpecAvroSchema SpecAvroData SpecConverted.
Import ListNotations.
Open Scope nat_scope.
Open Scope string_scope.
Open Scope list_scope.

(** Fields have a name without dots, no namespace and no logical type. *)
Definition field_head (o : attrs) : Prop :=
  exists n, dget "name" o = Some (PStr n) /\ n <> "" /\ no_dot n /\ dget "namespace" o = None /\ dget "logicalType" o = None.
(** The name of a record: the part after the last dot is not empty. *)
Definition record_name (d : attrs) : Prop :=
  exists n b, dget "name" d = Some (PStr n) /\ (n = b \/ exists a, n = (a ++ "." ++ b)%string) /\ no_dot b /\ b <> "".

(** Primitive types, dates, timestamps, decimals, enums, arrays and maps, and named records whose fields have a
    primitive type or are unions of such types, to any depth. *)
Inductive deep : pyval -> Prop :=
| deep_prim s : In s avro_prims -> deep (PStr s)
| deep_array d j : nameless d -> dget "logicalType" d = None -> dget "type" d = Some (PStr "array") -> dget "items" d = Some j ->
    deep j -> deep (PDict d)
| deep_map d j : nameless d -> dget "logicalType" d = None -> dget "type" d = Some (PStr "map") -> dget "values" d = Some j ->
    deep j -> deep (PDict d)
| deep_stamp d s l : nameless d -> In (s, l) [("int", "date"); ("long", "timestamp-millis"); ("long", "timestamp-micros")] ->
    dget "type" d = Some (PStr s) -> dget "logicalType" d = Some (PStr l) -> dget "size" d = None -> deep (PDict d)
| deep_decimal d p m : nameless d -> dget "type" d = Some (PStr "bytes") -> dget "logicalType" d = Some (PStr "decimal") ->
    dget "size" d = None -> digits_of d p m -> deep (PDict d)
| deep_enum d l : dget "logicalType" d = None -> dget "type" d = Some (PStr "enum") -> dget "symbols" d = Some (PList l) -> deep (PDict d)
| deep_inner d l : dget "logicalType" d = None -> dget "type" d = Some (PStr "record") -> record_name d ->
    dget "fields" d = Some (PList l) -> deep_fields l -> deep (PDict d)
with deep_fields : list pyval -> Prop :=
| df_nil : deep_fields []
| df_prim o s l : field_head o -> dget "type" o = Some (PStr s) -> In s avro_prims -> deep_fields l -> deep_fields (PDict o :: l)
| df_union o js l : field_head o -> dget "type" o = Some (PList js) -> deep_list js -> deep_fields l -> deep_fields (PDict o :: l)
with deep_list : list pyval -> Prop :=
| dl_nil : deep_list []
| dl_cons j l : deep j -> deep_list l -> deep_list (j :: l).
Definition deep_record (j : pyval) : Prop := deep j /\ exists d, j = PDict d /\ dget "type" d = Some (PStr "record").
(** A record with an array, a map, a record or an enum as the type of a field. *)
Definition direct_field (j : pyval) : Prop :=
  exists d l o e s k v, j = PDict d /\ dget "logicalType" d = None /\ dget "type" d = Some (PStr "record") /\ dget "fields" d = Some (PList l)
    /\ In (PDict o) l /\ dget "logicalType" o = None /\ dget "type" o = Some (PDict e)
    /\ dget "logicalType" e = None /\ dget "type" e = Some (PStr s) /\ dget k e = Some v
    /\ In (s, k) [("array", "items"); ("map", "values"); ("record", "fields"); ("enum", "symbols")].
