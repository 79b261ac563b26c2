(** Objects that the JSON schemas of BigQuery and Hive tables should accept (C130); independent of
    recap/converters. *)
From Coq Require Import String Ascii List NArith ZArith QArith Bool.
From Verif Require Import PyVal RType SpecTypes SpecDb SpecInstances SpecRows SpecPrinted SpecTableJson SpecNested BigQuery Hive.
Import ListNotations.
Open Scope nat_scope.
Open Scope string_scope.
Open Scope list_scope.

(** ** BigQuery *)
(** The JSON type of a value: instants, days and times are counted, numerics and bytes are texts. *)
Inductive bq_json_type : string -> string -> Prop :=
| bj_text ty : In ty ["STRING"; "JSON"; "BYTES"; "NUMERIC"; "DECIMAL"; "BIGNUMERIC"; "BIGDECIMAL"] -> bq_json_type ty "string"
| bj_whole ty : In ty ["INT64"; "INTEGER"; "INT"; "SMALLINT"; "TINYINT"; "BYTEINT"; "TIMESTAMP"; "DATETIME"; "TIME"; "DATE"] ->
    bq_json_type ty "integer"
| bj_number ty : In ty ["FLOAT"; "FLOAT64"] -> bq_json_type ty "number"
| bj_truth : bq_json_type "BOOLEAN" "boolean".
(** One value of a field; a member for a field, which is an array if the field is repeated; an object with the
    members for some fields, of which only nullable ones may be absent.  Other members do not matter. *)
Inductive bq_value : bq_field -> pyval -> Prop :=
| bqv_scalar f ty x : bq_json_type (bq_type f) ty -> has_type x ty -> bq_value f x
| bqv_record f o : In (bq_type f) ["RECORD"; "STRUCT"] -> bq_object (bq_fields f) o -> bq_value f (PDict o)
with bq_member : bq_field -> pyval -> Prop :=
| bqm_repeated f l : bq_mode f = "REPEATED" -> (forall x, In x l -> bq_value f x) -> bq_member f (PList l)
| bqm_single f x : bq_mode f <> "REPEATED" -> bq_value f x -> bq_member f x
with bq_object : list bq_field -> list (string * pyval) -> Prop :=
| bqo_intro fs o :
    (forall g n, In g fs -> bq_name g = PStr n -> bq_mode g <> "NULLABLE" -> dget n o <> None) ->
    (forall g n x, In g fs -> bq_name g = PStr n -> dget n o = Some x -> bq_member g x) -> bq_object fs o.
(** Fields have names, and the fields of a record different ones. *)
Inductive bq_apart : list bq_field -> Prop :=
| bqa_intro fs ns : Forall2 bq_called fs ns -> NoDup ns -> (forall g, In g fs -> bq_apart (bq_fields g)) -> bq_apart fs.

(** ** Hive *)
Inductive hive_json_type : htype -> string -> Prop :=
| hj_null : hive_json_type (HPrim HVoid) "null"
| hj_truth : hive_json_type (HPrim HBoolean) "boolean"
| hj_whole p : In p [HByte; HShort; HInt; HLong; HDate; HTimestamp; HTimestampLocalTz] -> hive_json_type (HPrim p) "integer"
| hj_number p : In p [HFloat; HDouble] -> hive_json_type (HPrim p) "number"
| hj_text p : In p [HString; HBinary; HIntervalYearMonth; HIntervalDayTime] -> hive_json_type (HPrim p) "string"
| hj_decimal p s : hive_json_type (HDecimal p s) "string"
| hj_varchar n : hive_json_type (HVarchar n) "string"
| hj_char n : hive_json_type (HChar n) "string".
Definition hive_scalar (h : htype) : Prop := h <> HPrim HVoid /\ exists ty, hive_json_type h ty.
(** Unions are ones of scalar types; the fields of a struct have names, and different ones. *)
Inductive hive_apart : htype -> Prop :=
| ha_prim p : hive_apart (HPrim p)
| ha_decimal p s : hive_apart (HDecimal p s)
| ha_varchar n : hive_apart (HVarchar n)
| ha_char n : hive_apart (HChar n)
| ha_list h : hive_apart h -> hive_apart (HList h)
| ha_map k v : hive_apart k -> hive_apart v -> hive_apart (HMap k v)
| ha_struct ns hs : NoDup ns -> ~ In "" ns -> List.length ns = List.length hs -> Forall hive_apart hs -> hive_apart (HStruct ns hs)
| ha_union hs : hs <> [] -> Forall hive_scalar hs -> hive_apart (HUnion hs).
(** A union of at least two types. *)
Definition hive_choice (h : htype) : Prop := exists hs a b, h = HUnion hs /\ In a hs /\ In b hs /\ a <> b.
(** Values other than NULL, and objects with them: everything may be absent except what is always NULL and what has a
    choice of types.  A value of a choice has exactly one of its types, or is null. *)
Inductive hive_value : htype -> pyval -> Prop :=
| hvj_scalar h ty x : hive_json_type h ty -> has_type x ty -> hive_value h x
| hvj_list h l : (forall x, In x l -> hive_value h x) -> hive_value (HList h) (PList l)
| hvj_map k h o : (forall n x, dget n o = Some x -> hive_value h x) -> hive_value (HMap k h) (PDict o)
| hvj_struct ns hs o : hive_object (combine ns hs) o -> hive_value (HStruct ns hs) (PDict o)
| hvj_union hs h ty x : In h hs -> hive_json_type h ty -> has_type x ty ->
    (forall h' ty', In h' hs -> hive_json_type h' ty' -> has_type x ty' -> h' = h) -> hive_value (HUnion hs) x
| hvj_choice hs : hive_choice (HUnion hs) -> hive_value (HUnion hs) PNone
with hive_object : list (string * htype) -> list (string * pyval) -> Prop :=
| hvo_intro fs o : (forall n h, In (n, h) fs -> h = HPrim HVoid \/ hive_choice h -> dget n o <> None) ->
    (forall n h x, In (n, h) fs -> dget n o = Some x -> hive_value h x) -> hive_object fs o.
Definition hive_shape (cols : list hcolumn) : list (string * htype) := map (fun c => (hc_name c, hc_type c)) cols.
Definition hive_columns_apart (cols : list hcolumn) : Prop :=
  NoDup (map hc_name cols) /\ ~ In "" (map hc_name cols) /\ Forall (fun c => hive_apart (hc_type c)) cols.

(** ** Rows *)
(** Values of BigQuery and Hive as JSON: as for other databases, with arrays and objects.  NULL is left out of objects
    and is null elsewhere; the keys of a map are written as texts. *)
Inductive nested_json : datum -> pyval -> Prop :=
| nj_null : nested_json DNull PNone
| nj_leaf d x : json_datum d x -> nested_json d x
| nj_list l xs : Forall2 nested_json l xs -> nested_json (DList l) (PList xs)
| nj_map l o : (forall k v, In (k, v) l -> exists n x, dget n o = Some x /\ nested_json v x) ->
    (forall n x, dget n o = Some x -> exists k v, In (k, v) l /\ nested_json v x) -> nested_json (DMap l) (PDict o)
| nj_row row o : nested_object row o -> nested_json (DRow row) (PDict o)
with nested_object : list (string * datum) -> list (string * pyval) -> Prop :=
| no_intro row o : (forall n, In (n, DNull) row -> dget n o = None) ->
    (forall n d, In (n, d) row -> d <> DNull -> exists x, dget n o = Some x /\ nested_json d x) -> nested_object row o.

(** No NULL is an element of an array or a value of a map. *)
Inductive inner_full : datum -> Prop :=
| if_list l : (forall x, In x l -> x <> DNull /\ inner_full x) -> inner_full (DList l)
| if_map l : (forall k x, In (k, x) l -> x <> DNull /\ inner_full x) -> inner_full (DMap l)
| if_row row : (forall n x, In (n, x) row -> inner_full x) -> inner_full (DRow row)
| if_other d : match d with DList _ | DMap _ | DRow _ => False | _ => True end -> inner_full d.
(** Types without parts that are always NULL. *)
Inductive hive_solid : htype -> Prop :=
| hso_prim p : p <> HVoid -> hive_solid (HPrim p)
| hso_decimal p s : hive_solid (HDecimal p s)
| hso_varchar n : hive_solid (HVarchar n)
| hso_char n : hive_solid (HChar n)
| hso_list h : hive_solid h -> hive_solid (HList h)
| hso_map k v : hive_solid v -> hive_solid (HMap k v)
| hso_struct ns hs : Forall hive_solid hs -> hive_solid (HStruct ns hs).
