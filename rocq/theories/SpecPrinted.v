(** Vocabulary for printed schemas (C91), independent of the converters: which columns and fields
    are covered. *)
From Coq Require Import String Ascii List NArith ZArith Bool.
From Verif Require Import PyVal RType SpecTypes BigQuery Hive.
Import ListNotations.
Open Scope nat_scope.
Open Scope string_scope.
Open Scope list_scope.

(** A row of INFORMATION_SCHEMA.COLUMNS: a dict of values whose column has a name. *)
Definition named (col : list (string * pyval)) : Prop :=
  (NoDup (dkeys col) /\ Forall (fun kv => pwf (snd kv)) col) /\ dget "COLUMN_NAME" col <> Some PNone.

(** A BigQuery field whose length is in range and that has no description if it is nullable. *)
Inductive bq_plain : bq_field -> Prop :=
| bq_plain_intro fd :
    Forall pwf [bq_name fd; bq_description fd; bq_default fd; bq_max_length fd; bq_precision fd; bq_scale fd] ->
    (bq_mode fd = "NULLABLE" -> truthy (bq_description fd) = false) ->
    bq_max_length fd = PNone \/ between (bq_max_length fd) 1 9223372036854775807 ->
    Forall bq_plain (bq_fields fd) -> bq_plain fd.

(** The fields of all structs within a Hive type have names. *)
Inductive hive_called : htype -> Prop :=
| hca_prim p : hive_called (HPrim p)
| hca_decimal p s : hive_called (HDecimal p s)
| hca_varchar n : hive_called (HVarchar n)
| hca_char n : hive_called (HChar n)
| hca_list h : hive_called h -> hive_called (HList h)
| hca_map k v : hive_called k -> hive_called v -> hive_called (HMap k v)
| hca_union hs : Forall hive_called hs -> hive_called (HUnion hs)
| hca_struct names hs : Forall (fun n => n <> "") names -> Forall hive_called hs -> hive_called (HStruct names hs)
| hca_other : hive_called HOther.
(** A Hive column without a comment. *)
Definition uncommented (col : hcolumn) : Prop := hc_comment col = None \/ hc_comment col = Some "".

(** ** Printing in other formats (C123) *)
(** A column or a field that has a name. *)
Definition called (col : list (string * pyval)) (n : string) : Prop :=
  dget "COLUMN_NAME" col = Some (PStr n) /\ n <> "".
Inductive bq_called : bq_field -> string -> Prop :=
| bq_called_intro fd n : bq_name fd = PStr n -> n <> "" ->
    (forall g, In g (bq_fields fd) -> exists m, bq_called g m) -> bq_called fd n.
