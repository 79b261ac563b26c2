(** Vocabulary of the BigQuery properties, independent of the converter. *)
From Coq Require Import String Ascii List NArith ZArith Bool.
From Verif Require Import PyVal RType SpecTypes BigQuery SpecDb.
Import ListNotations.
Open Scope nat_scope.
Open Scope string_scope.
Open Scope list_scope.

(** Names and descriptions are kept. *)
Record bq_meta (fd : bq_field) (t : rtype) : Prop := {
  bm_name : forall s, bq_name fd = PStr s -> s <> "" -> extra "name" t = Some (PStr s);
  bm_doc : forall s, bq_description fd = PStr s -> s <> "" -> c_doc (get_c t) = PStr s;
  bm_default : forall s, bq_default fd = PStr s -> s <> "" -> extra "default" t = Some (PStr s)
}.

(** How the mode wraps the type of the values. *)
Inductive bq_shape : string -> rtype -> rtype -> Prop :=
| shape_nullable c base : bq_shape "NULLABLE" base (TUnion c [TNull c0; base])
| shape_repeated c base : bq_shape "REPEATED" base (TList c base PNone (PBool true))
| shape_required mode base t : mode <> "NULLABLE" -> mode <> "REPEATED" ->
    set_c t (get_c base) = base -> bq_shape mode base t.

(** [reads fd t]: the field [fd] with its subfields is faithfully read as [t]. *)
Inductive reads : bq_field -> rtype -> Prop :=
| reads_record fd fs t :
    In (bq_type fd) ["RECORD"; "STRUCT"] -> Forall2 reads (bq_fields fd) fs ->
    bq_shape (bq_mode fd) (TStruct c0 fs) t -> bq_meta fd t -> reads fd t
| reads_scalar fd base t :
    ~ In (bq_type fd) ["RECORD"; "STRUCT"] -> children base = [] -> ~ accepts_null base ->
    bq_shape (bq_mode fd) base t -> bq_meta fd t -> reads fd t.

(** The field types the converter knows, at every level. *)
Definition bq_scalar_types : list string :=
  ["STRING"; "JSON"; "BYTES"; "INT64"; "INTEGER"; "INT"; "SMALLINT"; "TINYINT"; "BYTEINT"; "FLOAT";
   "FLOAT64"; "BOOLEAN"; "TIMESTAMP"; "DATETIME"; "TIME"; "DATE"; "NUMERIC"; "DECIMAL";
   "BIGNUMERIC"; "BIGDECIMAL"].
Inductive supported : bq_field -> Prop :=
| sup_scalar fd : In (bq_type fd) bq_scalar_types -> supported fd
| sup_record fd : In (bq_type fd) ["RECORD"; "STRUCT"] -> Forall supported (bq_fields fd) -> supported fd.
