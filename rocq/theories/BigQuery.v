(** BigQueryConverter: recap/converters/bigquery.py.

    A field is the part of google.cloud.bigquery.SchemaField that the converter reads.
    Simplification: field_type and mode are strings. *)
From Coq Require Import String Ascii List NArith ZArith QArith Bool.
From Verif Require Import PyVal RType Registry FromDict Nullable Dbapi.
Import ListNotations.
Open Scope nat_scope.
Open Scope string_scope.
Open Scope list_scope.

Inductive bq_field := BqField
  { bq_type : string; bq_mode : string; bq_name : pyval; bq_description : pyval;
    bq_default : pyval; bq_max_length : pyval; bq_precision : pyval; bq_scale : pyval;
    bq_fields : list bq_field }.

(** The cases without recursion, bigquery.py:21-70; None when no case matches. *)
Definition bq_scalar (f : bq_field) : option rtype :=
  let is l := str_in (bq_type f) l in
  if is ["STRING"; "JSON"] then Some (TString c0 (bq_max_length f) (PBool true))
  else if is ["BYTES"] then Some (TBytes c0 (bq_max_length f) (PBool true))
  else if is ["INT64"; "INTEGER"; "INT"; "SMALLINT"; "TINYINT"; "BYTEINT"] then Some (int_t 64 true)
  else if is ["FLOAT"; "FLOAT64"] then Some (float_t 64)
  else if is ["BOOLEAN"] then Some (TBool c0)
  else if is ["TIMESTAMP"; "DATETIME"] then Some (time_t "build.recap.Timestamp" 64 "microsecond")
  else if is ["TIME"] then Some (time_t "build.recap.Time" 32 "microsecond")
  else if is ["DATE"] then Some (time_t "build.recap.Date" 32 "day")
  else if is ["NUMERIC"; "DECIMAL"] then
    Some (decimal_t 16 (or_else (bq_precision f) (PInt 38)) (or_else (bq_scale f) (PInt 0)))
  else if is ["BIGNUMERIC"; "BIGDECIMAL"] then
    Some (decimal_t 32 (or_else (bq_precision f) (PInt 76)) (or_else (bq_scale f) (PInt 0)))
  else None.

Definition set_doc (d : pyval) (t : rtype) : rtype :=
  let c := get_c t in set_c t (mkC (c_logical c) (c_alias c) d (c_extra c)).

(** The rest of the loop body, bigquery.py:74-83. *)
Definition bq_finish (f : bq_field) (t : rtype) : res rtype :=
  let t1 := if String.eqb (bq_mode f) "REPEATED" then TList c0 t PNone (PBool true) else t in
  rbind (if String.eqb (bq_mode f) "NULLABLE" then snd (make_nullable t1) else Ok t1) (fun t2 =>
  let t3 := if truthy (bq_name f) then set_extra "name" (bq_name f) t2 else t2 in
  let t4 := if truthy (bq_description f) then set_doc (bq_description f) t3 else t3 in
  Ok (if truthy (bq_default f) then set_extra "default" (bq_default f) t4 else t4)).

(** One iteration of the loop, bigquery.py:19-85. *)
Fixpoint bq_to_field (f : bq_field) : res rtype :=
  let all := (fix all (l : list bq_field) : res (list rtype) :=
    match l with
    | [] => Ok []
    | x :: r => rbind (bq_to_field x) (fun t => rbind (all r) (fun ts => Ok (t :: ts)))
    end) in
  match bq_scalar f with
  | Some t => bq_finish f t
  | None =>
      if str_in (bq_type f) ["RECORD"; "STRUCT"] then
        rbind (all (bq_fields f)) (fun fs => bq_finish f (TStruct c0 fs))
      else Err ValueError
  end.

(** to_recap, bigquery.py:17-87 *)
Definition bq_to_recap (fields : list bq_field) : res rtype :=
  rbind (rmap bq_to_field fields) (fun fs => Ok (TStruct c0 fs)).
