(** Rows of tables as JSON objects, and the objects that a JSON schema for a table should accept (C125);
    independent of recap/converters. *)
From Coq Require Import String Ascii List NArith ZArith QArith Bool.
From Verif Require Import PyVal RType SpecTypes SpecInstances SpecRows.
Import ListNotations.
Open Scope nat_scope.
Open Scope string_scope.
Open Scope list_scope.

(** ** Members of an object *)
(** A JSON type (as "type" of JSON Schema spells it), or one of some texts. *)
Inductive member := MType (ty : string) | MOneOf (labels : list string).
Definition takes (m : member) (x : pyval) : Prop :=
  match m with
  | MType ty => has_type x ty
  | MOneOf ls => exists s, x = PStr s /\ In s ls
  end.

(** Instants, days and times are counted; decimals and bytes are texts. *)
Definition my_member (t : my_type) : member :=
  match t with
  | MyInteger _ _ | MyYear | MyDatetime _ | MyTimestamp _ | MyDate | MyTime _ => MType "integer"
  | MyFloat | MyDouble => MType "number"
  | _ => MType "string"
  end.
Definition pg_member (t : pg_decl) : member :=
  match t with
  | PgColumn (PgSmall | PgInteger | PgBig | PgTimestamp _ _ | PgDate | PgTime _ | PgInterval) => MType "integer"
  | PgColumn (PgReal | PgDouble) => MType "number"
  | PgColumn PgBool => MType "boolean"
  | PgColumn (PgEnum _ ls) => MOneOf ls
  | PgColumn _ => MType "string"
  | PgArray _ _ => MType "array"
  end.
Definition sf_member (t : sf_type) : member :=
  match t with
  | SfDate | SfTimestamp _ _ | SfTime _ => MType "integer"
  | SfFloat => MType "number"
  | SfBool => MType "boolean"
  | _ => MType "string"
  end.

(** ** Objects *)
(** Every column that cannot be NULL is present, and the columns that are present have the right type.
    Other members do not matter. *)
Definition table_object {A : Type} (mem : A -> member) (ds : list (decl A)) (o : list (string * pyval)) : Prop :=
  forall d, In d ds ->
    (d_null d = false -> dget (d_name d) o <> None) /\
    (forall x, dget (d_name d) o = Some x -> takes (mem (d_type d)) x).
(** What is wrong with an object. *)
Definition misfit {A : Type} (mem : A -> member) (ds : list (decl A)) (o : list (string * pyval)) : Prop :=
  exists d, In d ds /\
    (d_null d = false /\ dget (d_name d) o = None \/
     exists x, dget (d_name d) o = Some x /\ ~ takes (mem (d_type d)) x).

(** Columns have names, and different ones. *)
Definition named_columns {A : Type} (ds : list (decl A)) : Prop :=
  NoDup (map d_name ds) /\ Forall (fun d => d_name d <> "") ds.
Definition whole_or_text (x : pyval) : Prop := has_type x "integer" \/ has_type x "string".

(** ** Rows *)
(** The encodings of bytes and decimals as texts and the unit of a count of time are left open. *)
Definition json_datum (d : datum) (x : pyval) : Prop :=
  match d with
  | DBool b => x = PBool b
  | DInt z => number x (inject_Z z)
  | DFloat q => number x q
  | DText s => x = PStr s
  | DBytes _ | DNumber _ _ => exists s, x = PStr s
  | DInstant _ _ | DClock _ _ | DDay _ => exists z, number x (inject_Z z)
  | _ => False
  end.
(** The object of a row without its NULLs. *)
Definition row_object (row : list (string * datum)) (o : list (string * pyval)) : Prop :=
  forall n d, In (n, d) row ->
    match d with
    | DNull => dget n o = None
    | _ => exists x, dget n o = Some x /\ json_datum d x
    end.
