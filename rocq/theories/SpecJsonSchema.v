(** What a JSON schema describes, after the JSON Schema specification (draft 2020-12), as a relation
    between JSON values and Recap types (C101); independent of recap/converters/json_schema.py. *)
From Coq Require Import String Ascii List NArith ZArith QArith Bool.
From Verif Require Import PyVal RType SpecTypes SpecJson SpecInstances.
Import ListNotations.
Open Scope nat_scope.
Open Scope string_scope.
Open Scope list_scope.

(** The attributes of a type: logical type, alias, documentation, default and name. *)
Definition has_attrs (lo al doc : pyval) (df : option pyval) (nm : option string) (c : common) : Prop :=
  c_logical c = lo /\ c_alias c = al /\ c_doc c = doc /\
  forall k, dget k (c_extra c) = if String.eqb k "default" then df else if String.eqb k "name" then option_map PStr nm else None.
(** Those that the schema [d] gives. *)
Definition given (d : attrs) (lo al : pyval) (c : common) : Prop :=
  has_attrs lo al (match dget "description" d with Some v => v | None => PNone end) (dget "default" d) None c.

(** ** Basic types *)
Inductive basic : string -> option pyval -> pyval -> common -> rtype -> Prop :=
| ba_bytes c : basic "string" (Some (PStr "bytes")) PNone c (TBytes c PNone (PBool true))
| ba_format f lo c : In (f, lo) [("date", "org.iso.8601.Date"); ("date-time", "org.iso.8601.DateTime"); ("time", "org.iso.8601.Time")] ->
    basic "string" (Some (PStr f)) (PStr lo) c (TString c PNone (PBool true))
| ba_string f c : (forall s, f = Some (PStr s) -> ~ In s ["bytes"; "date"; "date-time"; "time"]) ->
    basic "string" f PNone c (TString c PNone (PBool true))
| ba_number f c : basic "number" f PNone c (TFloat c (PInt 64))
| ba_integer f c : basic "integer" f PNone c (TInt c (PInt 32) (PBool true))
| ba_boolean f c : basic "boolean" f PNone c (TBool c)
| ba_null f c : basic "null" f PNone c (TNull c).

(** ** Properties *)
(** Every list of required names is a list. *)
Definition required_lists (j : pyval) : Prop :=
  forall d v, inside (PDict d) j -> dget "required" d = Some v -> exists l, v = PList l.
Definition or_null (v : option pyval) : option pyval := Some (match v with Some v => v | None => PNone end).
(** [field_as d n g f]: [f] is the field [n] of the object [d] if its schema describes [g]. *)
Inductive field_as (d : attrs) (n : string) (g : rtype) : rtype -> Prop :=
| fa_required c : required_name d n ->
    has_attrs (c_logical (get_c g)) (c_alias (get_c g)) (c_doc (get_c g)) (attr "default" g) (Some n) c ->
    field_as d n g (set_c g c)
| fa_nullable c : ~ required_name d n -> nullable g ->
    has_attrs (c_logical (get_c g)) (c_alias (get_c g)) (c_doc (get_c g)) (or_null (attr "default" g)) (Some n) c ->
    field_as d n g (set_c g c)
| fa_union c0' ts c : ~ required_name d n -> ~ nullable g -> g = TUnion c0' ts ->
    has_attrs (c_logical (get_c g)) (c_alias (get_c g)) (c_doc (get_c g)) (or_null (attr "default" g)) (Some n) c ->
    field_as d n g (TUnion c (TNull c0 :: ts))
| fa_other c c' : ~ required_name d n -> ~ nullable g -> is_union g = false ->
    has_attrs PNone PNone (c_doc (get_c g)) (or_null (attr "default" g)) (Some n) c ->
    has_attrs (c_logical (get_c g)) (c_alias (get_c g)) PNone None None c' ->
    field_as d n g (TUnion c [TNull c0; set_c g c']).
Inductive fields_as (d : attrs) : list (string * pyval) -> list rtype -> list rtype -> Prop :=
| fas_nil : fields_as d [] [] []
| fas_cons n s ps g gs f fs : field_as d n g f -> fields_as d ps gs fs -> fields_as d ((n, s) :: ps) (g :: gs) (f :: fs).

(** ** Schemas *)
(** The schema is read by its type, not as a reference. *)
Definition typed (d : attrs) : Prop :=
  (exists l, dget "type" d = Some (PList l)) \/
  (exists s, dget "type" d = Some (PStr s) /\
     (In s ["string"; "number"; "integer"; "boolean"; "null"] \/ (s = "object" /\ dget "properties" d <> None) \/
      (s = "array" /\ dget "items" d <> None))).
Definition refers_to (d : attrs) (r : string) : Prop :=
  dget "$ref" d = Some (PStr r) \/ (dget "$dynamicRef" d = Some (PStr r) /\ forall s, dget "$ref" d <> Some (PStr s)).

Section Schemas.
  (** The alias that is given to an id. *)
  Variable alias : string -> string -> Prop.
  (** [identified ids d al ids']: the alias of the schema [d], and the ids that were seen before and
      after it. *)
  Inductive identified (ids : list string) (d : attrs) : pyval -> list string -> Prop :=
  | id_none : dget "$id" d = None -> identified ids d PNone ids
  | id_some i a : dget "$id" d = Some (PStr i) ->
      (forall v, dget "$schema" d = Some v -> v = PStr "https://json-schema.org/draft/2020-12/schema") ->
      alias (without_hash i) a -> identified ids d (PStr a) (without_hash i :: ids).

  (** [means ids j t ids']: the schema [j] describes [t].  References are to ids that come before. *)
  Inductive means : list string -> pyval -> rtype -> list string -> Prop :=
  | me_string ids s t ids' : means ids (PDict [("type", PStr s)]) t ids' -> means ids (PStr s) t ids'
  | me_basic ids d al ids' s lo c t : identified ids d al ids' -> dget "type" d = Some (PStr s) ->
      given d lo al c -> basic s (dget "format" d) lo c t -> means ids (PDict d) t ids'
  | me_types ids d al ids' l c ts ids'' : identified ids d al ids' -> dget "type" d = Some (PList l) ->
      given d PNone al c -> means_all ids' l ts ids'' -> means ids (PDict d) (TUnion c ts) ids''
  | me_object ids d al ids' ps c gs fs ids'' : identified ids d al ids' -> dget "type" d = Some (PStr "object") ->
      dget "properties" d = Some (PDict ps) -> given d PNone al c ->
      means_all ids' (map snd ps) gs ids'' -> fields_as d ps gs fs -> means ids (PDict d) (TStruct c fs) ids''
  | me_array ids d al ids' j c t ids'' : identified ids d al ids' -> dget "type" d = Some (PStr "array") ->
      dget "items" d = Some j -> given d PNone al c -> means ids' j t ids'' ->
      means ids (PDict d) (TList c t PNone (PBool true)) ids''
  | me_ref ids d r a c : ~ typed d -> refers_to d r -> dget "$id" d = None -> In (without_hash r) ids ->
      alias (without_hash r) a -> given d PNone (PStr a) c -> means ids (PDict d) (TProxy c None) ids
  with means_all : list string -> list pyval -> list rtype -> list string -> Prop :=
  | ma_nil ids : means_all ids [] [] ids
  | ma_cons ids j l t ts ids' ids'' : means ids j t ids' -> means_all ids' l ts ids'' ->
      means_all ids (j :: l) (t :: ts) ids''.
End Schemas.
