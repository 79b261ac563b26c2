(** Vocabulary of the Avro properties, independent of recap/converters/avro.py. *)
From Coq Require Import String Ascii List NArith ZArith Bool.
From Verif Require Import PyVal RType SpecTypes.
Import ListNotations.
Open Scope nat_scope.
Open Scope string_scope.
Open Scope list_scope.

(** ** Integer values (C33) *)
Definition int_value (bits : Z) (signed : bool) (v : Z) : Prop :=
  if signed then (- 2 ^ (bits - 1) <= v < 2 ^ (bits - 1))%Z else (0 <= v < 2 ^ bits)%Z.
Definition has (d : list (string * pyval)) (k : string) (v : pyval) : Prop := dget k d = Some v.
(** The integers that an Avro schema can hold: Avro 1.11, "Primitive Types" and "Decimal". *)
Inductive avro_int : pyval -> Z -> Prop :=
| avro_int_int d v : has d "type" (PStr "int") -> int_value 32 true v -> avro_int (PDict d) v
| avro_int_long d v : has d "type" (PStr "long") -> int_value 64 true v -> avro_int (PDict d) v
| avro_int_decimal d p v : has d "type" (PStr "bytes") -> has d "logicalType" (PStr "decimal") ->
    has d "precision" (PInt p) -> dget "scale" d = None -> (Z.abs v < 10 ^ p)%Z -> avro_int (PDict d) v.

(** ** Record fields (C34) *)
(** The field object [o] carries the labels of the struct field [f]. *)
Record labelled (f : rtype) (o : list (string * pyval)) : Prop := {
  lb_type : exists ty, has o "type" ty;
  lb_name : forall n, dget "name" (c_extra (get_c f)) = Some n -> truthy n = true -> has o "name" n;
  lb_default : forall v, dget "default" (c_extra (get_c f)) = Some v -> has o "default" v;
  lb_doc : truthy (c_doc (get_c f)) = true -> has o "doc" (c_doc (get_c f));
  (* and nothing else is added, except by a reference to a built-in type *)
  lb_only : (forall a, is_proxy f = true -> c_alias (get_c f) = PStr a -> substr_in "." a = true) ->
    (forall v, has o "name" v -> dget "name" (c_extra (get_c f)) = Some v) /\
    (forall v, has o "default" v -> dget "default" (c_extra (get_c f)) = Some v) /\
    (forall v, has o "doc" v -> c_doc (get_c f) = v)
}.

(** ** A grammar of Avro schemas (C35, C37) *)
Record labels := mkLabels { l_doc : option string; l_name : option string; l_default : option pyval }.
Definition unlabelled : labels := mkLabels None None None.
Inductive avro :=
| APrim (h : labels) (s : string)
| ALogical (h : labels) (s l : string)
| ADecimal (h : labels) (p s : Z)
| ARef (h : labels) (s : string)
| AEnum (h : labels) (symbols : list pyval)
| AArray (h : labels) (a : avro)
| AMap (h : labels) (a : avro)
| ARecord (h : labels) (fs : list avro)
| AUnion (h : labels) (ts : list avro)
| ANested (h : labels) (a : avro).

Definition avro_labels (a : avro) : labels :=
  match a with
  | APrim h _ | ALogical h _ _ | ADecimal h _ _ | ARef h _ | AEnum h _ | AArray h _ | AMap h _
  | ARecord h _ | AUnion h _ | ANested h _ => h
  end.

Definition avro_prims : list string :=
  ["null"; "boolean"; "int"; "long"; "float"; "double"; "bytes"; "string"].
Definition avro_logicals : list (string * string) :=
  [("string", "uuid"); ("int", "date"); ("int", "time-millis"); ("long", "time-micros");
   ("long", "timestamp-millis"); ("long", "timestamp-micros")].

(** Definitions have names of their own; references and logical types do not define anything. *)
Definition defines (a : avro) : bool :=
  match a with ALogical _ _ _ | ADecimal _ _ _ | ARef _ _ | ANested _ _ => false | _ => true end.

(** The JSON text of a schema.  With [mark], every named definition also carries the
    annotation "aliases" with its full name. *)
Section Json.
  Context (mark : bool) (ns : string).
  Definition label_json (def : bool) (h : labels) : list (string * pyval) :=
    (match l_doc h with Some s => [("doc", PStr s)] | None => [] end) ++
    (match l_name h with Some s => [("name", PStr s)] | None => [] end) ++
    (match l_default h with Some v => [("default", v)] | None => [] end) ++
    (match l_name h with
     | Some s => if mark && def then [("aliases", PList [PStr (ns ++ "." ++ s)])] else []
     | None => []
     end).
  (** A schema without labels is written as the name of its type where there is one. *)
  Definition compact (a : avro) (d : list (string * pyval)) : pyval :=
    match a with
    | APrim (mkLabels None None None) s | ARef (mkLabels None None None) s => PStr s
    | _ => PDict d
    end.
  Fixpoint json_entries (a : avro) : list (string * pyval) :=
    label_json (defines a) (avro_labels a) ++
    match a with
    | APrim _ s | ARef _ s => [("type", PStr s)]
    | ALogical _ s l => [("type", PStr s); ("logicalType", PStr l)]
    | ADecimal _ p s => [("type", PStr "bytes"); ("logicalType", PStr "decimal"); ("precision", PInt p); ("scale", PInt s)]
    | AEnum _ l => [("type", PStr "enum"); ("symbols", PList l)]
    | AArray _ x => [("type", PStr "array"); ("items", compact x (json_entries x))]
    | AMap _ x => [("type", PStr "map"); ("values", compact x (json_entries x))]
    | ARecord _ l => [("type", PStr "record"); ("fields", PList (map (fun x => PDict (json_entries x)) l))]
    | AUnion _ l => [("type", PList (map (fun x => compact x (json_entries x)) l))]
    | ANested _ x => [("type", PDict (json_entries x))]
    end.
  Definition json (a : avro) : pyval := PDict (json_entries a).
End Json.

(** The names defined in a schema, inner ones first. *)
Fixpoint defined_names (a : avro) : list string :=
  match a with
  | AArray _ x | AMap _ x | ANested _ x => defined_names x
  | ARecord _ l | AUnion _ l => flat_map defined_names l
  | _ => []
  end ++
  (if defines a then match l_name (avro_labels a) with Some s => [s] | None => [] end else []).

(** Well-formed schemas. *)
Definition labels_ok (h : labels) : Prop :=
  l_doc h <> Some "" /\ (forall s, l_name h = Some s -> identifier s).
Inductive avro_ok : avro -> Prop :=
| ok_prim h s : labels_ok h -> In s avro_prims -> avro_ok (APrim h s)
| ok_logical h s l : labels_ok h -> In (s, l) avro_logicals -> avro_ok (ALogical h s l)
| ok_decimal h p s : labels_ok h -> avro_ok (ADecimal h p s)
| ok_ref h s : labels_ok h -> substr_in "." s = true -> avro_ok (ARef h s)
| ok_enum h l : labels_ok h -> avro_ok (AEnum h l)
| ok_array h a : labels_ok h -> avro_ok a -> avro_ok (AArray h a)
| ok_map h a : labels_ok h -> avro_ok a -> avro_ok (AMap h a)
| ok_record h l : labels_ok h -> Forall avro_ok l -> avro_ok (ARecord h l)
| ok_union h l : labels_ok h -> Forall avro_ok l -> avro_ok (AUnion h l)
| ok_nested h a : labels_ok h -> avro_ok a -> avro_ok (ANested h a).
(** Schemas in which the type of a field is written into the field. *)
Inductive inlined : avro -> Prop :=
| in_prim h s : inlined (APrim h s)
| in_logical h s l : inlined (ALogical h s l)
| in_decimal h p s : inlined (ADecimal h p s)
| in_ref h s : inlined (ARef h s)
| in_enum h l : inlined (AEnum h l)
| in_array h a : inlined a -> inlined (AArray h a)
| in_map h a : inlined a -> inlined (AMap h a)
| in_record h l : Forall inlined l -> inlined (ARecord h l)
| in_union h l : Forall inlined l -> inlined (AUnion h l).

Definition is_record (a : avro) : Prop := match a with ARecord _ _ => True | _ => False end.
(** A namespace: identifiers separated by dots. *)
Definition namespace (s : string) : Prop :=
  exists segs, 1 <= length segs /\ Forall identifier segs /\ s = String.concat "." segs.
Definition full_names (ns : string) (a : avro) : list string :=
  map (fun n => (ns ++ "." ++ n)%string) (defined_names a).

(** ** Fixed-size types (C36) *)
Definition fixed_bytes (t : rtype) : Prop :=
  exists c n, t = TBytes c n (PBool false).
Definition variable_bytes (t : rtype) : Prop :=
  exists c n, t = TBytes c n (PBool true).

(** ** References (C34, C72) *)
(** A reference whose overrides are plain attributes other than doc, to a registry whose
    entries have no documentation and are not references (as registration leaves them). *)
Definition plain_reference (R : registry) (f : rtype) : Prop :=
  match f with
  | TProxy c r =>
      NoDup (map fst (c_extra c)) /\
      (forall k, In k (map fst (c_extra c)) -> data_name k /\ k <> "doc") /\
      (forall n t, In (n, t) (match r with None => R | Some R' => R' end) ->
         c_doc (get_c t) = PNone /\ is_proxy t = false)
  | _ => True
  end.
(** A type with a doc and a name of its own. *)
Definition named_type (t : rtype) (doc name : string) : rtype :=
  let c := get_c t in
  set_c t (mkC (c_logical c) PNone (PStr doc) (c_extra c ++ [("name", PStr name)])).
(** The names of Avro 1.11. *)
Definition avro_type_names : list string :=
  avro_prims ++ ["record"; "enum"; "array"; "map"; "fixed"; "union"].

(** The namespace in which the top-level schema is read: the given one, or "_root" for
    a named schema without one. *)
Definition starts (start : pyval) (ns : string) (a : avro) : Prop :=
  start = PStr ns \/
  (ns = "_root" /\ (start = PNone \/ start = PStr "") /\ exists s, l_name (avro_labels a) = Some s).

(** Built-in types that are written as a plain Avro type name. *)
Definition plain_builtins : list string :=
  ["int8"; "uint8"; "int16"; "uint16"; "int32"; "uint32"; "int64"; "float16"; "float32"; "float64";
   "string32"; "string64"; "bytes32"; "bytes64"].

(** ** Termination (C75) *)
Fixpoint no_proxy (t : rtype) : Prop :=
  match t with
  | TList _ v _ _ => no_proxy v
  | TMap _ k v => no_proxy k /\ no_proxy v
  | TStruct _ l | TUnion _ l => fold_right (fun x P => no_proxy x /\ P) True l
  | TProxy _ _ => False
  | _ => True
  end.
(** Names without a dot are those of types without references, as in the built-in
    registry: every name that a user registers has a dot (C04). *)
Definition naked_plain (R : registry) : Prop :=
  forall a t, dget a R = Some t -> substr_in "." a = false -> no_proxy t.
(** All registries in which the references of a type look up names. *)
Fixpoint looks_in (P : registry -> Prop) (t : rtype) : Prop :=
  match t with
  | TList _ v _ _ => looks_in P v
  | TMap _ k v => looks_in P k /\ looks_in P v
  | TStruct _ l | TUnion _ l => fold_right (fun x Q => looks_in P x /\ Q) True l
  | TProxy _ (Some R) => P R
  | _ => True
  end.

(** An alias as the constructors allow it. *)
Definition sized_alias (c : common) : Prop := c_alias c = PNone \/ exists a, c_alias c = PStr a.

(** ** Names (C76) *)
(** The types that become named Avro types: Avro 1.11, "Complex Types" and "Fixed". *)
Definition avro_named (t : rtype) : Prop :=
  match t with
  | TStruct c _ | TEnum c _ => forall s, c_logical c <> PStr s
  | TBytes c _ va => (forall s, c_logical c <> PStr s) /\ va = PBool false
  | _ => False
  end.
Definition truthy_name (t : rtype) : Prop :=
  exists n, dget "name" (c_extra (get_c t)) = Some n /\ truthy n = true.
