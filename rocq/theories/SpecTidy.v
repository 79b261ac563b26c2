(** Documents on which cleaning twice is the same as cleaning once (C15); independent of the
    model's functions. *)
From Coq Require Import String List.
From Verif Require Import PyVal.
Import ListNotations.
Open Scope nat_scope.
Open Scope string_scope.
Open Scope list_scope.

(** A document of the null type without attributes. *)
Definition null_doc (j : pyval) : Prop :=
  j = PStr "null" \/
  exists d, j = PDict d /\ dget "type" d = Some (PStr "null") /\
    forall k v, In (k, v) d -> k = "type" \/ (In k ["alias"; "logical"; "doc"] /\ v = PNone).

(** The documents inside a document of type [nm]. *)
Inductive child_doc (nm : string) (d : list (string * pyval)) (x : pyval) : Prop :=
| child_values : nm = "list" \/ nm = "map" -> dget "values" d = Some x -> child_doc nm d x
| child_keys : nm = "map" -> dget "keys" d = Some x -> child_doc nm d x
| child_fields l : nm = "struct" -> In ("fields", PList l) d -> In x l -> child_doc nm d x
| child_types l : nm = "union" -> dget "types" d = Some (PList l) -> In x l -> child_doc nm d x.

(** A union document with null among its members. *)
Definition nullable_doc (j : pyval) : Prop :=
  exists d l x, j = PDict d /\ dget "type" d = Some (PStr "union") /\ dget "types" d = Some (PList l) /\
    In x l /\ null_doc x.

(** A default value other than None needs a single null member, and, when null and one more
    member are all there is, that member must not be a union with null. *)
Definition default_tidy (d : list (string * pyval)) (l : list pyval) : Prop :=
  forall v, dget "default" d = Some v -> v <> PNone ->
    (forall l1 x l2 y, l = l1 ++ x :: l2 -> null_doc x -> In y l2 -> ~ null_doc y) /\
    (forall x y, l = [x; y] \/ l = [y; x] -> null_doc x -> ~ nullable_doc y).

(** Every type is a string, or a list next to "types"; and unions have tidy defaults. *)
Inductive tidy : pyval -> Prop :=
| tidy_name s : tidy (PStr s)
| tidy_list l : Forall tidy l -> tidy (PList l)
| tidy_dict d nm : dget "type" d = Some (PStr nm) -> (forall x, child_doc nm d x -> tidy x) ->
    (nm = "union" -> exists l, dget "types" d = Some (PList l) /\ default_tidy d l) -> tidy (PDict d)
| tidy_types d l l' : dget "type" d = Some (PList l) -> dget "types" d = Some (PList l') -> Forall tidy l' -> tidy (PDict d).
