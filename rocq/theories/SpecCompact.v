(** Vocabulary for compact and aliased documents (C12-C15), independent of the model's
    functions: only the data types and the table of built-in names are shared. *)
From Coq Require Import String Ascii List ZArith QArith Bool.
From Verif Require Import PyVal RType Registry SpecTypes.
Import ListNotations.
Open Scope nat_scope.
Open Scope string_scope.
Open Scope list_scope.

(** ** Replacing parts of a type by references *)
(** The type object for a reference to the name [a] without any attributes. *)
Definition reference (a : string) : rtype := TProxy (mkC PNone (PStr a) PNone []) None.

(** [same_meaning ref t u]: [u] is [t] except that some parts may be references.
    [ref a s] says that the name [a] may stand for the part [s]. *)
Inductive same_meaning (ref : string -> rtype -> Prop) (t : rtype) : rtype -> Prop :=
| sm_node u : type_name t = type_name u -> common_same (get_c t) (get_c u) ->
    Forall2 val_same (params t) (params u) -> Forall2 (same_meaning ref) (children t) (children u) ->
    same_meaning ref t u
| sm_ref a : ref a t -> same_meaning ref t (reference a).

(** The built-in name [a] stands for types equal to its definition. *)
Definition builtin_ref (a : string) (t : rtype) : Prop :=
  exists b, In (a, b) builtin_aliases /\ type_same t b.

(** Inside [root] a name stands for a part [t] when it is the built-in name of [t], or when
    [root] defines it by [s], and [t] and [s] without its label are written alike. *)
Inductive names_in (root : rtype) (a : string) (t : rtype) : Prop :=
| names_builtin : builtin_ref a t -> names_in root a t
| names_defined s t1 s1 :
    node_of s root -> is_proxy s = false -> c_alias (get_c s) = PStr a -> defined_aliases t = [] ->
    same_meaning (names_in root) t t1 -> same_meaning (names_in root) (without_label s) s1 ->
    type_same t1 s1 -> names_in root a t.

(** ** Types that compact documents can express *)
(** Every node satisfies [P]. *)
Definition all_nodes (P : rtype -> Prop) (t : rtype) : Prop := forall s, node_of s t -> P s.

(** The null type without any attributes, written "null". *)
Definition bare_null : rtype := TNull c0.

(** A union with a default value and a bare null is written with "optional".  That loses
    nothing when null comes first and only once, there is no attribute but name and default,
    and, if a single anonymous member remains, that member can take up these attributes. *)
Definition compact_ok (t : rtype) : Prop :=
  match t with
  | TUnion c ts =>
      In "default" (dkeys (c_extra c)) -> In bare_null ts ->
      exists xs, ts = bare_null :: xs /\ ~ In bare_null xs /\
        (forall k, In k (dkeys (c_extra c)) -> k = "default" \/ k = "name") /\
        dget "name" (c_extra c) <> Some PNone /\
        (forall x, xs = [x] -> c_alias c = PNone -> c_logical c = PNone ->
           c_doc c = PNone /\ is_union x = false /\
           ~ In "name" (dkeys (c_extra (get_c x))) /\ ~ In "default" (dkeys (c_extra (get_c x))))
  | _ => True
  end.

(** ** Types on which the replacement of definitions by names works *)
(** The alias that a type defines. *)
Definition defines (t : rtype) : pyval :=
  match t with TProxy _ _ => PNone | _ => c_alias (get_c t) end.
(** The member of a union that is written as that member with "optional". *)
Definition single_optional (t : rtype) : option rtype :=
  match t with
  | TUnion (mkC PNone PNone _ e) [TNull (mkC PNone PNone PNone []); x] => if dmem "default" e then Some x else None
  | _ => None
  end.
(** The alias visible at the top of the document of a type. *)
Definition visible_alias (clean : bool) (t : rtype) : pyval :=
  match (if clean then single_optional t else None) with
  | Some x => defines x
  | None => defines t
  end.

(** A value that contains no documents. *)
Definition no_document (v : pyval) : Prop :=
  match v with
  | PDict _ => False
  | PList l => forall d, ~ In (PDict d) l
  | _ => True
  end.

Definition child_keys : list string := ["values"; "keys"; "fields"; "types"].

(** The attributes of a type are not mistaken for its children. *)
Definition plain_attributes (t : rtype) : Prop :=
  forall k v, In (k, v) (c_extra (get_c t)) -> In k child_keys -> no_document v.

(** At a type that defines no alias: its own attributes are not mistaken for children, and
    aliases below it are defined by the children themselves, not deeper.  A union written as a
    list does not count as a level. *)
Definition alias_ok (clean : bool) (t : rtype) : Prop :=
  defines t = PNone ->
  plain_attributes t /\
  (forall x, In x (children t) ->
     visible_alias clean x <> PNone \/ defined_aliases x = [] \/ (clean = true /\ exists ts, x = TUnion c0 ts)).
