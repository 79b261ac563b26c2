(** JSON schemas that can be read and written again (C126); independent of
    recap/converters/json_schema.py. *)
From Coq Require Import String Ascii List NArith ZArith QArith Bool.
From Verif Require Import PyVal RType SpecTypes SpecJson SpecInstances.
Import ListNotations.
Open Scope nat_scope.
Open Scope string_scope.
Open Scope list_scope.

(** Of the keywords that can reject a document, [d] has none but [ks]. *)
Definition no_more (ks : list string) (d : attrs) : Prop :=
  forall k, In k keywords -> dget k d <> None -> In k ks.
(** The keywords that say nothing about which documents are accepted ("format" included, which is an
    annotation unless a validator is told to assert it). *)
Definition annotations : list string :=
  ["$id"; "$schema"; "$comment"; "title"; "description"; "default"; "examples"; "deprecated"; "readOnly"; "writeOnly"; "format"].
(** [d] has no keywords but [ks] and these. *)
Definition only (ks : list string) (d : attrs) : Prop := forall k, dget k d <> None -> In k ks \/ In k annotations.
Definition basic_types : list string := ["string"; "number"; "integer"; "boolean"; "null"].
(** Whole numbers are numbers. *)
Definition broad (ty : string) : string := if String.eqb ty "integer" then "number" else ty.

(** [plain opt j]: a schema of basic types, lists of them, arrays and objects, without references; it
    describes a property that is not required if [opt] holds. *)
Inductive plain : bool -> pyval -> Prop :=
| plain_basic opt d s : dget "type" d = Some (PStr s) -> In s basic_types -> (opt = true -> s <> "null") ->
    only ["type"] d -> plain opt (PDict d)
| plain_types d l : dget "type" d = Some (PList (map PStr l)) -> (forall s, In s l -> In s basic_types) ->
    (* no document has two of the types *)
    NoDup (map broad l) -> (dget "default" d = None \/ ~ In "null" l) ->
    only ["type"] d -> plain false (PDict d)
| plain_object opt d ps : dget "type" d = Some (PStr "object") -> dget "properties" d = Some (PDict ps) ->
    NoDup (map fst ps) -> ~ In "" (map fst ps) -> (forall v, dget "required" d = Some v -> exists l, v = PList l) ->
    (* only properties are required *)
    (forall n, required_name d n -> In n (map fst ps)) ->
    (forall n s, In (n, s) ps -> required_name d n -> plain false s) ->
    (forall n s, In (n, s) ps -> ~ required_name d n -> plain true s) ->
    only ["type"; "properties"; "required"] d -> plain opt (PDict d)
| plain_array opt d s : dget "type" d = Some (PStr "array") -> dget "items" d = Some s -> plain false s ->
    only ["type"; "items"] d -> plain opt (PDict d).

(** The names in a type can be told apart and stand for themselves in a JSON pointer. *)
Definition names_apart (t : rtype) : Prop :=
  (forall s a, shown s t -> defines s a -> user_name a /\ token a) /\
  (forall s s' a, shown s t -> shown s' t -> defines s a -> defines s' a -> s = s').
