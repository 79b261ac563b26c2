(** Vocabulary of the property of the values of written structs (C121); independent of recap/converters. *)
From Coq Require Import String Ascii List NArith ZArith QArith Bool.
From Verif Require Import PyVal RType Registry SpecTypes SpecInstances SpecRows Proto SpecProto SpecProtoData.
Import ListNotations.
Open Scope nat_scope.
Open Scope string_scope.
Open Scope list_scope.

(** The same value with other field names; [N] relates the old names to the new ones. *)
Inductive renamed (N : string -> string -> Prop) : datum -> datum -> Prop :=
| rn_atom d : (forall l, d <> DList l) -> (forall l, d <> DMap l) -> (forall l, d <> DRow l) -> renamed N d d
| rn_list l l' : Forall2 (renamed N) l l' -> renamed N (DList l) (DList l')
| rn_map l l' : Forall2 (fun x y => renamed N (fst x) (fst y) /\ renamed N (snd x) (snd y)) l l' -> renamed N (DMap l) (DMap l')
| rn_row l l' : Forall2 (fun x y => N (fst x) (fst y) /\ renamed N (snd x) (snd y)) l l' -> renamed N (DRow l) (DRow l').

(** The type whose name the written field has: the element of a list, the one member of a union that is
    not null, and any other type itself. *)
Inductive carrier : rtype -> rtype -> Prop :=
| carrier_list c v l va : carrier (TList c v l va) v
| carrier_just t x : just t x -> carrier t x
| carrier_self t : ~ list_type t -> (forall x, ~ just t x) -> carrier t t.
Definition in_struct (t x : rtype) : Prop := exists c fs, node_of (TStruct c fs) t /\ In x fs.
(** The names of fields are where they are looked for. *)
Definition names_in_place (t : rtype) : Prop :=
  forall x y n, in_struct t x -> carrier x y -> has_name x n -> has_name y n.
Definition names_are_texts (t : rtype) : Prop :=
  forall x y n, in_struct t x -> carrier x y -> has_name y n -> exists s, n = PStr s.

(** The named types of [t]: what its references may refer to. *)
Definition named_in (t : rtype) (a : string) (s : rtype) : Prop :=
  node_of s t /\ aliased s a /\ ((exists c fs, s = TStruct c fs) \/ (exists c l, s = TEnum c l)).
(** Types that the proto file can express: *)
Record expressible (p : string) (t : rtype) : Prop := {
  (** structs and enums are named and the packages of their names are structs of the type; *)
  xp_named : forall s, node_of s t -> (exists c fs, s = TStruct c fs) \/ (exists c l, s = TEnum c l) ->
    exists q n, aliased s (q ++ "." ++ n) /\ dotless n /\ rooted t p q;
  (** fields are scalars, lists or maps of scalars or unions of scalars; *)
  xp_fields : forall x, in_struct t x -> simple_field x;
  (** integers and bytes are no instants, dates, times or decimals. *)
  xp_plain : forall s, node_of s t -> match s with TInt c _ _ | TBytes c _ _ => c_logical c = PNone | _ => True end
}.

(** ** Reading what was written (C122) *)
Definition named_type (t : rtype) : Prop := match t with TStruct _ _ | TEnum _ _ | TProxy _ _ => True | _ => False end.
(** A field that refers to a struct or an enum, or contains one. *)
Definition refers_to_type (x : rtype) : Prop := exists u, at_hand u x /\ named_type u.
(** The keys of maps that protobuf.py reads. *)
Definition good_key (x : rtype) : Prop :=
  match x with TMap _ (TInt _ _ _) _ | TMap _ (TString _ _ _) _ => True | TMap _ _ _ => False | _ => True end.
