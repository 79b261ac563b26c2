(** Proto files whose first message refers to nothing (C124); independent of recap/converters. *)
From Coq Require Import String Ascii List NArith ZArith Bool.
From Verif Require Import PyVal RType Proto SpecProto.
Import ListNotations.
Open Scope nat_scope.
Open Scope string_scope.
Open Scope list_scope.

(** Fields, maps and oneofs of scalar types; messages, enums and others that stand in between do not matter.
    No member of a oneof is a null. *)
Inductive flat_member : element -> Prop :=
| fm_field n i ty c : In ty proto_scalars -> ty <> "google.protobuf.NullValue" -> flat_member (EField n i ty c)
| fm_other e : match e with EField _ _ _ _ => False | _ => True end -> flat_member e.
Inductive flat_element : element -> Prop :=
| fe_field n i ty c : n <> "" -> In ty proto_scalars -> flat_element (EField (PStr n) i ty c)
| fe_map n i k v : n <> "" -> In k proto_scalars -> In v proto_scalars -> flat_element (EMapField (PStr n) i k v)
| fe_oneof n els : n <> "" -> Forall flat_member els -> flat_element (EOneOf (PStr n) els)
| fe_message n els : flat_element (EMessage n els)
| fe_enum n vs : flat_element (EEnum n vs)
| fe_other : flat_element EOther.
Definition flat_file (l : list felement) : Prop := exists n els, first_message (body l) = Some (n, els) /\ Forall flat_element els.
