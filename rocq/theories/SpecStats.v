(** Vocabulary for the statistics of printed Hive tables (C128). *)
From Coq Require Import String Ascii List NArith ZArith Bool.
From Verif Require Import PyVal RType SpecTypes Hive.
Import ListNotations.
Open Scope nat_scope.
Open Scope string_scope.
Open Scope list_scope.

(** A union that has attributes besides its name and its default value. *)
Definition further_key (k : string) : bool := negb (String.eqb k "default") && negb (String.eqb k "name").
(** A column as the document describes it: when it is a union with further attributes, its name, its
    default value and its documentation are left out. *)
Definition as_printed (f : rtype) : rtype :=
  match f with
  | TUnion c ts =>
      if existsb further_key (dkeys (c_extra c))
      then TUnion (mkC PNone PNone PNone (ddel "name" (ddel "default" (c_extra c)))) ts
      else f
  | _ => f
  end.
(** A table of such columns. *)
Definition table_as_printed (t : rtype) : rtype :=
  match t with TStruct c fs => TStruct c (map as_printed fs) | _ => t end.

(** The numbers and texts of statistics are values of a document. *)
Definition plain_stats (s : hstats) : Prop :=
  let o v := match v with Some x => pwf x | None => True end in
  match s with
  | SLong a b c n | SDouble a b c n | SString a b c n => pwf a /\ pwf b /\ pwf c /\ pwf n
  | SDate a b c n | SDecimal a b c n => o a /\ o b /\ pwf c /\ pwf n
  | SBoolean a b n | SBinary a b n => pwf a /\ pwf b /\ pwf n
  end.
Definition all_plain (l : list (string * option hstats)) : Prop := forall n s, In (n, Some s) l -> plain_stats s.
