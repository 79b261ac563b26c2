(** RecapType.make_nullable: recap/types.py lines 28-68. *)
From Coq Require Import String Ascii List ZArith QArith Bool Lia.
From Verif Require Import PyVal RType FromDict.
Import ListNotations.
Open Scope nat_scope.
Open Scope string_scope.
Open Scope list_scope.

(** Instance attributes other than type_, doc and extra_attrs that make_nullable
    passes back to the constructor (vars(self) without private names, types.py:40-47). *)
Definition ctor_attrs (t : rtype) : list string :=
  ["logical"; "alias"] ++
  match t with
  | TInt _ _ _ => ["bits"; "signed"]
  | TFloat _ _ => ["bits"]
  | TString _ _ _ | TBytes _ _ _ => ["bytes_"; "variable"]
  | TList _ _ _ _ => ["values"; "length"; "variable"]
  | TMap _ _ _ => ["keys"; "values"]
  | TStruct _ _ => ["fields"]
  | TEnum _ _ => ["symbols"]
  | TUnion _ _ => ["types"]
  | TProxy _ _ => ["registry"]
  | _ => []
  end.

(** make_nullable returns the receiver as it is afterwards and the result.
    The receiver changes because [extra_attrs.pop] works on the receiver's own dict
    (types.py:47-54) and because the new union shares the receiver's [types] list
    into which NullType() is inserted (types.py:60, 66-67).
    A key of extra_attrs that collides with a constructor argument raises TypeError. *)
Definition make_nullable (t : rtype) : rtype * res rtype :=
  let c := get_c t in
  let default := kwarg "default" PNone (c_extra c) in
  let e1 := ddel "default" (c_extra c) in
  let name := match dget "name" e1 with Some n => [("name", n)] | None => [] end in
  let e2 := ddel "name" e1 in
  let self' := set_c t (mkC (c_logical c) (c_alias c) (c_doc c) e2) in
  if existsb (fun k => dmem k e2) ("self" :: "type_" :: ctor_attrs t) then (self', Err TypeError)
  else
    match t with
    | TUnion _ ts =>
        if dmem "doc" e2 then (self', Err TypeError)
        else
          let ts' := if existsb is_null ts then ts else TNull c0 :: ts in
          (TUnion (mkC (c_logical c) (c_alias c) (c_doc c) e2) ts',
           Ok (TUnion (mkC (c_logical c) (c_alias c) (c_doc c) (e2 ++ ("default", default) :: name)) ts'))
    | _ =>
        let inner := set_c t (mkC (c_logical c) (c_alias c) (kwarg "doc" PNone e2) (ddel "doc" e2)) in
        let ts := if is_null inner then [inner] else [TNull c0; inner] in
        (self', Ok (TUnion (mkC PNone PNone (c_doc c) (("default", default) :: name)) ts))
    end.
