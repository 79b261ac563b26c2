(** from_dict: recap/types.py lines 365-485. *)
From Coq Require Import String Ascii List ZArith QArith Bool Lia.
From Verif Require Import PyVal RType Registry.
Import ListNotations.
Open Scope nat_scope.
Open Scope string_scope.
Open Scope list_scope.

(** Keyword binding of RecapType.__init__ (types.py:14-26) below a subclass
    __init__: [logical], [alias] and [doc] are parameters, everything else lands in
    extra_attrs.  [self], [type_] and the parameters in [taken] that were already
    passed positionally raise TypeError. *)
Definition bind_common (taken : list string) (d : list (string * pyval)) : res common :=
  if existsb (fun k => dmem k d) ("self" :: "type_" :: taken) then Err TypeError
  else
    let arg k := match dget k d with Some v => v | None => PNone end in
    Ok (mkC (arg "logical") (arg "alias") (arg "doc")
            (ddel "doc" (ddel "alias" (ddel "logical" d)))).

(** A keyword parameter with a default value. *)
Definition kwarg (k : string) (dflt : pyval) (d : list (string * pyval)) : pyval :=
  match dget k d with Some v => v | None => dflt end.

(** types.py:434-435 and 438-439. *)
Definition rename_bytes (d : list (string * pyval)) : list (string * pyval) :=
  match dget "bytes" d with
  | Some v => dset "bytes_" v (ddel "bytes" d)
  | None => d
  end.

(** types.py:379-385: lists and strings become dicts; other values have no .copy(). *)
Definition to_type_dict (j : pyval) : res (list (string * pyval)) :=
  match j with
  | PList l => Ok [("type", PStr "union"); ("types", PList l)]
  | PStr s => Ok [("type", PStr s)]
  | PDict d => Ok d
  | _ => Err AttributeError
  end.

(** The optional=True rewriting, types.py:392-405. *)
Definition desugar (d : list (string * pyval)) : res (list (string * pyval)) :=
  let opt := match dget "optional" d with Some v => truthy v | None => false end in
  let d := ddel "optional" d in
  if negb opt then Ok d
  else
    let name := kwarg "name" PNone d in
    let default := kwarg "default" PNone d in
    let d := ddel "default" (ddel "name" d) in
    let d := if py_eq (kwarg "type" PNone d) (PStr "union") then d
             else [("type", PStr "union"); ("types", PList [PStr "null"; PDict d])] in
    match dget "types" d with
    | None => Err KeyError
    | Some tys =>
        (has <- py_str_in "null" tys ;;
         d <- (if has : bool then Ok d
               else match tys with
                    | PList l => Ok (dset "types" (PList (PStr "null" :: l)) d)
                    | _ => Err TypeError
                    end) ;;
         let d := if is_none name then d else dset "name" name d in
         Ok (dset "default" default d))%res
    end.

(** Construction of the type object, types.py:408-477, where [rec] parses a
    sub-document with the same registry. *)
Definition build (rec : pyval -> M rtype) (d : list (string * pyval)) : M rtype :=
  let rest := ddel "type" d in
  match dget "type" d with
  | Some (PList l) =>
      (* types.py:410-418; members that are neither dict nor str are skipped *)
      (ts <- mmap rec (filter (fun t => match t with PDict _ | PStr _ => true | _ => false end) l) ;;
       c <- lift (bind_common ["types"] rest) ;;
       ret (TUnion c ts))%mon
  | Some (PStr nm) =>
      if String.eqb nm "null" then
        (c <- lift (bind_common [] rest) ;; ret (TNull c))%mon
      else if String.eqb nm "bool" then
        (c <- lift (bind_common [] rest) ;; ret (TBool c))%mon
      else if String.eqb nm "int" then
        match dget "bits" rest with
        | None => fail ValueError
        | Some b =>
            let sg := kwarg "signed" (PBool true) rest in
            (c <- lift (bind_common [] (ddel "signed" (ddel "bits" rest))) ;;
             ret (TInt c b sg))%mon
        end
      else if String.eqb nm "float" then
        match dget "bits" rest with
        | None => fail ValueError
        | Some b =>
            (c <- lift (bind_common [] (ddel "bits" rest)) ;; ret (TFloat c b))%mon
        end
      else if String.eqb nm "string" then
        let rest := rename_bytes rest in
        (c <- lift (bind_common [] (ddel "variable" (ddel "bytes_" rest))) ;;
         ret (TString c (kwarg "bytes_" PNone rest) (kwarg "variable" (PBool true) rest)))%mon
      else if String.eqb nm "bytes" then
        let rest := rename_bytes rest in
        (c <- lift (bind_common [] (ddel "variable" (ddel "bytes_" rest))) ;;
         ret (TBytes c (kwarg "bytes_" PNone rest) (kwarg "variable" (PBool true) rest)))%mon
      else if String.eqb nm "list" then
        match dget "values" rest with
        | None => fail ValueError
        | Some v =>
            let rest := ddel "values" rest in
            (t <- rec v ;;
             c <- lift (bind_common [] (ddel "variable" (ddel "length" rest))) ;;
             ret (TList c t (kwarg "length" PNone rest) (kwarg "variable" (PBool true) rest)))%mon
        end
      else if String.eqb nm "map" then
        match dget "keys" rest, dget "values" rest with
        | Some k, Some v =>
            (tk <- rec k ;; tv <- rec v ;;
             c <- lift (bind_common [] (ddel "values" (ddel "keys" rest))) ;;
             ret (TMap c tk tv))%mon
        | _, _ => fail ValueError
        end
      else if String.eqb nm "struct" then
        (l <- lift (py_iter (kwarg "fields" (PList []) rest)) ;;
         fs <- mmap rec l ;;
         c <- lift (bind_common [] (ddel "fields" rest)) ;;
         ret (TStruct c fs))%mon
      else if String.eqb nm "enum" then
        match dget "symbols" rest with
        | None => fail ValueError
        | Some s => (c <- lift (bind_common [] (ddel "symbols" rest)) ;; ret (TEnum c s))%mon
        end
      else if String.eqb nm "union" then
        match dget "types" rest with
        | None => fail ValueError
        | Some v =>
            (l <- lift (py_iter v) ;;
             ts <- mmap rec l ;;
             c <- lift (bind_common [] (ddel "types" rest)) ;;
             ret (TUnion c ts))%mon
        end
      else
        (* ProxyType(type_name, registry, ...), types.py:475, 312-316 *)
        (c <- lift (bind_common ["alias"; "registry"] rest) ;;
         ret (TProxy (mkC (c_logical c) (PStr nm) (c_doc c) (c_extra c)) None))%mon
  | _ => fail ValueError
  end.

(** types.py:479-485. *)
Definition finish (t : rtype) : M rtype :=
  (_ <- lift (validate t) ;;
   if negb (is_none (c_alias (get_c t))) && negb (is_proxy t)
   then (_ <- register_alias t ;; ret t)
   else ret t)%mon.

(** from_dict, types.py:365-485, with recursion fuel. *)
Fixpoint from_dict_f (n : nat) (j : pyval) : M rtype :=
  match n with
  | O => fail OutOfFuel
  | S n' =>
      (d <- lift (to_type_dict j) ;;
       if is_none (kwarg "type" PNone d) then fail AssertionError
       else
         d' <- lift (desugar d) ;;
         t <- build (from_dict_f n') d' ;;
         finish t)%mon
  end.

(** The fuel used at top level; FromDictFacts.v shows it is always sufficient. *)
Definition from_dict (j : pyval) : M rtype := from_dict_f (psize j) j.

(** from_dict(j) with registry=None: a new registry with the built-in aliases
    (types.py:407, 336-338). *)
Definition from_dict_new (j : pyval) : registry * res rtype := from_dict j builtin_aliases.
