(** to_dict, clean_dict and alias_dict: recap/types.py lines 488-763. *)
From Coq Require Import String Ascii List ZArith QArith Bool Lia.
From Verif Require Import PyVal RType Registry FromDict.
Import ListNotations.
Open Scope nat_scope.
Open Scope string_scope.
Open Scope list_scope.

(** The initial dict of to_dict, types.py:504-510. *)
Definition base_dict (t : rtype) : list (string * pyval) :=
  let c := get_c t in
  dupd [("type", PStr (type_name t)); ("alias", c_alias c);
        ("logical", c_logical c); ("doc", c_doc c)] (c_extra c).

(** The class-specific part of to_dict, types.py:512-567, given the already converted
    children ([kids] in order: values | keys, values | fields | types). *)
Definition node_dict (t : rtype) (kids : list pyval) : list (string * pyval) :=
  let b := base_dict t in
  match t, kids with
  | TInt _ bits sg, _ => dupd b [("bits", bits); ("signed", sg)]
  | TFloat _ bits, _ => dset "bits" bits b
  | TString _ by_ va, _ => dupd b [("bytes", by_); ("variable", va)]
  | TBytes _ by_ va, _ => dupd b [("bytes", by_); ("variable", va)]
  | TList _ _ le va, v :: _ => dupd b [("values", v); ("length", le); ("variable", va)]
  | TMap _ _ _, k :: v :: _ => dupd b [("keys", k); ("values", v)]
  | TStruct _ _, _ => dset "fields" (PList kids) b
  | TEnum _ s, _ => dset "symbols" s b
  | TUnion _ _, _ => dset "types" (PList kids) b
  | TProxy _ _, _ =>
      (* type_dict["type"] = type_dict.pop("alias") *)
      dset "type" (kwarg "alias" PNone b) (ddel "alias" b)
  | _, _ => b
  end.

(** to_dict(t, clean=False, alias=False). *)
Fixpoint raw_dict (t : rtype) : pyval :=
  PDict
    match t with
    | TList _ v _ _ => node_dict t [raw_dict v]
    | TMap _ k v => node_dict t [raw_dict k; raw_dict v]
    | TStruct _ fs => node_dict t (map raw_dict fs)
    | TUnion _ ts => node_dict t (map raw_dict ts)
    | _ => node_dict t []
    end.

(** Default parameter values collected by inspect.signature over the MRO,
    types.py:622-636: the union of the defaults of the class's own __init__ and of
    RecapType.__init__, with a trailing underscore stripped. *)
Definition param_defaults (nm : string) : list (string * pyval) :=
  let base := [("logical", PNone); ("alias", PNone); ("doc", PNone)] in
  if String.eqb nm "int" then ("signed", PBool true) :: base
  else if String.eqb nm "string" then ("bytes", PNone) :: ("variable", PBool true) :: base
  else if String.eqb nm "bytes" then ("bytes", PNone) :: ("variable", PBool true) :: base
  else if String.eqb nm "list" then ("length", PNone) :: ("variable", PBool true) :: base
  else if String.eqb nm "struct" then ("fields", PNone) :: base
  else base.

(** types.py:638-643. *)
Definition strip_defaults (nm : string) (d : list (string * pyval)) : list (string * pyval) :=
  filter (fun kv => match dget (fst kv) (param_defaults nm) with
                    | None => true
                    | Some v => negb (py_eq v (snd kv))
                    end) d.

(** list.remove(x) for a string x that is known to be present. *)
Fixpoint remove_first (s : string) (l : list pyval) : list pyval :=
  match l with
  | [] => []
  | x :: r => if py_eq x (PStr s) then r else x :: remove_first s r
  end.

(** The "optional" sugar, types.py:666-705. *)
Definition sugar (d : list (string * pyval)) : res (list (string * pyval)) :=
  if negb (py_eq (kwarg "type" PNone d) (PStr "union")) then Ok d
  else
    match dget "types" d with
    | None => Err KeyError
    | Some tys =>
        (has <- py_str_in "null" tys ;;
         if negb (has && dmem "default" d) then Ok d
         else
           let alias := kwarg "alias" PNone d in
           let logical := kwarg "logical" PNone d in
           let default := kwarg "default" PNone d in
           let doc := kwarg "doc" PNone d in
           let name := kwarg "name" PNone d in
           let d := ddel "name" (ddel "doc" (ddel "default" (ddel "logical" (ddel "alias" d)))) in
           if negb (Nat.eqb (length d) 2) then Ok d
           else
             match tys with
             | PList l =>
                 let l' := remove_first "null" l in
                 let d := dset "types" (PList l') d in
                 let attrs :=
                   filter (fun kv => negb (is_none (snd kv)))
                     [("alias", alias); ("default", default); ("doc", doc);
                      ("logical", logical); ("name", name); ("optional", PBool true)] in
                 match l' with
                 | [nested] =>
                     if is_none alias && is_none logical then
                       match nested with
                       | PStr s => Ok (dupd [("type", PStr s)] attrs)
                       | PDict nd => Ok (dupd nd attrs)
                       | _ => Err AssertionError
                       end
                     else Ok (dupd d attrs)
                 | _ => Ok (dupd d attrs)
                 end
             | _ => Err Unmodelled
             end)%res
    end.

(** types.py:707-715. *)
Definition shorten (d : list (string * pyval)) : pyval :=
  if Nat.eqb (length d) 1 then kwarg "type" PNone d
  else if py_eq (kwarg "type" PNone d) (PStr "union") && Nat.eqb (length d) 2
  then kwarg "types" PNone d
  else PDict d.

(** The normalisation at the start of clean_dict, types.py:605-619. *)
Definition clean_input (j : pyval) : res (list (string * pyval)) :=
  match j with
  | PList l => Ok [("type", PStr "union"); ("types", PList l)]
  | PDict d => if dmem "type" d then Ok d else Err ValueError
  | PStr s => Ok [("type", PStr s)]
  | _ => Err AttributeError
  end.

(** The part of clean_dict between normalisation and sugar, types.py:621-661. *)
Definition clean_body (rec : pyval -> res pyval) (d : list (string * pyval))
  : res (list (string * pyval)) :=
  match kwarg "type" PNone d with
  | PStr nm =>
      let d := strip_defaults nm d in
      (d <- (if str_in nm ["list"; "map"] then
               match dget "values" d with
               | None => Err AssertionError
               | Some v => (v' <- rec v ;; Ok (dset "values" v' d))
               end
             else Ok d) ;;
       d <- (if String.eqb nm "map" then
               match dget "keys" d with
               | None => Err KeyError
               | Some v => (v' <- rec v ;; Ok (dset "keys" v' d))
               end
             else Ok d) ;;
       d <- (if String.eqb nm "struct" then
               match dget "fields" d with
               | None => Ok d
               | Some v => (l <- py_iter v ;; l' <- rmap rec l ;; Ok (dset "fields" (PList l') d))
               end
             else Ok d) ;;
       (if String.eqb nm "union" then
          match dget "types" d with
          | None => Err KeyError
          | Some v => (l <- py_iter v ;; l' <- rmap rec l ;; Ok (dset "types" (PList l') d))
          end
        else Ok d))%res
  | PList _ =>
      match dget "types" d with
      | None => Err KeyError
      | Some v =>
          (l <- py_iter v ;; l' <- rmap rec l ;;
           Ok [("type", PStr "union"); ("types", PList l')])%res
      end
  | _ => Ok d
  end.

(** clean_dict, types.py:578-715, with recursion fuel. *)
Fixpoint clean_dict_f (n : nat) (j : pyval) : res pyval :=
  match n with
  | O => Err OutOfFuel
  | S n' =>
      (d <- clean_input j ;;
       d <- clean_body (clean_dict_f n') d ;;
       d <- sugar d ;;
       Ok (shorten d))%res
  end.
Definition clean_dict (j : pyval) : res pyval := clean_dict_f (psize j) j.

(** types.py:748-750: first registry entry equal to the type. *)
Definition find_alias (R : registry) (t : rtype) : option string :=
  match find (fun kv => rt_eq t (snd kv)) R with
  | Some (a, _) => Some a
  | None => None
  end.

(** One round of the loop types.py:753-761 for a key. *)
Definition alias_key (rec : list (string * pyval) -> M pyval) (k : string)
    (d : list (string * pyval)) : M (list (string * pyval)) :=
  match dget k d with
  | Some (PList l) =>
      (l' <- mmap (fun t => match t with PDict td => rec td | _ => ret t end) l ;;
       ret (dset k (PList l') d))%mon
  | Some (PDict td) => (v <- rec td ;; ret (dset k v d))%mon
  | _ => ret d
  end.

(** alias_dict, types.py:718-763, with recursion fuel. *)
Fixpoint alias_dict_f (n : nat) (d : list (string * pyval)) : M pyval :=
  match n with
  | O => fail OutOfFuel
  | S n' =>
      if negb (is_none (kwarg "alias" PNone d)) then ret (PDict d)
      else
        (t <- from_dict (PDict d) ;;
         fun R =>
           match find_alias R t with
           | Some a => (R, Ok (PDict [("type", PStr a)]))
           | None =>
               (d <- alias_key (alias_dict_f n') "values" d ;;
                d <- alias_key (alias_dict_f n') "keys" d ;;
                d <- alias_key (alias_dict_f n') "fields" d ;;
                d <- alias_key (alias_dict_f n') "types" d ;;
                ret (PDict d))%mon R
           end)%mon
  end.
(** alias_dict(d) with registry=None. *)
Definition alias_dict (d : list (string * pyval)) : res pyval :=
  snd (alias_dict_f (psize (PDict d)) d builtin_aliases).

(** types.py:569-575. *)
Definition post_dict (clean alias : bool) (d : list (string * pyval)) : res pyval :=
  (d <- (if alias then alias_dict d else Ok (PDict d)) ;;
   (if clean then clean_dict d else Ok d))%res.

(** to_dict, types.py:488-575. *)
Fixpoint to_dict (clean alias : bool) (t : rtype) : res pyval :=
  (kids <-
     match t with
     | TList _ v _ _ => (a <- to_dict clean alias v ;; Ok [a])
     | TMap _ k v => (a <- to_dict clean alias k ;; b <- to_dict clean alias v ;; Ok [a; b])
     | TStruct _ fs =>
         (fix go (l : list rtype) : res (list pyval) :=
            match l with
            | [] => Ok []
            | x :: xs => (y <- to_dict clean alias x ;; ys <- go xs ;; Ok (y :: ys))
            end) fs
     | TUnion _ ts =>
         (fix go (l : list rtype) : res (list pyval) :=
            match l with
            | [] => Ok []
            | x :: xs => (y <- to_dict clean alias x ;; ys <- go xs ;; Ok (y :: ys))
            end) ts
     | _ => Ok []
     end ;;
   post_dict clean alias (node_dict t kids))%res.
