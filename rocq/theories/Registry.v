(** RecapTypeRegistry and ProxyType.resolve: recap/types.py lines 309-362, 781-849. *)
From Coq Require Import String Ascii List ZArith QArith Bool Lia.
From Verif Require Import PyVal RType Regex.
Import ListNotations.
Open Scope nat_scope.
Open Scope string_scope.
Open Scope list_scope.

Definition lg (s : string) : common := mkC (PStr s) PNone PNone [].
Definition lge (s : string) (e : list (string * pyval)) : common := mkC (PStr s) PNone PNone e.

(** BUILTIN_ALIASES, types.py:781-849. *)
Definition builtin_aliases : registry :=
  [ ("int8", TInt c0 (PInt 8) (PBool true));
    ("uint8", TInt c0 (PInt 8) (PBool false));
    ("int16", TInt c0 (PInt 16) (PBool true));
    ("uint16", TInt c0 (PInt 16) (PBool false));
    ("int32", TInt c0 (PInt 32) (PBool true));
    ("uint32", TInt c0 (PInt 32) (PBool false));
    ("int64", TInt c0 (PInt 64) (PBool true));
    ("uint64", TInt c0 (PInt 64) (PBool false));
    ("float16", TFloat c0 (PInt 16));
    ("float32", TFloat c0 (PInt 32));
    ("float64", TFloat c0 (PInt 64));
    ("string32", TString c0 (PInt 2147483648) (PBool true));
    ("string64", TString c0 (PInt 9223372036854775807) (PBool true));
    ("bytes32", TBytes c0 (PInt 2147483648) (PBool true));
    ("bytes64", TBytes c0 (PInt 9223372036854775807) (PBool true));
    ("uuid", TString (lg "build.recap.UUID") (PInt 36) (PBool false));
    ("decimal128",
      TBytes (lge "build.recap.Decimal" [("precision", PInt 28); ("scale", PInt 14)])
        (PInt 16) (PBool false));
    ("decimal256",
      TBytes (lge "build.recap.Decimal" [("precision", PInt 56); ("scale", PInt 28)])
        (PInt 32) (PBool false));
    ("duration64",
      TInt (lge "build.recap.Duration" [("unit", PStr "millisecond")]) (PInt 64) (PBool true));
    ("interval128",
      TBytes (lge "build.recap.Interval" [("unit", PStr "millisecond")]) (PInt 16) (PBool false));
    ("time32", TInt (lge "build.recap.Time" [("unit", PStr "second")]) (PInt 32) (PBool true));
    ("time64", TInt (lge "build.recap.Time" [("unit", PStr "second")]) (PInt 64) (PBool true));
    ("timestamp64",
      TInt (lge "build.recap.Timestamp" [("unit", PStr "millisecond"); ("timezone", PStr "UTC")])
        (PInt 64) (PBool true));
    ("date32", TInt (lge "build.recap.Date" [("unit", PStr "day")]) (PInt 32) (PBool true));
    ("date64", TInt (lge "build.recap.Date" [("unit", PStr "day")]) (PInt 64) (PBool true)) ].

(** State transformers over a registry.  A failing computation keeps the registry
    mutations done before the exception. *)
Definition M (A : Type) := registry -> registry * res A.
Definition ret {A} (a : A) : M A := fun R => (R, Ok a).
Definition fail {A} (e : exn) : M A := fun R => (R, Err e).
Definition lift {A} (r : res A) : M A := fun R => (R, r).
Definition mbind {A B} (m : M A) (f : A -> M B) : M B :=
  fun R => match m R with
           | (R', Ok a) => f a R'
           | (R', Err e) => (R', Err e)
           end.
Declare Scope mon_scope.
Delimit Scope mon_scope with mon.
Notation "x <- e ;; f" := (mbind e (fun x => f))
  (at level 61, e at next level, right associativity) : mon_scope.

Fixpoint mmap {A B} (f : A -> M B) (l : list A) : M (list B) :=
  match l with
  | [] => ret []
  | x :: xs => (y <- f x ;; ys <- mmap f xs ;; ret (y :: ys))%mon
  end.

(** The deep copy stored by register_alias: no alias, no doc, no default
    (types.py:348-355). *)
Definition stored (R : registry) (t : rtype) : rtype :=
  let t' := freeze R t in
  let c := get_c t' in
  set_c t' (mkC (c_logical c) PNone PNone (ddel "default" (c_extra c))).

(** RecapTypeRegistry.register_alias, types.py:340-356.  A non-string alias raises
    TypeError either in the dict lookup (unhashable) or in fullmatch. *)
Definition register_alias (t : rtype) : M unit :=
  fun R =>
    match c_alias (get_c t) with
    | PNone => (R, Err ValueError)
    | PStr a =>
        if dmem a R then (R, Err ValueError)
        else if re_match alias_regex a then (R ++ [(a, stored R t)], Ok tt)
        else (R, Err ValueError)
    | _ => (R, Err TypeError)
    end.

(** RecapTypeRegistry.from_alias, types.py:358-362. *)
Definition from_alias (R : registry) (a : string) : res rtype :=
  match dget a R with Some t => Ok t | None => Err TypeError end.

(** Names for which hasattr is true on every type object but which hold no plain
    data (methods, class slots, child slots); setting them produces an object
    outside this model. *)
Definition opaque_attr (t : rtype) (k : string) : bool :=
  str_in k ["type_"; "make_nullable"; "is_nullable"; "validate"]
  || String.prefix "__" k
  || match t with
     | TList _ _ _ _ => str_in k ["values"]
     | TMap _ _ _ => str_in k ["keys"; "values"]
     | TStruct _ _ => str_in k ["fields"]
     | TUnion _ _ => str_in k ["types"; "is_optional"]
     | TProxy _ _ => str_in k ["registry"; "_resolved"; "resolve"]
     | _ => false
     end.

(** One iteration of the override loop, types.py:322-326. *)
Definition set_attr (t : rtype) (k : string) (v : pyval) : res rtype :=
  if opaque_attr t k then Err Unmodelled
  else
    let c := get_c t in
    if String.eqb k "logical" then Ok (set_c t (mkC v (c_alias c) (c_doc c) (c_extra c)))
    else if String.eqb k "alias" then Ok (set_c t (mkC (c_logical c) v (c_doc c) (c_extra c)))
    else if String.eqb k "doc" then Ok (set_c t (mkC (c_logical c) (c_alias c) v (c_extra c)))
    else if String.eqb k "extra_attrs" then
      match v with
      | PDict d => Ok (set_c t (mkC (c_logical c) (c_alias c) (c_doc c) d))
      | _ => Err Unmodelled
      end
    else
      let other := Ok (set_c t (mkC (c_logical c) (c_alias c) (c_doc c) (dset k v (c_extra c)))) in
      match t with
      | TInt _ b s =>
          if String.eqb k "bits" then Ok (TInt c v s)
          else if String.eqb k "signed" then Ok (TInt c b v) else other
      | TFloat _ b => if String.eqb k "bits" then Ok (TFloat c v) else other
      | TString _ b r =>
          if String.eqb k "bytes_" then Ok (TString c v r)
          else if String.eqb k "variable" then Ok (TString c b v) else other
      | TBytes _ b r =>
          if String.eqb k "bytes_" then Ok (TBytes c v r)
          else if String.eqb k "variable" then Ok (TBytes c b v) else other
      | TList _ x l r =>
          if String.eqb k "length" then Ok (TList c x v r)
          else if String.eqb k "variable" then Ok (TList c x l v) else other
      | TEnum _ s => if String.eqb k "symbols" then Ok (TEnum c v) else other
      | _ => other
      end.

Fixpoint set_attrs (t : rtype) (kvs : list (string * pyval)) : res rtype :=
  match kvs with
  | [] => Ok t
  | (k, v) :: r => (t' <- set_attr t k v ;; set_attrs t' r)%res
  end.

(** The registry a proxy looks into. *)
Definition proxy_reg (R : registry) (r : option registry) : registry :=
  match r with None => R | Some R' => R' end.

(** ProxyType.resolve, types.py:318-327, first call (later calls return the cached
    object).  [R] is the current content of the live registry. *)
Definition resolve (R : registry) (t : rtype) : res rtype :=
  match t with
  | TProxy c r =>
      match c_alias c with
      | PStr a =>
          (t0 <- from_alias (proxy_reg R r) a ;;
           set_attrs (freeze (proxy_reg R r) t0) (c_extra c))%res
      | _ => Err TypeError
      end
  | _ => Err AttributeError
  end.
