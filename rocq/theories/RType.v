(** Recap type objects: recap/types.py lines 11-330. *)
From Coq Require Import String Ascii List ZArith QArith Bool Lia.
From Verif Require Import PyVal.
Import ListNotations.
Open Scope nat_scope.
Open Scope string_scope.
Open Scope list_scope.

(** Attributes shared by all types: RecapType.__init__, recap/types.py:14-26.
    Attribute values are arbitrary Python values because from_dict passes the
    document's values through unchecked. *)
Record common := mkC {
  c_logical : pyval;
  c_alias : pyval;
  c_doc : pyval;
  c_extra : list (string * pyval)
}.

Definition c0 : common := mkC PNone PNone PNone [].

(** The classes NullType ... ProxyType, recap/types.py:109-330.
    A proxy holds a reference to a registry (types.py:312-316).  [None] is the live
    registry shared with whoever created the proxy; [Some R] is a registry that was
    deep-copied together with the type (copy.deepcopy at types.py:320 and :348).
    ProxyType's alias is kept in [c_alias].  The cache [_resolved] is not modelled. *)
Inductive rtype :=
| TNull (c : common)
| TBool (c : common)
| TInt (c : common) (bits signed : pyval)
| TFloat (c : common) (bits : pyval)
| TString (c : common) (bytes variable : pyval)
| TBytes (c : common) (bytes variable : pyval)
| TList (c : common) (values : rtype) (length variable : pyval)
| TMap (c : common) (keys values : rtype)
| TStruct (c : common) (fields : list rtype)
| TEnum (c : common) (symbols : pyval)
| TUnion (c : common) (types : list rtype)
| TProxy (c : common) (reg : option (list (string * rtype))).

Definition registry := list (string * rtype).

(** Induction principle; the registry inside a proxy is opaque to it. *)
Fixpoint rtype_ind' (P : rtype -> Prop)
    (HNull : forall c, P (TNull c)) (HBool : forall c, P (TBool c))
    (HInt : forall c b s, P (TInt c b s)) (HFloat : forall c b, P (TFloat c b))
    (HString : forall c b v, P (TString c b v)) (HBytes : forall c b v, P (TBytes c b v))
    (HList : forall c v l r, P v -> P (TList c v l r))
    (HMap : forall c k v, P k -> P v -> P (TMap c k v))
    (HStruct : forall c fs, Forall P fs -> P (TStruct c fs))
    (HEnum : forall c s, P (TEnum c s))
    (HUnion : forall c ts, Forall P ts -> P (TUnion c ts))
    (HProxy : forall c r, P (TProxy c r))
    (t : rtype) : P t :=
  let rec := rtype_ind' P HNull HBool HInt HFloat HString HBytes HList HMap HStruct HEnum HUnion HProxy in
  let go := (fix go (l : list rtype) : Forall P l :=
               match l with
               | [] => Forall_nil _
               | x :: xs => Forall_cons _ (rec x) (go xs)
               end) in
  match t with
  | TNull c => HNull c
  | TBool c => HBool c
  | TInt c b s => HInt c b s
  | TFloat c b => HFloat c b
  | TString c b v => HString c b v
  | TBytes c b v => HBytes c b v
  | TList c v l r => HList c v l r (rec v)
  | TMap c k v => HMap c k v (rec k) (rec v)
  | TStruct c fs => HStruct c fs (go fs)
  | TEnum c s => HEnum c s
  | TUnion c ts => HUnion c ts (go ts)
  | TProxy c r => HProxy c r
  end.

Definition get_c (t : rtype) : common :=
  match t with
  | TNull c | TBool c | TInt c _ _ | TFloat c _ | TString c _ _ | TBytes c _ _
  | TList c _ _ _ | TMap c _ _ | TStruct c _ | TEnum c _ | TUnion c _ | TProxy c _ => c
  end.

Definition set_c (t : rtype) (c : common) : rtype :=
  match t with
  | TNull _ => TNull c
  | TBool _ => TBool c
  | TInt _ b s => TInt c b s
  | TFloat _ b => TFloat c b
  | TString _ b v => TString c b v
  | TBytes _ b v => TBytes c b v
  | TList _ v l r => TList c v l r
  | TMap _ k v => TMap c k v
  | TStruct _ fs => TStruct c fs
  | TEnum _ s => TEnum c s
  | TUnion _ ts => TUnion c ts
  | TProxy _ r => TProxy c r
  end.

(** RecapType.type_, set by each __init__ (types.py:113,120,127,146,161,184,213,241,260,275,286,313). *)
Definition type_name (t : rtype) : string :=
  match t with
  | TNull _ => "null" | TBool _ => "bool" | TInt _ _ _ => "int" | TFloat _ _ => "float"
  | TString _ _ _ => "string" | TBytes _ _ _ => "bytes" | TList _ _ _ _ => "list"
  | TMap _ _ _ => "map" | TStruct _ _ => "struct" | TEnum _ _ => "enum"
  | TUnion _ _ => "union" | TProxy _ _ => "proxy"
  end.

Definition is_null (t : rtype) : bool := match t with TNull _ => true | _ => false end.
Definition is_proxy (t : rtype) : bool := match t with TProxy _ _ => true | _ => false end.
Definition is_union (t : rtype) : bool := match t with TUnion _ _ => true | _ => false end.

(** RecapType.__eq__ on the shared attributes, types.py:92-101 (same class is
    checked by the caller). *)
Definition c_eq (a b : common) : bool :=
  py_eq (c_logical a) (c_logical b) && py_eq (c_alias a) (c_alias b) &&
  py_eq (c_doc a) (c_doc b) && dict_eq (c_extra a) (c_extra b).

(** __eq__ of all classes: types.py:92-101, 131-135, 149-150, 165-169, 188-192,
    218-223, 245-249, 263-264, 278-279, 289-290, 329-330.  A proxy's registry is
    not compared. *)
Fixpoint rt_eq (a b : rtype) {struct a} : bool :=
  match a, b with
  | TNull c, TNull c' => c_eq c c'
  | TBool c, TBool c' => c_eq c c'
  | TInt c x y, TInt c' x' y' => c_eq c c' && (py_eq x x' && py_eq y y')
  | TFloat c x, TFloat c' x' => c_eq c c' && py_eq x x'
  | TString c x y, TString c' x' y' => c_eq c c' && (py_eq x x' && py_eq y y')
  | TBytes c x y, TBytes c' x' y' => c_eq c c' && (py_eq x x' && py_eq y y')
  | TList c v l r, TList c' v' l' r' =>
      c_eq c c' && (rt_eq v v' && (py_eq l l' && py_eq r r'))
  | TMap c k v, TMap c' k' v' => c_eq c c' && (rt_eq k k' && rt_eq v v')
  | TStruct c fs, TStruct c' fs' =>
      c_eq c c' &&
      (fix go (l l' : list rtype) : bool :=
         match l, l' with
         | [], [] => true
         | x :: xs, y :: ys => rt_eq x y && go xs ys
         | _, _ => false
         end) fs fs'
  | TEnum c s, TEnum c' s' => c_eq c c' && py_eq s s'
  | TUnion c ts, TUnion c' ts' =>
      c_eq c c' &&
      (fix go (l l' : list rtype) : bool :=
         match l, l' with
         | [], [] => true
         | x :: xs, y :: ys => rt_eq x y && go xs ys
         | _, _ => false
         end) ts ts'
  | TProxy c _, TProxy c' _ => c_eq c c'
  | _, _ => false
  end.

(** IntType/FloatType.validate, types.py:137-139 and 152-154. *)
Definition validate_bits (b : pyval) : res unit :=
  (lt <- py_lt_z b 1 ;;
   if lt : bool then Err ValueError else
   gt <- py_gt_z b 2147483647 ;;
   if gt : bool then Err ValueError else Ok tt)%res.

(** StringType/BytesType.validate, types.py:171-177 and 194-200; the same checks
    on [length] in ListType.validate, types.py:226-233. *)
Definition validate_len (len var : pyval) : res unit :=
  if negb (truthy var) && is_none len then Err ValueError
  else if is_none len then Ok tt
  else
    (lt <- py_lt_z len 1 ;;
     if lt : bool then Err ValueError else
     gt <- py_gt_z len 9223372036854775807 ;;
     if gt : bool then Err ValueError else Ok tt)%res.

(** validate: types.py:88-90, 137-139, 152-154, 171-177, 194-200, 225-234, 251-253,
    266-268.  Unions, enums and proxies inherit the no-op. *)
Fixpoint validate (t : rtype) : res unit :=
  match t with
  | TInt _ b _ => validate_bits b
  | TFloat _ b => validate_bits b
  | TString _ b v => validate_len b v
  | TBytes _ b v => validate_len b v
  | TList _ vs l v => (_ <- validate_len l v ;; validate vs)%res
  | TMap _ k v => (_ <- validate k ;; validate v)%res
  | TStruct _ fs =>
      (fix go (l : list rtype) : res unit :=
         match l with
         | [] => Ok tt
         | x :: xs => (_ <- validate x ;; go xs)%res
         end) fs
  | _ => Ok tt
  end.

(** is_nullable, types.py:70-86. *)
Definition is_nullable (t : rtype) : bool :=
  match t with
  | TUnion _ ts => existsb is_null ts
  | _ => is_null t
  end.

(** UnionType.is_optional, types.py:292-306. *)
Definition is_optional (c : common) (ts : list rtype) : bool :=
  existsb (fun t => rt_eq t (TNull c0)) ts
  && dmem "default" (c_extra c)
  && Nat.eqb (length (filter (fun t => negb (rt_eq t (TNull c0))) ts)) 1.

(** copy.deepcopy of a type (types.py:320, 348) as seen by its proxies: a live
    registry reference becomes a private copy of the registry's current contents;
    private copies are copied again with the same contents.  Other attributes are
    plain data, for which a copy is indistinguishable in this model. *)
Fixpoint freeze (R : registry) (t : rtype) : rtype :=
  match t with
  | TList c v l r => TList c (freeze R v) l r
  | TMap c k v => TMap c (freeze R k) (freeze R v)
  | TStruct c fs => TStruct c (map (freeze R) fs)
  | TUnion c ts => TUnion c (map (freeze R) ts)
  | TProxy c None => TProxy c (Some R)
  | _ => t
  end.
