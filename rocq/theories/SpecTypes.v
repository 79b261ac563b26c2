(** Specifications for the type layer, independent of the model's functions:
    only the data types [pyval] and [rtype] are shared. *)
From Coq Require Import String Ascii List ZArith QArith Bool NArith.
From Verif Require Import PyVal RType.
Import ListNotations.
Open Scope nat_scope.
Open Scope string_scope.
Open Scope list_scope.

(** ** Nodes of a type tree *)
Definition children (t : rtype) : list rtype :=
  match t with
  | TList _ v _ _ => [v]
  | TMap _ k v => [k; v]
  | TStruct _ fs => fs
  | TUnion _ ts => ts
  | _ => []
  end.

(** [node_of s t]: [s] occurs in [t] (proxies are leaves). *)
Inductive node_of (s : rtype) : rtype -> Prop :=
| node_self : node_of s s
| node_child t c : In c (children t) -> node_of s c -> node_of s t.

(** ** Numeric limits of the type specification (C02) *)
Definition between (v : pyval) (lo hi : Z) : Prop :=
  exists q, num_of v = Some q /\ (inject_Z lo <= q)%Q /\ (q <= inject_Z hi)%Q.

Definition length_ok (len variable : pyval) : Prop :=
  (len = PNone /\ truthy variable = true) \/ between len 1 9223372036854775807.

Definition within_limits (t : rtype) : Prop :=
  match t with
  | TInt _ bits _ | TFloat _ bits => between bits 1 2147483647
  | TString _ len var | TBytes _ len var | TList _ _ len var => length_ok len var
  | _ => True
  end.

(** ** Alias names (C04, C06) *)
Definition alpha_ (c : ascii) : Prop :=
  let n := N_of_ascii c in
  ((97 <= n /\ n <= 122) \/ (65 <= n /\ n <= 90) \/ n = 95)%N.
Definition alnum_ (c : ascii) : Prop :=
  alpha_ c \/ (48 <= N_of_ascii c /\ N_of_ascii c <= 57)%N.

Fixpoint all_chars (P : ascii -> Prop) (s : string) : Prop :=
  match s with EmptyString => True | String c r => P c /\ all_chars P r end.

Definition identifier (s : string) : Prop :=
  match s with EmptyString => False | String c r => alpha_ c /\ all_chars alnum_ r end.

(** At least two identifiers separated by single dots. *)
Definition dotted_name (s : string) : Prop :=
  exists segs, 2 <= length segs /\ Forall identifier segs /\ s = String.concat "." segs.

(** The aliases defined by a type tree, children before parents. *)
Fixpoint defined_aliases (t : rtype) : list pyval :=
  (match t with
   | TList _ v _ _ => defined_aliases v
   | TMap _ k v => defined_aliases k ++ defined_aliases v
   | TStruct _ fs => flat_map defined_aliases fs
   | TUnion _ ts => flat_map defined_aliases ts
   | _ => []
   end) ++
  (match t with
   | TProxy _ _ => []
   | _ => match c_alias (get_c t) with PNone => [] | a => [a] end
   end).

(** Type objects up to the registries their proxies point to. *)
Fixpoint forget (t : rtype) : rtype :=
  match t with
  | TList c v l r => TList c (forget v) l r
  | TMap c k v => TMap c (forget k) (forget v)
  | TStruct c fs => TStruct c (map forget fs)
  | TUnion c ts => TUnion c (map forget ts)
  | TProxy c _ => TProxy c None
  | _ => t
  end.

(** The meaning of an alias: the type without its alias, doc and default. *)
Definition without_label (t : rtype) : rtype :=
  let c := get_c t in
  set_c t (mkC (c_logical c) PNone PNone
             (filter (fun kv => negb (String.eqb "default" (fst kv))) (c_extra c))).

(** ** Reading an attribute of a type object (C07)
    [t.logical], [t.bits], ... or, for any other name, [t.extra_attrs[k]]. *)
Definition attribute (t : rtype) (k : string) : option pyval :=
  let c := get_c t in
  if String.eqb k "logical" then Some (c_logical c)
  else if String.eqb k "alias" then Some (c_alias c)
  else if String.eqb k "doc" then Some (c_doc c)
  else
    let extra := dget k (c_extra c) in
    match t with
    | TInt _ b s => if String.eqb k "bits" then Some b else if String.eqb k "signed" then Some s else extra
    | TFloat _ b => if String.eqb k "bits" then Some b else extra
    | TString _ b v | TBytes _ b v =>
        if String.eqb k "bytes_" then Some b else if String.eqb k "variable" then Some v else extra
    | TList _ _ l v => if String.eqb k "length" then Some l else if String.eqb k "variable" then Some v else extra
    | TEnum _ s => if String.eqb k "symbols" then Some s else extra
    | _ => extra
    end.

(** Names that are methods, class slots or child slots of type objects rather than
    plain attributes; overriding them by a reference is outside the property. *)
Definition not_data : list string :=
  ["type_"; "make_nullable"; "is_nullable"; "validate"; "extra_attrs"; "values"; "keys"; "fields";
   "types"; "is_optional"; "registry"; "_resolved"; "resolve"].
Definition data_name (k : string) : Prop := ~ In k not_data /\ String.prefix "__" k = false.

(** Same class and same children, up to the registries that references point to. *)
Definition same_shape (t u : rtype) : Prop :=
  type_name t = type_name u /\ map forget (children t) = map forget (children u).

(** ** Equality (C11) *)
(** The value of a number; booleans count as 0 and 1. *)
Inductive number : pyval -> Q -> Prop :=
| number_false : number (PBool false) 0
| number_true : number (PBool true) 1
| number_int z : number (PInt z) (inject_Z z)
| number_float q : number (PFloat q) q.
(** Equality of values: numbers by value, dicts regardless of the order of their keys. *)
Inductive val_same : pyval -> pyval -> Prop :=
| vs_none : val_same PNone PNone
| vs_num a b q r : number a q -> number b r -> Qeq q r -> val_same a b
| vs_str s : val_same (PStr s) (PStr s)
| vs_list l l' : Forall2 val_same l l' -> val_same (PList l) (PList l')
| vs_dict d e : (forall k, In k (dkeys d) <-> In k (dkeys e)) ->
    (forall k v w, dget k d = Some v -> dget k e = Some w -> val_same v w) -> val_same (PDict d) (PDict e).
(** The attributes of a type that are not shared by all types. *)
Definition params (t : rtype) : list pyval :=
  match t with
  | TInt _ x y | TString _ x y | TBytes _ x y => [x; y]
  | TFloat _ x => [x]
  | TList _ _ x y => [x; y]
  | TEnum _ x => [x]
  | _ => []
  end.
Definition common_same (c c' : common) : Prop :=
  val_same (c_logical c) (c_logical c') /\ val_same (c_alias c) (c_alias c') /\
  val_same (c_doc c) (c_doc c') /\ val_same (PDict (c_extra c)) (PDict (c_extra c')).
Inductive type_same (t u : rtype) : Prop :=
| type_same_intro : type_name t = type_name u -> common_same (get_c t) (get_c u) ->
    Forall2 val_same (params t) (params u) -> Forall2 type_same (children t) (children u) -> type_same t u.

(** ** Built-in types (C81) *)
(** The number at the end of a name. *)
Fixpoint width_from (s : string) (n : Z) : Z :=
  match s with
  | EmptyString => n
  | String c r =>
      let d := Z.of_N (N_of_ascii c) in
      width_from r (if (48 <=? d)%Z && (d <=? 57)%Z then (10 * n + (d - 48))%Z else 0%Z)
  end.
Definition width (a : string) : Z := width_from a 0.
(** The width of a type: of its values, or of the lengths of its values. *)
Definition has_width (t : rtype) (n : Z) : Prop :=
  match t with
  | TInt _ (PInt b) _ | TFloat _ (PInt b) => b = n
  | TString _ (PInt l) (PBool v) | TBytes _ (PInt l) (PBool v) =>
      if v then l = (2 ^ (n - 1) - 1)%Z else (8 * l)%Z = n
  | _ => False
  end.
(** The class of a built-in type and whether it is signed, from the start of its name. *)
Definition has_kind (a : string) (t : rtype) : Prop :=
  (String.prefix "uint" a = true -> exists c b, t = TInt c b (PBool false)) /\
  (String.prefix "int" a = true -> String.prefix "interval" a = false -> exists c b, t = TInt c b (PBool true)) /\
  (String.prefix "float" a = true -> type_name t = "float") /\
  (String.prefix "string" a = true -> type_name t = "string") /\
  (String.prefix "bytes" a = true -> type_name t = "bytes").
