(** Vocabulary of the Protobuf properties, independent of the converter.  Only the shape of a
    proto file ([element], [felement]) is taken from Proto.v. *)
From Coq Require Import String Ascii List NArith ZArith Bool.
From Verif Require Import PyVal RType Registry SpecTypes SpecJson Proto.
Import ListNotations.
Open Scope nat_scope.
Open Scope string_scope.
Open Scope list_scope.

(** ** Field numbers (C41) *)
(** The numbers an element of a message uses. *)
Fixpoint numbers (e : element) : list nat :=
  match e with
  | EField _ n _ _ | EMapField _ n _ _ => [n]
  | EOneOf _ l => flat_map numbers l
  | _ => []
  end.
Definition well_numbered (els : list element) : Prop :=
  NoDup (flat_map numbers els) /\ Forall (fun n => 0 < n) (flat_map numbers els).
(** [inside els m]: the message body [m] occurs in [els], at any depth. *)
Inductive inside : list element -> list element -> Prop :=
| inside_here els n m : In (EMessage n m) els -> inside els m
| inside_deep els n m m' : In (EMessage n m) els -> inside m m' -> inside els m'.
Definition body (f : list felement) : list element :=
  flat_map (fun x => match x with FElement e => [e] | _ => [] end) f.

Definition nulls (t : rtype) : bool := match t with TNull _ => true | _ => false end.
(** A union with exactly one member that is not null. *)
Definition just (t x : rtype) : Prop := exists c ts, t = TUnion c ts /\ filter (fun y => negb (nulls y)) ts = [x].
(** Any other union. *)
Definition choice (t : rtype) : Prop :=
  exists c ts, t = TUnion c ts /\ length (filter (fun y => negb (nulls y)) ts) <> 1.
(** A type without a choice that is not below a struct. *)
Inductive plain : rtype -> Prop :=
| plain_just t x : just t x -> plain x -> plain t
| plain_list c v l va : plain v -> plain (TList c v l va)
| plain_other t : (forall c ts, t <> TUnion c ts) -> (forall c v l va, t <> TList c v l va) -> plain t.
(** Only the last field is a choice, and its members are plain. *)
Definition last_choice (fs : list rtype) : Prop :=
  exists l, (fs = l \/ exists x c ts, fs = l ++ [x] /\ x = TUnion c ts /\ Forall plain ts) /\ Forall plain l.

(** ** Declarations (C44) *)
(** [scope p els q els']: in a file of package [p] with elements [els], the elements of the
    package or message with the full name [q] are [els']. *)
Inductive scope (p : string) (els : list element) : string -> list element -> Prop :=
| scope_top : scope p els p els
| scope_in q els' n m : scope p els q els' -> In (EMessage n m) els' -> scope p els (q ++ "." ++ n)%string m.
Definition declares (f : list felement) (a : string) : Prop :=
  exists p els q els' n, f = FPackage p :: map FElement els /\ scope p els q els' /\ a = (q ++ "." ++ n)%string /\
    ((exists m, In (EMessage n m) els') \/ (exists vs, In (EEnum n vs) els')).
Definition aliased (t : rtype) (a : string) : Prop := c_alias (get_c t) = PStr a.
Definition struct_in (t : rtype) (a : string) : Prop := exists c fs, node_of (TStruct c fs) t /\ c_alias c = PStr a.
Definition dotless (n : string) : Prop := forall a b, n <> (a ++ "." ++ b)%string.
(** Every package between [p] and the name is itself a struct of the type. *)
Inductive rooted (t : rtype) (p : string) : string -> Prop :=
| rooted_top : rooted t p p
| rooted_in q n : rooted t p q -> dotless n -> struct_in t (q ++ "." ++ n)%string -> rooted t p (q ++ "." ++ n)%string.

(** ** Names (C82) *)
Definition element_name (e : element) : option pyval :=
  match e with EField n _ _ _ | EMapField n _ _ _ | EOneOf n _ => Some n | _ => None end.

(** ** Integer types (C84) *)
(** The values of the integer types of the proto language. *)
Definition proto_range (ty : string) : option (Z * Z) :=
  let signed b := Some (- 2 ^ (b - 1), 2 ^ (b - 1) - 1)%Z in
  let unsigned b := Some (0, 2 ^ b - 1)%Z in
  if existsb (String.eqb ty) ["int32"; "sint32"; "sfixed32"] then signed 32%Z
  else if existsb (String.eqb ty) ["int64"; "sint64"; "sfixed64"] then signed 64%Z
  else if existsb (String.eqb ty) ["uint32"; "fixed32"] then unsigned 32%Z
  else if existsb (String.eqb ty) ["uint64"; "fixed64"] then unsigned 64%Z
  else None.
Definition recap_range (bits : Z) (signed : bool) : Z * Z :=
  if signed then (- 2 ^ (bits - 1), 2 ^ (bits - 1) - 1)%Z else (0, 2 ^ bits - 1)%Z.
Definition within (a b : Z * Z) : Prop := (fst b <= fst a /\ snd a <= snd b)%Z.

(** The states that a converter goes through: any number of calls on any files. *)
Inductive reached : conv -> Prop :=
| reached_start namespace : reached (converter namespace)
| reached_call l s : reached s -> reached (fst (pr_to l s)).

(** ** Several files (C46) *)
(** The type with its references known only by their names. *)
Fixpoint by_name (t : rtype) : rtype :=
  match t with
  | TList c v l va => TList c (by_name v) l va
  | TMap c k v => TMap c (by_name k) (by_name v)
  | TStruct c fs => TStruct c (map by_name fs)
  | TUnion c ts => TUnion c (map by_name ts)
  | TProxy c _ => TProxy c None
  | _ => t
  end.
(** The simple names of the messages and enums that an element declares. *)
Fixpoint declared_in (e : element) : list string :=
  match e with
  | EMessage n els => n :: flat_map declared_in els
  | EEnum n _ => [n]
  | _ => []
  end.
Definition full_names (p : string) (l : list felement) : list string :=
  map (fun n => p ++ "." ++ n)%string (flat_map declared_in (body l)).
(** The answers of one converter to a sequence of files. *)
Fixpoint answers (s : conv) (files : list (list felement)) : list (res rtype) :=
  match files with
  | [] => []
  | l :: r => snd (pr_to l s) :: answers (fst (pr_to l s)) r
  end.

(** ** What a message means (C85) *)
(** The scalar types and the well-known types of the proto language. *)
Definition proto_scalars : list string :=
  ["double"; "float"; "int32"; "int64"; "uint32"; "uint64"; "sint32"; "sint64"; "fixed32"; "fixed64"; "sfixed32"; "sfixed64";
   "bool"; "string"; "bytes"; "google.protobuf.Timestamp"; "google.protobuf.Duration"; "google.protobuf.NullValue"].
Inductive scalar_reads : string -> rtype -> Prop :=
| reads_int ty c b s : proto_range ty = Some (recap_range b s) -> scalar_reads ty (TInt c (PInt b) (PBool s))
| reads_bool c : scalar_reads "bool" (TBool c)
| reads_float c : scalar_reads "float" (TFloat c (PInt 32))
| reads_double c : scalar_reads "double" (TFloat c (PInt 64))
| reads_string c n : (2 ^ 31 - 1 <= n)%Z -> scalar_reads "string" (TString c (PInt n) (PBool true))
| reads_bytes c n : (2 ^ 31 - 1 <= n)%Z -> scalar_reads "bytes" (TBytes c (PInt n) (PBool true))
| reads_timestamp c : c_logical c = PStr "build.recap.Timestamp" ->
    scalar_reads "google.protobuf.Timestamp" (TInt c (PInt 64) (PBool true))
| reads_duration c : c_logical c = PStr "build.recap.Duration" ->
    scalar_reads "google.protobuf.Duration" (TInt c (PInt 64) (PBool true))
| reads_null c : scalar_reads "google.protobuf.NullValue" (TNull c).
(** [ty], written in a file of package [p], means the message or enum with the full name [a]. *)
Definition refers (p ty a : string) : Prop := (dotless ty /\ a = (p ++ "." ++ ty)%string) \/ (~ dotless ty /\ a = ty).
Definition type_reads (p ty : string) (t : rtype) : Prop :=
  (In ty proto_scalars /\ scalar_reads ty t) \/ (~ In ty proto_scalars /\ exists a, refers p ty a /\ aliased t a).
Definition has_name (t : rtype) (n : pyval) : Prop := dget "name" (c_extra (get_c t)) = Some n.
Definition null_default (t : rtype) : Prop := dget "default" (c_extra (get_c t)) = Some PNone.
(** A list of such types for a repeated field. *)
Definition value_reads (p ty : string) (c : option card) (t : rtype) : Prop :=
  match c with
  | Some Repeated => exists k v l va, t = TList k v l va /\ type_reads p ty v
  | _ => type_reads p ty t
  end.
(** A field of a message and the field of the struct that it becomes. *)
Definition field_reads (p : string) (e : element) (t : rtype) : Prop :=
  match e with
  | EField n _ ty c =>
      has_name t n /\
      (c = Some Required /\ value_reads p ty c t \/
       c <> Some Required /\ null_default t /\
       (ty = "google.protobuf.NullValue" /\ c <> Some Repeated /\ nulls t = true \/
        exists k x, t = TUnion k [TNull c0; x] /\ value_reads p ty c x))
  | EMapField n _ kt vt =>
      (n <> PNone -> has_name t n) /\ null_default t /\
      exists k k' x y, t = TUnion k [TNull c0; TMap k' x y] /\ type_reads p kt x /\ type_reads p vt y
  | EOneOf n l =>
      has_name t n /\ null_default t /\
      exists k ts, t = TUnion k (TNull c0 :: ts) /\
        Forall2 (fun e x => match e with EField m _ ty _ => has_name x m /\ type_reads p ty x | _ => False end)
          (filter (fun e => match e with EField _ _ _ _ => true | _ => false end) l) ts
  | _ => False
  end.
Definition is_member (e : element) : bool :=
  match e with EField _ _ _ _ | EMapField _ _ _ _ | EOneOf _ _ => true | _ => false end.
(** The first message of a file. *)
Fixpoint first_message (l : list element) : option (string * list element) :=
  match l with
  | [] => None
  | EMessage n els :: _ => Some (n, els)
  | _ :: r => first_message r
  end.

(** ** Reading and writing again (C43) *)
(** No strings, bytes and maps, and no dots in the names of messages and enums. *)
Fixpoint rewritable (e : element) : Prop :=
  match e with
  | EField _ _ ty _ => ty <> "string" /\ ty <> "bytes"
  | EMapField _ _ _ _ => False
  | EOneOf _ l => fold_right (fun x P => rewritable x /\ P) True l
  | EMessage n l => dotless n /\ fold_right (fun x P => rewritable x /\ P) True l
  | EEnum n _ => dotless n
  | EOther => True
  end.

(** ** References between messages (C83) *)
(** The full name that a type in a file of package [p] refers to; none for a scalar. *)
Definition ref_of (p ty : string) : list string :=
  if existsb (String.eqb ty) proto_scalars then []
  else [if substr_in "." ty then ty else (p ++ "." ++ ty)%string].
(** The references in the fields of a message itself. *)
Definition refs_of (p : string) (els : list element) : list string :=
  flat_map (fun e => match e with
                     | EField _ _ ty _ => ref_of p ty
                     | EMapField _ _ k v => ref_of p k ++ ref_of p v
                     | EOneOf _ l => flat_map (fun x => match x with EField _ _ ty _ => ref_of p ty | _ => [] end) l
                     | _ => []
                     end) els.
(** The declarations of a file with their references, inner messages before the outer one. *)
Fixpoint declarations (p : string) (e : element) : list (string * list string) :=
  match e with
  | EMessage n els => flat_map (declarations p) els ++ [(p ++ "." ++ n, refs_of p els)%string]
  | EEnum n _ => [(p ++ "." ++ n, [])%string]
  | _ => []
  end.
(** Apart from [root], a message refers only to itself, to [root] and to what comes before it. *)
Fixpoint backward (root : string) (before : list string) (l : list (string * list string)) : Prop :=
  match l with
  | [] => True
  | (n, refs) :: r => (n = root \/ Forall (fun x => x = n \/ x = root \/ In x before) refs) /\ backward root (n :: before) r
  end.
(** Every reference is to a message or enum of the file. *)
Definition self_contained (p : string) (l : list felement) : Prop :=
  forall n refs a, In (n, refs) (flat_map (declarations p) (body l)) -> In a refs -> In a (full_names p l).
(** The key types of maps, without bool. *)
Fixpoint good_keys (e : element) : Prop :=
  match e with
  | EMapField _ _ k _ => k = "string" \/ proto_range k <> None
  | EMessage _ l => fold_right (fun x P => good_keys x /\ P) True l
  | _ => True
  end.

(** ** What a struct means (C42, C82, C84, C86) *)
Definition is_declaration (e : element) : Prop := (exists n m, e = EMessage n m) \/ (exists n v, e = EEnum n v).
(** The file has a message with the full name [a] and the fields [m]. *)
Definition message_of (f : list felement) (a : string) (m : list element) : Prop :=
  exists p els q els' n rest, f = FPackage p :: map FElement els /\ scope p els q els' /\ a = (q ++ "." ++ n)%string /\
    In (EMessage n (m ++ rest)) els' /\ Forall is_declaration rest.
(** [t] contains the struct with the full name [a] and the fields [fs], and from_recap has a place for it. *)
Definition placed (t : rtype) (p a : string) (fs : list rtype) : Prop :=
  exists c q n, node_of (TStruct c fs) t /\ c_alias c = PStr a /\ a = (q ++ "." ++ n)%string /\ dotless n /\ rooted t p q.
Definition list_type (t : rtype) : Prop := exists c v l va, t = TList c v l va.
Definition scalar (t : rtype) : Prop := match t with TList _ _ _ _ | TMap _ _ _ | TUnion _ _ => False | _ => True end.
(** The proto type that holds the values of a type. *)
Inductive scalar_writes : rtype -> string -> Prop :=
| writes_null c : scalar_writes (TNull c) "google.protobuf.NullValue"
| writes_bool c : scalar_writes (TBool c) "bool"
| writes_int c b s ty r : proto_range ty = Some r -> within (recap_range b s) r -> scalar_writes (TInt c (PInt b) (PBool s)) ty
| writes_float c b : (b <= 32)%Z -> scalar_writes (TFloat c (PInt b)) "float"
| writes_double c b : (32 < b <= 64)%Z -> scalar_writes (TFloat c (PInt b)) "double"
| writes_string c n va : (n < 2 ^ 31)%Z -> scalar_writes (TString c (PInt n) va) "string"
| writes_bytes c n va : (n < 2 ^ 31)%Z -> scalar_writes (TBytes c (PInt n) va) "bytes"
| writes_struct c fs a : c_alias c = PStr a -> scalar_writes (TStruct c fs) ("." ++ a)%string
| writes_enum c l a : c_alias c = PStr a -> scalar_writes (TEnum c l) ("." ++ a)%string
| writes_ref c r a : c_alias c = PStr a -> scalar_writes (TProxy c r) ("." ++ a)%string.
(** Attributes of the right kinds. *)
Definition typed (t : rtype) : Prop :=
  match t with
  | TInt _ b s => (exists z, b = PInt z /\ (0 < z)%Z) /\ exists g, s = PBool g
  | TFloat _ b | TString _ b _ | TBytes _ b _ => exists z, b = PInt z
  | _ => True
  end.
Definition simple (t : rtype) : Prop := scalar t /\ typed t.
(** The fields that can be written as they are: a scalar, a list or map of scalars, or a union of scalars. *)
Definition simple_field (t : rtype) : Prop :=
  match t with
  | TList _ v _ _ => simple v
  | TMap _ k v => simple k /\ simple v
  | TUnion _ ts => Forall (fun x => nulls x = true \/ simple x) ts
  | _ => simple t
  end.
Inductive field_writes : rtype -> element -> Prop :=
| writes_one t nm n ty : scalar t -> scalar_writes t ty -> field_writes t (EField nm n ty None)
| writes_list c v l va nm n ty : scalar_writes v ty -> field_writes (TList c v l va) (EField nm n ty (Some Repeated))
| writes_map c k v nm n kt vt : scalar_writes k kt -> scalar_writes v vt -> field_writes (TMap c k v) (EMapField nm n kt vt)
| writes_optional t x nm n ty : just t x -> scalar_writes x ty -> field_writes t (EField nm n ty (Some Optional))
| writes_oneof c ts nm els : choice (TUnion c ts) ->
    Forall2 (fun x e => exists nm n ty, e = EField nm n ty None /\ scalar_writes x ty) (filter (fun y => negb (nulls y)) ts) els ->
    field_writes (TUnion c ts) (EOneOf nm els).

(** ** References in the answer (C89, C90) *)
(** A type with the alias [a], other than a reference to it, occurs in [t]. *)
Definition written_out (t : rtype) (a : string) : Prop := exists u, node_of u t /\ is_proxy u = false /\ aliased u a.
(** [s] occurs in [t], but not inside a struct of [t]. *)
Inductive at_hand (s : rtype) : rtype -> Prop :=
| hand_self : at_hand s s
| hand_child t x : (forall c fs, t <> TStruct c fs) -> In x (children t) -> at_hand s x -> at_hand s t.
