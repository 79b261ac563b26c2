(** The messages of proto files as data (C119, C120); independent of recap/converters.  Only the shape of a
    proto file is taken from Proto.v. *)
From Coq Require Import String Ascii List NArith ZArith QArith Bool.
From Verif Require Import PyVal RType Registry SpecTypes SpecInstances SpecRows Proto SpecProto.
Import ListNotations.
Open Scope nat_scope.
Open Scope string_scope.
Open Scope list_scope.

(** *** Names: "Packages and Name Resolution" of the language guide *)
Section Names.
  Variables (p : string) (els : list element).
  (** The message or enum [e] with the simple name [n] has the full name [a]. *)
  Definition declared_as (a n : string) (e : element) : Prop :=
    exists q els', scope p els q els' /\ In e els' /\ a = (q ++ "." ++ n)%string /\
      ((exists m, e = EMessage n m) \/ (exists vs, e = EEnum n vs)).
  Definition is_declared (a : string) : Prop := exists n e, declared_as a n e.
  (** [names ty q a]: the type [ty] of a field, in the scope with the full name [q], is the one with the full
      name [a].  The innermost scope is searched first, then the next outer one, and so on. *)
  Inductive names (ty : string) : string -> string -> Prop :=
  | names_here q : is_declared (q ++ "." ++ ty)%string -> names ty q (q ++ "." ++ ty)%string
  | names_outer q n a : dotless n -> ~ is_declared (q ++ "." ++ n ++ "." ++ ty)%string -> names ty q a ->
      names ty (q ++ "." ++ n)%string a
  | names_root q : dotless q -> ~ is_declared (q ++ "." ++ ty)%string -> is_declared ty -> names ty q ty
  | names_full q a : ty = ("." ++ a)%string -> is_declared a -> names ty q a.
End Names.

(** *** Data *)
Section Data.
  (** The instants of a Timestamp, in nanoseconds since the epoch, and the bytes of the longest string. *)
  Variables (instant : Z -> Prop) (limit : Z).
  Inductive scalar_data : string -> datum -> Prop :=
  | sd_int ty lo hi z : proto_range ty = Some (lo, hi) -> (lo <= z <= hi)%Z -> scalar_data ty (DInt z)
  | sd_bool b : scalar_data "bool" (DBool b)
  | sd_float q : single q -> scalar_data "float" (DFloat q)
  | sd_double q : double q -> scalar_data "double" (DFloat q)
  | sd_string s : (Z.of_nat (String.length s) <= limit)%Z -> scalar_data "string" (DText s)
  | sd_bytes s : (Z.of_nat (String.length s) <= limit)%Z -> scalar_data "bytes" (DBytes s)
  | sd_timestamp z n k : instant z -> same_number z 9 n k -> scalar_data "google.protobuf.Timestamp" (DInstant n k)
  | sd_null : scalar_data "google.protobuf.NullValue" DNull.

  Variables (p : string) (els : list element).
  (** A field that is not required and not set is DNull.  The value of a oneof is the value of the member that
      is set.  [fields q l r]: [r] has the values of the fields among [l], the elements of the message [q]. *)
  Inductive data (q : string) : string -> datum -> Prop :=
  | d_scalar ty v : scalar_data ty v -> data q ty v
  | d_message ty a n m r : ~ In ty proto_scalars -> names p els ty q a -> declared_as p els a n (EMessage n m) ->
      fields a m r -> data q ty (DRow r)
  | d_enum ty a n vs s z : ~ In ty proto_scalars -> names p els ty q a -> declared_as p els a n (EEnum n vs) ->
      In (PStr s, z) vs -> data q ty (DText s)
  with value (q : string) : element -> datum -> Prop :=
  | v_unset nm i ty c : c <> Some Required -> value q (EField nm i ty c) DNull
  | v_single nm i ty c v : c <> Some Repeated -> data q ty v -> value q (EField nm i ty c) v
  | v_repeated nm i ty l : (forall v, In v l -> data q ty v) -> value q (EField nm i ty (Some Repeated)) (DList l)
  | v_no_map nm i k t : value q (EMapField nm i k t) DNull
  | v_map nm i k t l : (forall x v, In (x, v) l -> data q k x) -> (forall x v, In (x, v) l -> data q t v) ->
      value q (EMapField nm i k t) (DMap l)
  | v_none nm l : value q (EOneOf nm l) DNull
  | v_one nm l m i ty c v : In (EField m i ty c) l -> data q ty v -> value q (EOneOf nm l) v
  with fields (q : string) : list element -> list (string * datum) -> Prop :=
  | f_nil : fields q [] []
  | f_skip e l r : is_member e = false -> fields q l r -> fields q (e :: l) r
  | f_cons e l n v r : element_name e = Some (PStr n) -> value q e v -> fields q l r -> fields q (e :: l) ((n, v) :: r).

  (** The messages of the first message type of the file. *)
  Definition message (v : datum) : Prop :=
    exists n m r, first_message els = Some (n, m) /\ v = DRow r /\ fields (p ++ "." ++ n)%string m r.
End Data.

(** 0001-01-01T00:00:00Z to 9999-12-31T23:59:59.999999999Z, timestamp.proto. *)
Definition proto_instant (z : Z) : Prop := (-62135596800 * 10 ^ 9 <= z < 253402300800 * 10 ^ 9)%Z.
(** Messages are smaller than 2 GiB. *)
Definition proto_message := message proto_instant (2 ^ 31 - 1).

(** *** Files whose references can be followed *)
(** The types that the fields of a message mention. *)
Definition mentions (e : element) : list string :=
  match e with
  | EField _ _ ty _ => [ty]
  | EMapField _ _ k t => [k; t]
  | EOneOf _ l => flat_map (fun x => match x with EField _ _ ty _ => [ty] | _ => [] end) l
  | _ => []
  end.
(** Every type that is mentioned is declared in the file, and it is mentioned by its simple name or by the
    package and its simple name. *)
Definition simply_named (p : string) (els : list element) : Prop :=
  forall q els' e ty, scope p els q els' -> q <> p -> In e els' -> In ty (mentions e) -> ~ In ty proto_scalars ->
    (exists a, names p els ty q a) /\
    (forall a n d, names p els ty q a -> declared_as p els a n d ->
       dotless n /\ (ty = n \/ ty = (p ++ "." ++ n)%string)).
