(** Which data an Avro schema describes, after the Avro 1.11 specification ("Schema Declaration", "Names",
    "Logical Types"), as a relation between JSON values and values as in SpecRows.v (C116-C118);
    independent of recap/converters/avro.py.  Durations, NaN and infinite numbers are not among the values. *)
From Coq Require Import String Ascii List NArith ZArith QArith Bool.
From Verif Require Import PyVal RType SpecTypes SpecAvro SpecAvroSchema SpecDb SpecInstances SpecRows.
Import ListNotations.
Open Scope nat_scope.
Open Scope string_scope.
Open Scope list_scope.

(** ** Primitive types *)
Inductive prim_data : string -> datum -> Prop :=
| pd_null : prim_data "null" DNull
| pd_boolean b : prim_data "boolean" (DBool b)
| pd_int z : int_range 32 true z -> prim_data "int" (DInt z)
| pd_long z : int_range 64 true z -> prim_data "long" (DInt z)
| pd_float q : single q -> prim_data "float" (DFloat q)
| pd_double q : double q -> prim_data "double" (DFloat q)
| pd_bytes s : (Z.of_nat (String.length s) <= longest)%Z -> prim_data "bytes" (DBytes s)
| pd_string s : (Z.of_nat (String.length s) <= longest)%Z -> prim_data "string" (DText s).

(** ** Logical types *)
Definition digits_of (d : attrs) (p m : Z) : Prop :=
  dget "precision" d = Some (PInt p) /\ (0 < p)%Z /\ (0 <= m <= p)%Z
  /\ (dget "scale" d = Some (PInt m) \/ (dget "scale" d = None /\ m = 0%Z)).
Definition annotated : list (string * string) :=
  [("string", "uuid"); ("int", "date"); ("int", "time-millis"); ("long", "time-micros");
   ("long", "timestamp-millis"); ("long", "timestamp-micros");
   ("long", "local-timestamp-millis"); ("long", "local-timestamp-micros")].
(** The logical types that mean something where they stand; others must be ignored. *)
Inductive meant (d : attrs) : string -> Prop :=
| meant_bytes p m : dget "type" d = Some (PStr "bytes") -> digits_of d p m -> meant d "decimal"
| meant_fixed p m b : dget "type" d = Some (PStr "fixed") -> digits_of d p m -> dget "size" d = Some (PInt b) ->
    (10 ^ p <= 2 ^ (8 * b - 1))%Z -> meant d "decimal"
| meant_other s l : dget "type" d = Some (PStr s) -> In (s, l) annotated -> meant d l
| meant_duration : dget "type" d = Some (PStr "fixed") -> dget "size" d = Some (PInt 12) -> meant d "duration".
Definition ignored (d : attrs) : Prop :=
  match dget "logicalType" d with Some (PStr l) => ~ meant d l | _ => True end.

(** RFC 4122: hexadecimal digits in groups of 8, 4, 4, 4 and 12. *)
Definition hex_digit (c : ascii) : Prop :=
  (48 <= N_of_ascii c <= 57)%N \/ (65 <= N_of_ascii c <= 70)%N \/ (97 <= N_of_ascii c <= 102)%N.
Definition uuid (s : string) : Prop :=
  String.length s = 36 /\ forall i c, String.get i s = Some c -> if existsb (Nat.eqb i) [8; 13; 18; 23] then c = "-"%char else hex_digit c.

Inductive logical_data (d : attrs) : string -> datum -> Prop :=
| ld_decimal p m b z u k : digits_of d p m ->
    (dget "type" d = Some (PStr "bytes") /\ b = longest) \/ (dget "type" d = Some (PStr "fixed") /\ dget "size" d = Some (PInt b)) ->
    same_number z m u k -> (Z.abs z < 10 ^ p)%Z -> int_range (8 * b) true z -> logical_data d "decimal" (DNumber u k)
| ld_uuid s : uuid s -> logical_data d "uuid" (DText s)
| ld_date n : int_range 32 true n -> logical_data d "date" (DDay n)
| ld_time l m z n k : In (l, m) [("time-millis", 3%Z); ("time-micros", 6%Z)] -> same_number z m n k ->
    (0 <= z < 86400 * 10 ^ m)%Z -> logical_data d l (DClock n k)
| ld_timestamp l m z n k : In (l, m) [("timestamp-millis", 3%Z); ("timestamp-micros", 6%Z)] -> same_number z m n k ->
    int_range 64 true z -> logical_data d l (DInstant n k).

(** ** Documents *)
Section Document.
  (** A schema and the namespace around it. *)
  Variable start : string.
  Variable doc : pyval.

  (** [part ns j]: the document contains the schema [j], where names without a dot belong to [ns]. *)
  Inductive part : string -> pyval -> Prop :=
  | part_doc : part start doc
  | part_field ns d ns' nm l o j : part ns (PDict d) -> dget "type" d = Some (PStr "record") ->
      named_as ns d ns' (Some nm) -> dget "fields" d = Some (PList l) -> In (PDict o) l -> dget "type" o = Some j ->
      part ns' j
  | part_items ns d j : part ns (PDict d) -> dget "type" d = Some (PStr "array") -> dget "items" d = Some j -> part ns j
  | part_values ns d j : part ns (PDict d) -> dget "type" d = Some (PStr "map") -> dget "values" d = Some j -> part ns j
  | part_branch ns l j : part ns (PList l) -> In j l -> part ns j
  | part_type ns d j : part ns (PDict d) -> dget "type" d = Some j -> (forall s, j = PStr s -> ~ In s (map fst needs)) ->
      part ns j.

  (** Records, enums and fixed types are defined once and can be referred to by their full name. *)
  Definition definable : list string := ["record"; "enum"; "fixed"].
  Definition defined (f : string) (ns : string) (d : attrs) : Prop :=
    part ns (PDict d) /\ (exists s, dget "type" d = Some (PStr s) /\ In s definable /\ complex s d)
    /\ exists ns' b, named_as ns d ns' (Some (f, b)).
  Definition is_reference (s : string) : Prop := ~ In s avro_prims /\ ~ In s (map fst needs).

  (** [data ns j v]: [v] is a value of the schema [j]. *)
  Inductive data : string -> pyval -> datum -> Prop :=
  | data_primitive ns s v : prim_data s v -> data ns (PStr s) v
  | data_reference ns s ns' d v : is_reference s -> defined (refers ns s) ns' d -> data ns' (PDict d) v ->
      data ns (PStr s) v
  | data_object ns d j v : ignored d -> dget "type" d = Some j -> data ns j v -> data ns (PDict d) v
  | data_logical ns d l v : dget "logicalType" d = Some (PStr l) -> meant d l -> logical_data d l v -> data ns (PDict d) v
  | data_fixed ns d b s : ignored d -> dget "type" d = Some (PStr "fixed") -> dget "size" d = Some (PInt b) ->
      (b <= longest)%Z -> Z.of_nat (String.length s) = b -> data ns (PDict d) (DBytes s)
  | data_enum ns d l s : ignored d -> dget "type" d = Some (PStr "enum") -> dget "symbols" d = Some (PList l) ->
      In (PStr s) l -> data ns (PDict d) (DText s)
  | data_array ns d j l : ignored d -> dget "type" d = Some (PStr "array") -> dget "items" d = Some j ->
      (forall v, In v l -> data ns j v) -> data ns (PDict d) (DList l)
  | data_map ns d j l : ignored d -> dget "type" d = Some (PStr "map") -> dget "values" d = Some j ->
      (forall k v, In (k, v) l -> prim_data "string" k) -> (forall k v, In (k, v) l -> data ns j v) ->
      data ns (PDict d) (DMap l)
  | data_record ns d ns' nm l r : ignored d -> dget "type" d = Some (PStr "record") -> named_as ns d ns' (Some nm) ->
      dget "fields" d = Some (PList l) -> fields ns' l r -> data ns (PDict d) (DRow r)
  | data_union ns l j v : In j l -> data ns j v -> data ns (PList l) v
  with fields : string -> list pyval -> list (string * datum) -> Prop :=
  | fields_nil ns : fields ns [] []
  | fields_cons ns o n j v l r : dget "name" o = Some (PStr n) -> dget "type" o = Some j -> data ns j v ->
      fields ns l r -> fields ns (PDict o :: l) ((n, v) :: r).

  (** What Avro allows but the reader gets wrong: a logical type that has no meaning where it stands, a field
      with a logical type or a namespace, a name or a namespace on a schema that is not a definition, a size on
      a decimal that is not fixed. *)
  Definition meant_here (d : attrs) : Prop :=
    match dget "logicalType" d with
    | None => True
    | Some (PStr l) => meant d l /\ (dget "type" d = Some (PStr "fixed") \/ dget "size" d = None)
    | Some _ => False
    end.
  Definition nameless (d : attrs) : Prop := dget "name" d = None /\ dget "namespace" d = None.
  Definition tidy_field (o : attrs) : Prop :=
    (exists n, dget "name" o = Some (PStr n) /\ no_dot n) /\ dget "namespace" o = None /\ dget "logicalType" o = None.
  Definition tidy : Prop :=
    (forall ns d, part ns (PDict d) -> meant_here d
       /\ ((forall s, In s definable -> dget "type" d <> Some (PStr s)) -> nameless d))
    /\ (forall ns d l o, part ns (PDict d) -> dget "type" d = Some (PStr "record") -> dget "fields" d = Some (PList l) ->
          In (PDict o) l -> tidy_field o).
  (** No reference leads to a definition with a logical type. *)
  Definition plain_references : Prop := forall ns s ns' d,
    part ns (PStr s) -> is_reference s -> defined (refers ns s) ns' d -> dget "logicalType" d = None.
  (** Every name is that of a primitive type or of a definition, every complex type has its attribute, and
      fields are objects. *)
  Definition known (ns : string) (j : pyval) : Prop :=
    match j with
    | PStr s => In s avro_prims \/ (is_reference s /\ exists ns' d, defined (refers ns s) ns' d)
    | PDict d => (forall s, dget "type" d = Some (PStr s) -> In s (map fst needs) -> s <> "union" /\ complex s d)
        /\ (dget "type" d = Some (PStr "record") ->
            exists nm l, dget "name" d = Some nm /\ dget "fields" d = Some (PList (map PDict l)))
    | _ => True
    end.
  Definition well_formed : Prop := forall ns j, part ns j -> known ns j.
  (** No fixed type but decimals and durations, no UUIDs and no times of day. *)
  Definition precise : Prop := forall ns d, part ns (PDict d) ->
    (dget "type" d = Some (PStr "fixed") -> dget "logicalType" d <> None)
    /\ forall l, In l ["uuid"; "time-millis"; "time-micros"] -> dget "logicalType" d <> Some (PStr l).
End Document.

(** ** Types whose values are the data of the schemas written for them (C118) *)
(** [fit true t]: as a field of a record.  Names are given to records and fields; integers are not decimals
    (C33); UUIDs, times and durations are left out. *)
Definition has_name (t : rtype) : Prop := exists n, extra "name" t = Some (PStr n) /\ n <> "".
Inductive fit : bool -> rtype -> Prop :=
| fit_null b c : c_logical c = PNone -> fit b (TNull c)
| fit_bool b c : c_logical c = PNone -> fit b (TBool c)
| fit_int b c n (s : bool) : c_logical c = PNone -> (if s then n <= 64 else n <= 32)%Z -> fit b (TInt c (PInt n) (PBool s))
| fit_float b c n : c_logical c = PNone -> fit b (TFloat c n)
| fit_string b c n v : c_logical c = PNone -> fit b (TString c (PInt n) v)
| fit_bytes b c n : c_logical c = PNone -> fit b (TBytes c (PInt n) (PBool true))
| fit_fixed c n : c_logical c = PNone -> fit false (TBytes c (PInt n) (PBool false))
| fit_decimal c n v p m : logical_is c "build.recap.Decimal" -> extra_is c "precision" (PInt p) -> extra_is c "scale" (PInt m) ->
    (0 < p)%Z -> (0 <= m <= p)%Z -> fit false (TBytes c n v)
| fit_date c n : logical_is c "build.recap.Date" -> fit false (TInt c (PInt n) (PBool true))
| fit_timestamp c n : logical_is c "build.recap.Timestamp" -> fit false (TInt c (PInt n) (PBool true))
| fit_enum c l : c_logical c = PNone -> fit false (TEnum c l)
| fit_list c t n v : c_logical c = PNone -> fit false t -> fit false (TList c t n v)
| fit_map c kc n v t : c_logical c = PNone -> (n <= longest)%Z -> fit false t -> fit false (TMap c (TString kc (PInt n) v) t)
| fit_struct c fs : c_logical c = PNone -> has_name (TStruct c fs) -> (forall f, In f fs -> fit true f /\ has_name f) ->
    fit false (TStruct c fs)
| fit_union b c ts : c_logical c = PNone -> (forall t, In t ts -> fit false t) -> fit b (TUnion c ts).
