(** What an Avro schema describes, after the Avro 1.11 specification ("Schema Declaration", "Names",
    "Logical Types"), as relations between JSON values and Recap types (C95, C96); independent of
    recap/converters/avro.py. *)
From Coq Require Import String Ascii List NArith ZArith QArith Bool.
From Verif Require Import PyVal RType SpecTypes SpecAvro.
Import ListNotations.
Open Scope nat_scope.
Open Scope string_scope.
Open Scope list_scope.

Notation attrs := (list (string * pyval)).

(** ** Names *)
Definition no_dot (s : string) : Prop := substr_in "." s = false.
(** The namespace of a schema is its own if it has one, otherwise that of the schema around it.  The
    null namespace is called "_root". *)
Definition namespace_of (ns : string) (d : attrs) : string :=
  match dget "namespace" d with Some (PStr s) => s | _ => ns end.
Definition rooted (ns : string) : string := if String.eqb ns "" then "_root" else ns.
(** [named_as ns d ns' nm]: inside the schema [d] names belong to [ns'], and [nm] is its full name
    and its simple name. *)
Inductive named_as (ns : string) (d : attrs) : string -> option (string * string) -> Prop :=
| named_nothing : dget "name" d = None -> named_as ns d (namespace_of ns d) None
| named_simple b : dget "name" d = Some (PStr b) -> no_dot b ->
    named_as ns d (rooted (namespace_of ns d)) (Some ((rooted (namespace_of ns d) ++ "." ++ b)%string, b))
| named_full a b : dget "name" d = Some (PStr (a ++ "." ++ b)) -> no_dot b ->
    named_as ns d (rooted a) (Some ((rooted a ++ "." ++ b)%string, b)).
Definition refers (ns s : string) : string :=
  if substr_in "." s then s else (ns ++ "." ++ s)%string.

Definition full_of (nm : option (string * string)) : pyval :=
  match nm with Some (f, _) => PStr f | None => PNone end.
(** The attributes that a schema gives to a field. *)
Definition label (d : attrs) (nm : option (string * string)) (k : string) : option pyval :=
  if String.eqb k "name" then option_map (fun fs => PStr (snd fs)) nm
  else if String.eqb k "default" then dget "default" d else None.
(** The documentation, logical type, alias and attributes of a type: those of the schema, and [x]. *)
Record described (d : attrs) (nm : option (string * string)) (lo alias : pyval) (x : attrs) (c : common) : Prop := {
  de_logical : c_logical c = lo;
  de_alias : c_alias c = alias;
  de_doc : c_doc c = match dget "doc" d with Some v => v | None => PNone end;
  de_extra : forall k, dget k (c_extra c) = match label d nm k with Some v => Some v | None => dget k x end
}.

(** ** Reading (C95) *)
Definition longest : Z := (2 ^ 63 - 1)%Z.
Definition primitive (s : string) (c : common) : option rtype :=
  dget s [("null", TNull c); ("boolean", TBool c);
          ("int", TInt c (PInt 32) (PBool true)); ("long", TInt c (PInt 64) (PBool true));
          ("float", TFloat c (PInt 32)); ("double", TFloat c (PInt 64));
          ("bytes", TBytes c (PInt longest) (PBool true)); ("string", TString c (PInt longest) (PBool true))].
Definition int_of (v : pyval) (z : Z) : Prop := v = PInt z \/ (v = PBool true /\ z = 1%Z) \/ (v = PBool false /\ z = 0%Z).

(** Logical types: name, Recap name, attributes and type.  Whether a decimal or a duration has variable
    length is left open (C36). *)
Inductive logical_as (d : attrs) : string -> string -> attrs -> (common -> rtype) -> Prop :=
| la_decimal ty p s n v : dget "type" d = Some ty -> dget "precision" d = Some p ->
    s = match dget "scale" d with Some s => s | None => PInt 0 end ->
    n = match dget "size" d with Some n => n | None => PInt longest end ->
    logical_as d "decimal" "build.recap.Decimal" [("precision", p); ("scale", s)] (fun c => TBytes c n (PBool v))
| la_uuid : logical_as d "uuid" "build.recap.UUID" [] (fun c => TString c (PInt 36) (PBool false))
| la_date : logical_as d "date" "build.recap.Date" [("unit", PStr "day")] (fun c => TInt c (PInt 32) (PBool true))
| la_time l u b : In (l, (u, b)) [("time-millis", ("millisecond", 32%Z)); ("time-micros", ("microsecond", 64%Z))] ->
    logical_as d l "build.recap.Time" [("unit", PStr u)] (fun c => TInt c (PInt b) (PBool true))
| la_timestamp l u : In (l, u) [("timestamp-millis", "millisecond"); ("timestamp-micros", "microsecond")] ->
    logical_as d l "build.recap.Timestamp" [("unit", PStr u)] (fun c => TInt c (PInt 64) (PBool true))
| la_duration v : logical_as d "duration" "build.recap.Interval" [("signed", PBool true); ("unit", PStr "millisecond")]
    (fun c => TBytes c (PInt 12) (PBool v)).

(** A complex type is written with the attribute that it needs; without it, its name is a reference. *)
Definition needs : list (string * string) :=
  [("fixed", "size"); ("record", "fields"); ("enum", "symbols"); ("array", "items"); ("map", "values"); ("union", "types")].
Definition complex (s : string) (d : attrs) : Prop :=
  exists k v, In (s, k) needs /\ dget k d = Some v /\ (s = "fixed" -> exists z, int_of v z /\ (z <= longest)%Z).

(** [reads ns j t]: [t] is what the schema [j] describes inside the namespace [ns].  Whether a fixed
    type has variable length is left open (C36). *)
Inductive reads (ns : string) : pyval -> rtype -> Prop :=
| reads_string s t : reads ns (PDict [("type", PStr s)]) t -> reads ns (PStr s) t
| reads_object d ns' nm t : named_as ns d ns' nm ->
    match dget "logicalType" d with Some v => truthy v = false | None => True end ->
    reads_as ns' d nm t -> reads ns (PDict d) t
| reads_logical d ns' nm l lo x c t : named_as ns d ns' nm ->
    dget "logicalType" d = Some (PStr l) -> logical_as d l lo x t -> described d nm (PStr lo) PNone x c ->
    reads ns (PDict d) (t c)
with reads_as (ns : string) : attrs -> option (string * string) -> rtype -> Prop :=
| ra_primitive d nm s c t : dget "type" d = Some (PStr s) -> described d nm PNone (full_of nm) [] c ->
    primitive s c = Some t -> reads_as ns d nm t
| ra_fixed d nm c n z v : dget "type" d = Some (PStr "fixed") -> described d nm PNone (full_of nm) [] c ->
    dget "size" d = Some n -> int_of n z -> (z <= longest)%Z -> reads_as ns d nm (TBytes c n (PBool v))
| ra_record d nm c v l fs : dget "type" d = Some (PStr "record") -> described d nm PNone (full_of nm) [] c ->
    dget "fields" d = Some v -> py_iter v = Ok l -> Forall2 (reads ns) l fs -> reads_as ns d nm (TStruct c fs)
| ra_enum d nm c s : dget "type" d = Some (PStr "enum") -> described d nm PNone (full_of nm) [] c ->
    dget "symbols" d = Some s -> reads_as ns d nm (TEnum c s)
| ra_array d nm c j t : dget "type" d = Some (PStr "array") -> described d nm PNone (full_of nm) [] c ->
    dget "items" d = Some j -> reads ns j t -> reads_as ns d nm (TList c t PNone (PBool true))
| ra_map d nm c k j t : dget "type" d = Some (PStr "map") -> described d nm PNone (full_of nm) [] c ->
    dget "values" d = Some j -> reads ns j t -> k = TString c0 (PInt longest) (PBool true) ->
    reads_as ns d nm (TMap c k t)
| ra_union d nm c l ts : dget "type" d = Some (PList l)
      \/ (dget "type" d = Some (PStr "union") /\ exists v, dget "types" d = Some v /\ py_iter v = Ok l) ->
    described d nm PNone (full_of nm) [] c -> Forall2 (reads ns) l ts -> reads_as ns d nm (TUnion c ts)
| ra_reference d nm c s : dget "type" d = Some (PStr s) -> ~ In s avro_prims -> ~ complex s d ->
    described d nm PNone (PStr (refers ns s)) [] c -> reads_as ns d nm (TProxy c None)
| ra_definition d nm e t0 t x : dget "type" d = Some (PDict e) -> reads ns (PDict e) t0 ->
    (* the attributes of the field are added to those of the definition, its documentation among them *)
    t = set_c t0 (mkC (c_logical (get_c t0)) (c_alias (get_c t0)) (c_doc (get_c t0)) x) ->
    (forall k, dget k x = match (if String.eqb k "doc" then dget "doc" d else label d nm k) with
                          | Some v => Some v | None => dget k (c_extra (get_c t0)) end) ->
    reads_as ns d nm t.

(** Every namespace that a document gives is a string. *)
Inductive namespaced : pyval -> Prop :=
| nsp_dict d : match dget "namespace" d with Some (PStr _) | None => True | _ => False end ->
    (forall k v, dget k d = Some v -> namespaced v) -> namespaced (PDict d)
| nsp_list l : Forall namespaced l -> namespaced (PList l)
| nsp_other v : match v with PDict _ | PList _ => False | _ => True end -> namespaced v.

(** The full names that a type gives to itself and its parts, the parts first. *)
Inductive gives : rtype -> list string -> Prop :=
| gives_intro t ls own : Forall2 gives (children t) ls ->
    own = match c_alias (get_c t), is_proxy t with PStr a, false => [a] | _, _ => [] end ->
    gives t (List.concat ls ++ own).

(** ** Writing (C96) *)
(** The attributes of a type in its schema: documentation, name, default value, and the full name of
    a definition. *)
Definition written_labels (t : rtype) : attrs :=
  let c := get_c t in
  (if truthy (c_doc c) then [("doc", c_doc c)] else []) ++
  (match dget "name" (c_extra c) with Some n => if truthy n then [("name", n)] else [] | None => [] end) ++
  (match dget "default" (c_extra c) with Some v => [("default", v)] | None => [] end) ++
  (match t, c_alias c with
   | TProxy _ _, _ => []
   | _, PStr a => if substr_in "." a then [("aliases", PList [PStr a])] else []
   | _, _ => []
   end).

Definition not_logical (c : common) : Prop := forall s, c_logical c <> PStr s.
Definition has_unit (c : common) (u : string) : Prop := dget "unit" (c_extra c) = Some (PStr u).

(** The Avro type of a logical type. *)
Inductive logical_body : rtype -> attrs -> Prop :=
| lb_decimal c n z v p : c_logical c = PStr "build.recap.Decimal" -> int_of n z -> (z <= longest)%Z ->
    dget "precision" (c_extra c) = Some p -> (exists q, int_of p q) ->
    logical_body (TBytes c n (PBool v))
      [("type", PStr "bytes"); ("logicalType", PStr "decimal"); ("precision", p);
       ("scale", match dget "scale" (c_extra c) with Some s => s | None => PInt 0 end)]
| lb_duration c n : c_logical c = PStr "build.recap.Interval" -> py_eq n (PInt 12) = true -> has_unit c "millisecond" ->
    logical_body (TBytes c n (PBool false))
      [("type", PStr "fixed"); ("logicalType", PStr "duration"); ("size", PInt 12)]
| lb_date c n z : c_logical c = PStr "build.recap.Date" -> int_of n z -> (z <= 32)%Z ->
    logical_body (TInt c n (PBool true)) [("type", PStr "int"); ("logicalType", PStr "date")]
| lb_time_millis c n z : c_logical c = PStr "build.recap.Time" -> int_of n z -> (z <= 32)%Z -> has_unit c "millisecond" ->
    logical_body (TInt c n (PBool true)) [("type", PStr "int"); ("logicalType", PStr "time-millis")]
| lb_time_micros c n z : c_logical c = PStr "build.recap.Time" -> int_of n z -> (z <= 64)%Z -> has_unit c "microsecond" ->
    logical_body (TInt c n (PBool true)) [("type", PStr "long"); ("logicalType", PStr "time-micros")]
| lb_timestamp c n z u l : c_logical c = PStr "build.recap.Timestamp" -> int_of n z -> (z <= 64)%Z ->
    In (u, l) [("millisecond", "timestamp-millis"); ("microsecond", "timestamp-micros")] -> has_unit c u ->
    logical_body (TInt c n (PBool true)) [("type", PStr "long"); ("logicalType", PStr l)]
| lb_uuid c n z v : c_logical c = PStr "build.recap.UUID" -> int_of n z -> (z <= longest)%Z ->
    logical_body (TString c n v) [("type", PStr "string"); ("logicalType", PStr "uuid")].

(** The Avro type of an integer: int, long, or a decimal with as many digits as all values of the width
    have (C33).  CPython prints integers of at most 4300 digits. *)
Inductive int_body : Z -> bool -> attrs -> Prop :=
| ib_int z : (z <= 32)%Z -> int_body z true [("type", PStr "int")]
| ib_long z (s : bool) : (if s then 32 < z <= 64 else z <= 32)%Z -> int_body z s [("type", PStr "long")]
| ib_decimal z (s : bool) p : (if s then 64 < z else 32 < z)%Z ->
    (10 ^ p <= 2 ^ (z - if s then 1 else 0) < 10 ^ (p + 1))%Z -> (0 <= p < 4300)%Z ->
    int_body z s [("type", PStr "bytes"); ("logicalType", PStr "decimal"); ("precision", PInt p)].

(** [writes t j]: [j] is the schema of [t].  An object with nothing but a name may be written as
    the name. *)
Inductive writes : rtype -> pyval -> Prop :=
| writes_name t s : writes t (PDict [("type", PStr s)]) -> writes t (PStr s)
| writes_object t b d : written_as t b -> (forall k, dget k d = dget k (written_labels t ++ b)) -> writes t (PDict d)
with written_as : rtype -> attrs -> Prop :=
| wa_logical t b : logical_body t b -> written_as t b
| wa_null c : not_logical c -> written_as (TNull c) [("type", PStr "null")]
| wa_bool c : not_logical c -> written_as (TBool c) [("type", PStr "boolean")]
| wa_int c n z s b : not_logical c -> int_of n z -> int_body z s b -> written_as (TInt c n (PBool s)) b
| wa_float c n z : not_logical c -> int_of n z -> (z <= 32)%Z -> written_as (TFloat c n) [("type", PStr "float")]
| wa_double c n z : not_logical c -> int_of n z -> (32 < z <= 64)%Z -> written_as (TFloat c n) [("type", PStr "double")]
| wa_string c n z v : not_logical c -> int_of n z -> (z <= longest)%Z -> written_as (TString c n v) [("type", PStr "string")]
| wa_bytes c n z : not_logical c -> int_of n z -> (z <= longest)%Z -> written_as (TBytes c n (PBool true)) [("type", PStr "bytes")]
| wa_fixed c n z : not_logical c -> int_of n z -> (z <= longest)%Z ->
    written_as (TBytes c n (PBool false)) [("type", PStr "fixed"); ("size", n)]
| wa_list c t n v j : not_logical c -> writes t j -> written_as (TList c t n v) [("type", PStr "array"); ("items", j)]
| wa_map c kc n v t j : not_logical c -> writes t j ->
    written_as (TMap c (TString kc n v) t) [("type", PStr "map"); ("values", j)]
| wa_struct c fs l : not_logical c -> Forall2 (fun f o => writes f (PDict o)) fs l ->
    written_as (TStruct c fs) [("type", PStr "record"); ("fields", PList (map PDict l))]
| wa_enum c l : not_logical c -> written_as (TEnum c (PList l)) [("type", PStr "enum"); ("symbols", PList l)]
| wa_union c ts l : not_logical c -> Forall2 writes ts l -> written_as (TUnion c ts) [("type", PList l)]
| wa_reference c r a : not_logical c -> c_alias c = PStr a -> substr_in "." a = true ->
    written_as (TProxy c r) [("type", PStr a)].

(** Aliases are strings, and references are to names with a dot, which are not built-in (C72). *)
Inductive proper : rtype -> Prop :=
| proper_intro t : sized_alias (get_c t) ->
    match t with TProxy c _ => exists a, c_alias c = PStr a /\ substr_in "." a = true | _ => True end ->
    Forall proper (children t) -> proper t.
