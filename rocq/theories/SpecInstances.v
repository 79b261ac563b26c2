(** Which JSON documents a JSON schema accepts, after the JSON Schema specification (draft 2020-12, Core
    sections 7-10 and Validation section 6), and which are values of a Recap type (C102, C103);
    independent of recap/converters/json_schema.py. *)
From Coq Require Import String Ascii List NArith ZArith QArith Bool.
From Verif Require Import PyVal RType Registry SpecTypes SpecJson.
Import ListNotations.
Open Scope nat_scope.
Open Scope string_scope.
Open Scope list_scope.

Notation attrs := (list (string * pyval)).

(** ** JSON types *)
(** JSON does not tell 1 from 1.0. *)
Definition number (v : pyval) (q : Q) : Prop :=
  match v with PInt z => (inject_Z z == q)%Q | PFloat p => (p == q)%Q | _ => False end.
Inductive has_type (v : pyval) : string -> Prop :=
| ty_null : v = PNone -> has_type v "null"
| ty_boolean b : v = PBool b -> has_type v "boolean"
| ty_number q : number v q -> has_type v "number"
| ty_integer z : number v (inject_Z z) -> has_type v "integer"
| ty_string s : v = PStr s -> has_type v "string"
| ty_array l : v = PList l -> has_type v "array"
| ty_object o : v = PDict o -> has_type v "object".

(** ** Schemas *)
(** A name that stands for itself in a JSON pointer inside a URI fragment. *)
Definition token (a : string) : Prop :=
  all_chars (fun c => ~ In c ["/"%char; "~"%char; "%"%char; "#"%char; "?"%char; " "%char]) a.
(** A URI without the empty fragment at its end. *)
Fixpoint without_hash (s : string) : string :=
  match s with
  | EmptyString => EmptyString
  | String c r => match c, without_hash r with "#"%char, EmptyString => EmptyString | _, r' => String c r' end
  end.
Definition fragment (s : string) : Prop := exists r, s = String "#" r.

Section Document.
  (** The document that the schema is a part of. *)
  Variable doc : pyval.
  (** What a reference refers to: an entry of "$defs", or the schema with this id.  Ids are compared as
      they are written: they are absolute. *)
  Inductive target : string -> pyval -> Prop :=
  | target_def d e a s : doc = PDict d -> dget "$defs" d = Some (PDict e) -> token a -> dget a e = Some s ->
      target ("#/$defs/" ++ a) s
  | target_id d i r : inside (PDict d) doc -> dget "$id" d = Some (PStr i) -> without_hash r = without_hash i ->
      target r (PDict d).

  (** The keywords that are told apart; the others accept every document. *)
  Definition keywords : list string :=
    ["type"; "properties"; "required"; "items"; "additionalProperties"; "enum"; "oneOf"; "$ref"; "$dynamicRef"].
  Definition named_property (d : attrs) (k : string) : Prop :=
    exists ps s, dget "properties" d = Some (PDict ps) /\ In (k, s) ps.

  (** [accepts s v]: the document [v] is valid under the schema [s]; [rejects s v]: it is not. *)
  Inductive accepts : pyval -> pyval -> Prop :=
  | acc_true v : accepts (PBool true) v
  | acc_object d v : (forall k s, dget k d = Some s -> keyword d k s v) -> accepts (PDict d) v
  with keyword : attrs -> string -> pyval -> pyval -> Prop :=
  | kw_type d s v : has_type v s -> keyword d "type" (PStr s) v
  | kw_types d l s v : In (PStr s) l -> has_type v s -> keyword d "type" (PList l) v
  | kw_properties d ps v : (forall o k s x, v = PDict o -> In (k, s) ps -> dget k o = Some x -> accepts s x) ->
      keyword d "properties" (PDict ps) v
  | kw_required d l v : (forall o n, v = PDict o -> In (PStr n) l -> dget n o <> None) -> keyword d "required" (PList l) v
  | kw_items d s v : (forall l x, v = PList l -> In x l -> accepts s x) -> keyword d "items" s v
  | kw_additional d s v : (forall o k x, v = PDict o -> dget k o = Some x -> ~ named_property d k -> accepts s x) ->
      keyword d "additionalProperties" s v
  | kw_enum d l v : In v l -> keyword d "enum" (PList l) v
  | kw_one d l1 s l2 v : accepts s v -> (forall s', In s' (l1 ++ l2) -> rejects s' v) ->
      keyword d "oneOf" (PList (l1 ++ s :: l2)) v
  | kw_ref d k r s v : k = "$ref" \/ k = "$dynamicRef" -> target r s -> accepts s v -> keyword d k (PStr r) v
  | kw_other d k s v : ~ In k keywords -> keyword d k s v
  with rejects : pyval -> pyval -> Prop :=
  | rej_false v : rejects (PBool false) v
  | rej_object d k s v : dget k d = Some s -> refuses d k s v -> rejects (PDict d) v
  with refuses : attrs -> string -> pyval -> pyval -> Prop :=
  | rf_type d s v : ~ has_type v s -> refuses d "type" (PStr s) v
  | rf_types d l v : (forall s, In (PStr s) l -> ~ has_type v s) -> refuses d "type" (PList l) v
  | rf_properties d ps o k s x : In (k, s) ps -> dget k o = Some x -> rejects s x -> refuses d "properties" (PDict ps) (PDict o)
  | rf_required d l o n : In (PStr n) l -> dget n o = None -> refuses d "required" (PList l) (PDict o)
  | rf_items d s l x : In x l -> rejects s x -> refuses d "items" s (PList l)
  | rf_additional d s o k x : dget k o = Some x -> ~ named_property d k -> rejects s x ->
      refuses d "additionalProperties" s (PDict o)
  | rf_enum d l v : ~ In v l -> refuses d "enum" (PList l) v
  | rf_none d l v : (forall s, In s l -> rejects s v) -> refuses d "oneOf" (PList l) v
  | rf_two d l1 s l2 s' l3 v : accepts s v -> accepts s' v -> refuses d "oneOf" (PList (l1 ++ s :: l2 ++ s' :: l3)) v
  | rf_ref d k r s v : k = "$ref" \/ k = "$dynamicRef" -> target r s -> rejects s v -> refuses d k (PStr r) v.
End Document.

(** ** Values of Recap types *)
(** The range of an integer type, and the exponents of the binary floating point formats. *)
Definition int_range (b : Z) (signed : bool) (z : Z) : Prop :=
  if signed then (- 2 ^ (b - 1) <= z < 2 ^ (b - 1))%Z else (0 <= z < 2 ^ b)%Z.
Definition float_exponent (b : Z) : Z :=
  if Z.eqb b 16 then 16%Z else if Z.eqb b 32 then 128%Z else if Z.eqb b 64 then 1024%Z else 0%Z.
Definition float_range (b : Z) (q : Q) : Prop :=
  (- inject_Z (2 ^ float_exponent b) < q < inject_Z (2 ^ float_exponent b))%Q.
Definition fits (limit : pyval) (variable : pyval) (n : nat) : Prop :=
  match limit with
  | PInt b => if truthy variable then (Z.of_nat n <= b)%Z else Z.of_nat n = b
  | _ => True
  end.

Section Values.
  (** Whether an optional union may be null, and a field with a default may be left out although it is
      not an optional union. *)
  Variable lax : bool.
  (** The types that an alias stands for. *)
  Variable env : string -> rtype -> Prop.
  (** [value t v]: the JSON document [v] is a value of [t].  Bytes are a text (their encoding is left
      open); a struct may have other keys than its fields. *)
  Inductive value : rtype -> pyval -> Prop :=
  | v_null c : value (TNull c) PNone
  | v_bool c b : value (TBool c) (PBool b)
  | v_int c b s z v : number v (inject_Z z) -> int_range b s z -> value (TInt c (PInt b) (PBool s)) v
  | v_float c b q v : number v q -> float_range b q -> value (TFloat c (PInt b)) v
  | v_string c n va s : fits n va (String.length s) -> value (TString c n va) (PStr s)
  | v_bytes c n va s : value (TBytes c n va) (PStr s)
  | v_list c t n va l : fits n va (length l) -> (forall x, In x l -> value t x) -> value (TList c t n va) (PList l)
  | v_map c k t o : (forall n x, dget n o = Some x -> value k (PStr n)) -> (forall n x, dget n o = Some x -> value t x) ->
      value (TMap c k t) (PDict o)
  | v_struct c fs o : (forall f, In f fs -> exists n, attr "name" f = Some (PStr n)) ->
      (forall f n x, In f fs -> attr "name" f = Some (PStr n) -> dget n o = Some x -> value f x) ->
      (forall f n, In f fs -> attr "name" f = Some (PStr n) -> dget n o = None ->
         attr "default" f <> None /\ (lax = false -> optional_union f)) ->
      value (TStruct c fs) (PDict o)
  | v_enum c l s : In (PStr s) l -> value (TEnum c (PList l)) (PStr s)
  | v_union c ts t v : In t ts -> value t v -> (lax = false -> optional_union (TUnion c ts) -> v <> PNone) ->
      value (TUnion c ts) v
  | v_reference c rg a t v : c_alias c = PStr a -> env a t -> value t v -> value (TProxy c rg) v.
End Values.

(** The names in a type that was read from a schema, and the built-in names. *)
Definition names_of (t : rtype) (a : string) (s : rtype) : Prop := shown s t /\ defines s a.
Definition builtin_names (a : string) (s : rtype) : Prop := dget a builtin_aliases = Some s.

(** The numbers in a document: whole ones have 32 bits, the others 64. *)
Inductive in_document (v : pyval) : pyval -> Prop :=
| in_self : in_document v v
| in_array l x : In x l -> in_document v x -> in_document v (PList l)
| in_object o k x : dget k o = Some x -> in_document v x -> in_document v (PDict o).
Definition small (v : pyval) : Prop :=
  forall x q, in_document x v -> number x q ->
    float_range 64 q /\ forall z, (q == inject_Z z)%Q -> int_range 32 true z.

(** Each id is an address of its own and belongs to one schema. *)
Definition proper_ids (j : pyval) : Prop :=
  (forall d i, inside (PDict d) j -> dget "$id" d = Some (PStr i) -> ~ fragment i) /\
  (forall d d' i i', inside (PDict d) j -> inside (PDict d') j -> dget "$id" d = Some (PStr i) -> dget "$id" d' = Some (PStr i') ->
    without_hash i = without_hash i' -> d = d').

(** ** Types whose JSON schema says what it should (C103) *)
(** The JSON type of the values of a type. *)
Definition kind (t : rtype) : option string :=
  let k t := match t with
             | TNull _ => Some "null" | TBool _ => Some "boolean" | TInt _ _ _ | TFloat _ _ => Some "number"
             | TString _ _ _ | TBytes _ _ _ | TEnum _ _ => Some "string" | TList _ _ _ _ => Some "array"
             | TMap _ _ _ | TStruct _ _ => Some "object" | _ => None
             end in
  match t with
  | TProxy c _ => match c_alias c with
                  | PStr a => match dget a builtin_aliases with Some t => k t | None => None end
                  | _ => None
                  end
  | _ => k t
  end.
(** The members of a union have different JSON types. *)
Definition told_apart (ts : list rtype) : Prop :=
  Forall (fun t => kind t <> None) ts /\ NoDup (map kind ts).
Record expressible (t : rtype) : Prop := {
  ex_references : forall s, shown s t -> is_proxy s = true -> builtin_reference s;
  ex_names : forall s a, shown s t -> defines s a -> user_name a /\ token a;
  ex_once : forall s s' a, shown s t -> shown s' t -> defines s a -> defines s' a -> s = s';
  ex_unions : forall c ts, shown (TUnion c ts) t -> optional_union (TUnion c ts) \/ told_apart ts
}.
