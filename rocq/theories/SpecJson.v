(** Vocabulary of the JSON Schema properties, independent of recap/converters/json_schema.py. *)
From Coq Require Import String Ascii List NArith ZArith Bool.
From Verif Require Import PyVal RType Registry SpecTypes.
Import ListNotations.
Open Scope nat_scope.
Open Scope string_scope.
Open Scope list_scope.

Definition holds (d : list (string * pyval)) (k : string) (v : pyval) : Prop := dget k d = Some v.
Definition attr (k : string) (t : rtype) : option pyval := dget k (c_extra (get_c t)).
Definition not_aliased (t : rtype) : Prop := forall a, c_alias (get_c t) <> PStr a.

(** ** Optional fields (C38) *)
(** A union with a default, at least one plain null and exactly one other member. *)
Definition optional_union (t : rtype) : Prop :=
  exists c l1 x l2, t = TUnion c (l1 ++ x :: l2) /\ dget "default" (c_extra c) <> None /\
    x <> TNull c0 /\ l1 ++ l2 <> [] /\ Forall (eq (TNull c0)) (l1 ++ l2).
Definition named (t : rtype) (n : string) : Prop := attr "name" t = Some (PStr n) /\ n <> "".

(** ** Fields that are read (C39) *)
(** [f] is [t] with the attribute [k] set to [v]. *)
Definition sets (k : string) (v : pyval) (t f : rtype) : Prop :=
  exists e, f = set_c t (mkC (c_logical (get_c t)) (c_alias (get_c t)) (c_doc (get_c t)) e) /\
    dget k e = Some v /\ forall k', k' <> k -> dget k' e = attr k' t.
Definition nullable (t : rtype) : Prop :=
  match t with
  | TNull _ => True
  | TUnion _ ts => exists c, In (TNull c) ts
  | _ => False
  end.
(** The members of a type seen as a union. *)
Definition members (t : rtype) : list rtype := match t with TUnion _ ts => ts | _ => [t] end.
(** [f] is a nullable version of [t] with a default. *)
Definition made_nullable (t f : rtype) : Prop :=
  nullable f /\ c_doc (get_c f) = c_doc (get_c t) /\
  attr "default" f = Some (match attr "default" t with Some v => v | None => PNone end) /\
  exists ms, Forall2 (fun m m' => type_name m = type_name m' /\ children m = children m' /\
                                  c_logical (get_c m) = c_logical (get_c m') /\ c_alias (get_c m) = c_alias (get_c m')) (members t) ms /\
    (members f = ms \/ members f = TNull c0 :: ms).

(** The schema [d] lists [n] as required. *)
Definition required_name (d : list (string * pyval)) (n : string) : Prop :=
  exists l, dget "required" d = Some (PList l) /\ In (PStr n) l.

(** ** References (C40) *)
(** The references in a JSON schema. *)
Fixpoint schema_refs (j : pyval) : list pyval :=
  match j with
  | PDict d =>
      (fix go (d : list (string * pyval)) : list pyval :=
         match d with
         | [] => []
         | (k, v) :: r =>
             (if String.eqb k "$ref" then [v]
              else if String.eqb k "items" || String.eqb k "additionalProperties" then schema_refs v
              else if String.eqb k "oneOf" then
                match v with PList l => flat_map schema_refs l | _ => [] end
              else if String.eqb k "properties" || String.eqb k "$defs" then
                match v with
                | PDict e => (fix sub (e : list (string * pyval)) : list pyval :=
                                match e with [] => [] | (_, x) :: r => schema_refs x ++ sub r end) e
                | _ => []
                end
              else []) ++ go r
         end) d
  | _ => []
  end.
Definition definitions (d : list (string * pyval)) : list (string * pyval) :=
  match dget "$defs" d with Some (PDict e) => e | _ => [] end.
Definition pointer (a : string) : pyval := PStr ("#/$defs/" ++ a)%string.

(** The parts of a type that a JSON schema shows: not the keys of a map. *)
Definition shown_children (t : rtype) : list rtype :=
  match t with
  | TStruct _ l | TUnion _ l => l
  | TList _ v _ _ | TMap _ _ v => [v]
  | _ => []
  end.
Inductive shown (s : rtype) : rtype -> Prop :=
| shown_self : shown s s
| shown_child t c : In c (shown_children t) -> shown s c -> shown s t.
Definition defines (t : rtype) (a : string) : Prop := is_proxy t = false /\ c_alias (get_c t) = PStr a.
(** Not empty and not the name of a built-in type. *)
Definition user_name (a : string) : Prop := a <> "" /\ ~ In a (dkeys builtin_aliases).
(** A reference to a built-in type. *)
Definition builtin_reference (t : rtype) : Prop :=
  exists c a, t = TProxy c None /\ c_alias c = PStr a /\ In a (dkeys builtin_aliases) /\ ~ In "alias" (dkeys (c_extra c)).
Definition keeps_builtins (R : registry) : Prop :=
  forall a, In a (dkeys builtin_aliases) -> dget a R = dget a builtin_aliases.

(** ** Termination (C80) *)
(** Types whose references look into private copies only, to any depth. *)
Inductive settled : rtype -> Prop :=
| settled_node t : is_proxy t = false -> Forall settled (children t) -> settled t
| settled_ref c R : Forall (fun p => settled (snd p)) R -> settled (TProxy c (Some R)).

(** ** Types that JSON Schema can express (C78) *)
(** Attributes: a doc that is not empty, maybe a default, and those of [nm]. *)
Definition plain_attrs (nm : list (string * pyval)) (c : common) : Prop :=
  c_logical c = PNone /\ c_alias c = PNone /\ (c_doc c = PNone \/ truthy (c_doc c) = true) /\
  (c_extra c = nm \/ exists v, c_extra c = ("default", v) :: nm).
Fixpoint json_like (nm : list (string * pyval)) (t : rtype) : Prop :=
  plain_attrs nm (get_c t) /\
  match t with
  | TNull _ | TBool _ => True
  | TInt _ b s => b = PInt 32 /\ s = PBool true
  | TFloat _ b => b = PInt 64
  | TString _ l v => l = PNone /\ v = PBool true
  | TList _ v l va => json_like [] v /\ l = PNone /\ va = PBool true
  | TStruct _ fs =>
      exists ns, NoDup ns /\ ~ In "" ns /\
        (fix go (fs : list rtype) (ns : list string) : Prop :=
           match fs, ns with
           | [], [] => True
           | f :: fs', n :: ns' => json_like [("name", PStr n)] f /\ go fs' ns'
           | _, _ => False
           end) fs ns
  | TUnion c ts =>
      (* an optional field *)
      nm <> [] /\ dget "default" (c_extra c) <> None /\
      match ts with
      | [z; x] => z = TNull c0 /\ get_c x = c0 /\ is_null x = false /\ is_union x = false /\ json_like [] x
      | _ => False
      end
  | _ => False
  end.

(** A word: a letter followed by letters and digits. *)
Definition letter (c : ascii) : Prop := let n := N_of_ascii c in ((97 <= n /\ n <= 122) \/ (65 <= n /\ n <= 90))%N.
Definition digit (c : ascii) : Prop := (48 <= N_of_ascii c /\ N_of_ascii c <= 57)%N.
Definition word (s : string) : Prop :=
  match s with EmptyString => False | String c r => letter c /\ all_chars (fun c => letter c \/ digit c) r end.

(** ** References that are read (C77) *)
(** [v] is [j] or a value anywhere inside it. *)
Inductive inside (v : pyval) : pyval -> Prop :=
| inside_self : inside v v
| inside_list l j : In j l -> inside v j -> inside v (PList l)
| inside_dict d k j : In (k, j) d -> inside v j -> inside v (PDict d).
(** Some schema inside [j] has the id [s]. *)
Definition has_id (j : pyval) (s : string) : Prop := exists d, inside (PDict d) j /\ dget "$id" d = Some (PStr s).
