(** Vocabulary of the database converter properties, independent of recap/converters. *)
From Coq Require Import String Ascii List NArith ZArith Bool.
From Verif Require Import PyVal RType SpecTypes.
Import ListNotations.
Open Scope nat_scope.
Open Scope string_scope.
Open Scope list_scope.

(** ** Letter case *)
Definition is_lower_of (a b : ascii) : Prop :=
  (65 <= N_of_ascii a <= 90 /\ N_of_ascii b = N_of_ascii a + 32)%N.
Definition same_letter (a b : ascii) : Prop := a = b \/ is_lower_of a b \/ is_lower_of b a.
(** Equal up to ASCII letter case. *)
Fixpoint ci_eq (s t : string) : Prop :=
  match s, t with
  | EmptyString, EmptyString => True
  | String a s', String b t' => same_letter a b /\ ci_eq s' t'
  | _, _ => False
  end.
(** [hay] has a part that equals [needle] up to letter case. *)
Definition ci_contains (needle hay : string) : Prop :=
  exists a m b, hay = (a ++ m ++ b)%string /\ ci_eq m needle.

(** ** Columns and fields *)
Definition accepts_null (t : rtype) : Prop :=
  match t with
  | TNull _ => True
  | TUnion _ ts => exists c, In (TNull c) ts
  | _ => False
  end.

Definition extra (k : string) (t : rtype) : option pyval := dget k (c_extra (get_c t)).

Definition nullable_column (col : list (string * pyval)) : Prop :=
  exists s, dget "IS_NULLABLE" col = Some (PStr s) /\ ci_eq s "YES".

(** What the field made from a column of type [base] has to look like. *)
Record field_spec (col : list (string * pyval)) (base f : rtype) : Prop := {
  fs_name : exists v, dget "COLUMN_NAME" col = Some v /\ extra "name" f = Some v;
  fs_null : nullable_column col -> accepts_null f;
  fs_default : exists d, dget "COLUMN_DEFAULT" col = Some d
    /\ (d <> PNone \/ nullable_column col -> extra "default" f = Some d)
    /\ (d = PNone -> ~ nullable_column col -> extra "default" f = None);
  fs_required : ~ nullable_column col ->
    set_c f (get_c base) = base
    /\ c_logical (get_c f) = c_logical (get_c base) /\ c_alias (get_c f) = c_alias (get_c base)
    /\ c_doc (get_c f) = c_doc (get_c base)
    /\ forall k, k <> "name" -> k <> "default" -> extra k f = extra k base;
  fs_nullable : nullable_column col ->
    exists c, match base with
    | TUnion _ ts => exists ts', f = TUnion c ts' /\ forall t, In t ts' <-> In t ts \/
                       ((forall c', ~ In (TNull c') ts) /\ t = TNull c0)
    | _ => f = TUnion c [TNull c0; base]
    end
}.

(** ** Time units (C49) *)
Inductive time_unit : string -> Z -> Prop :=
| u_second : time_unit "second" 0
| u_milli : time_unit "millisecond" 3
| u_micro : time_unit "microsecond" 6
| u_nano : time_unit "nanosecond" 9.
(** [u] is the coarsest unit with at least [p] decimal places of a second. *)
Definition coarsest (p : Z) (u : string) : Prop :=
  exists n, time_unit u n /\ (p <= n)%Z /\
  forall u' n', time_unit u' n' -> (p <= n')%Z -> (n <= n')%Z.

(** ** Arrays (C51) *)
(** [t] is [n] lists around a union of null and [elem]. *)
Inductive nested (elem : rtype) : nat -> rtype -> Prop :=
| nested_elem c : nested elem 0 (TUnion c [TNull c0; elem])
| nested_list n t c : nested elem n t -> nested elem (S n) (TList c t PNone (PBool true)).

(** ** SQLite column affinity (C52): section 3.1 of https://www.sqlite.org/datatype3.html *)
Inductive sqlite_class := ClassInteger | ClassText | ClassBlob | ClassReal | ClassNumeric.
Definition rule1 (t : string) : Prop := ci_contains "INT" t.
Definition rule2 (t : string) : Prop :=
  ci_contains "CHAR" t \/ ci_contains "CLOB" t \/ ci_contains "TEXT" t.
Definition rule3 (t : string) : Prop := ci_contains "BLOB" t \/ t = "".
Definition rule4 (t : string) : Prop :=
  ci_contains "REAL" t \/ ci_contains "FLOA" t \/ ci_contains "DOUB" t.
Inductive determined (t : string) : sqlite_class -> Prop :=
| by_rule1 : rule1 t -> determined t ClassInteger
| by_rule2 : ~ rule1 t -> rule2 t -> determined t ClassText
| by_rule3 : ~ rule1 t -> ~ rule2 t -> rule3 t -> determined t ClassBlob
| by_rule4 : ~ rule1 t -> ~ rule2 t -> ~ rule3 t -> rule4 t -> determined t ClassReal
| by_rule5 : ~ rule1 t -> ~ rule2 t -> ~ rule3 t -> ~ rule4 t -> determined t ClassNumeric.

(** ** Value ranges *)
(** Every integer of [lo..hi] is a value of an integer type with that many bits. *)
Definition int_holds (t : rtype) (lo hi : Z) : Prop :=
  exists c bits signed, t = TInt c (PInt bits) (PBool signed) /\ (0 < bits)%Z /\
  forall z, (lo <= z <= hi)%Z ->
    if signed then (- 2 ^ (bits - 1) <= z < 2 ^ (bits - 1))%Z else (0 <= z < 2 ^ bits)%Z.
(** A fixed-size two's complement number of [bytes] bytes holds [p] decimal digits. *)
Definition decimal_fits (bytes p : Z) : Prop := (10 ^ p <= 2 ^ (8 * bytes - 1))%Z.

(** ** PostgreSQL arrays (C50, C60) *)
Definition array_column (col : list (string * pyval)) : Prop :=
  exists s, dget "DATA_TYPE" col = Some (PStr s) /\ ci_eq s "ARRAY".

(** ** Time of day (C62) *)
(** The last instant of a day counted in units of 10^-n seconds. *)
Definition last_of_day (n : Z) : Z := (86400 * 10 ^ n - 1)%Z.

(** ** Limits (C65) *)
Definition tree_within_limits (t : rtype) : Prop := forall s, SpecTypes.node_of s t -> SpecTypes.within_limits s.
Definition text_of (k : string) (col : list (string * pyval)) (P : string -> Prop) : Prop :=
  exists s, dget k col = Some (PStr s) /\ P s.
