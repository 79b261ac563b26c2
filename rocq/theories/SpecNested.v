(** Values that columns of BigQuery and Hive tables hold (C112, C113); independent of recap/converters. *)
From Coq Require Import String Ascii List NArith ZArith QArith Bool.
From Verif Require Import PyVal RType SpecTypes SpecDb SpecInstances SpecRows BigQuery Hive.
Import ListNotations.
Open Scope nat_scope.
Open Scope string_scope.
Open Scope list_scope.

(** ** BigQuery: the reference of GoogleSQL data types, and TableFieldSchema of the REST API *)
Inductive big_mode := Required | Nullable | Repeated.
(** [BigNumeric big name limits]: the precision, and the scale if there is one, of a parametrised type.
    The entries of a record have a name, a mode, a description and a default expression. *)
Inductive big_type :=
| BigString (n : option nat) | BigBytes (n : option nat) | BigInteger (name : string) | BigFloat (name : string)
| BigBool (name : string) | BigInstant (name : string) | BigTime | BigDate
| BigNumeric (big : bool) (name : string) (limits : option (Z * option Z)) | BigJson | BigOther (name : string)
| BigRecord (name : string) (fs : list (string * big_mode * pyval * pyval * big_type)).
Definition big_field_decl : Type := string * big_mode * pyval * pyval * big_type.

Definition big_max (n : option nat) : pyval := match n with Some n => PInt (Z.of_nat n) | None => PNone end.
Definition mode_text (m : big_mode) : string :=
  match m with Required => "REQUIRED" | Nullable => "NULLABLE" | Repeated => "REPEATED" end.
(** The field that the API reports. *)
Fixpoint big_reported (n : string) (m : big_mode) (doc default : pyval) (t : big_type) : bq_field :=
  let field ty limit precision scale fs := BqField ty (mode_text m) (PStr n) doc default limit precision scale fs in
  match t with
  | BigString k => field "STRING" (big_max k) PNone PNone []
  | BigBytes k => field "BYTES" (big_max k) PNone PNone []
  | BigInteger ty | BigFloat ty | BigBool ty | BigInstant ty | BigOther ty => field ty PNone PNone PNone []
  | BigTime => field "TIME" PNone PNone PNone []
  | BigDate => field "DATE" PNone PNone PNone []
  | BigJson => field "JSON" PNone PNone PNone []
  | BigNumeric _ ty None => field ty PNone PNone PNone []
  | BigNumeric _ ty (Some (p, None)) => field ty PNone (PInt p) PNone []
  | BigNumeric _ ty (Some (p, Some s)) => field ty PNone (PInt p) (PInt s) []
  | BigRecord ty fs => field ty PNone PNone PNone
      (map (fun f => let '(n', m', doc', default', t') := f in big_reported n' m' doc' default' t') fs)
  end.
Definition big_reports (f : big_field_decl) : bq_field :=
  let '(n, m, doc, default, t) := f in big_reported n m doc default t.

(** A condition on every field of a table. *)
Section Everywhere.
  Variable P : string -> big_type -> Prop.
  Fixpoint everywhere (n : string) (t : big_type) : Prop :=
    P n t /\
    match t with
    | BigRecord _ fs =>
        (fix all fs := match fs with [] => True | (n', _, _, _, t') :: r => everywhere n' t' /\ all r end) fs
    | _ => True
    end.
  Definition all_fields (fs : list big_field_decl) : Prop :=
    Forall (fun f => let '(n, _, _, _, t) := f in everywhere n t) fs.
End Everywhere.

Definition big_names (t : big_type) : list string :=
  match t with
  | BigInteger _ => ["INTEGER"; "INT64"; "INT"; "SMALLINT"; "TINYINT"; "BYTEINT"]
  | BigFloat _ => ["FLOAT"; "FLOAT64"]
  | BigBool _ => ["BOOLEAN"; "BOOL"]
  | BigInstant _ => ["TIMESTAMP"; "DATETIME"]
  | BigNumeric false _ _ => ["NUMERIC"; "DECIMAL"]
  | BigNumeric true _ _ => ["BIGNUMERIC"; "BIGDECIMAL"]
  | BigOther _ => ["GEOGRAPHY"; "INTERVAL"; "RANGE"]
  | BigRecord _ _ => ["RECORD"; "STRUCT"]
  | _ => []
  end.
Definition big_legal (n : string) (t : big_type) : Prop :=
  n <> "" /\
  match t with
  | BigInteger ty | BigFloat ty | BigBool ty | BigInstant ty | BigOther ty | BigRecord ty _ => In ty (big_names t)
  | BigNumeric big ty l => In ty (big_names t) /\
      match l with
      | None => True
      | Some (p, s) =>
          let s := match s with Some s => s | None => 0%Z end in
          (0 <= s <= (if big then 38 else 9) /\ Z.max 1 s <= p <= s + (if big then 38 else 29))%Z
      end
  | BigString (Some n) | BigBytes (Some n) => 1 <= n
  | _ => True
  end.
(** The documented spelling BOOL is not understood. *)
Definition big_readable (n : string) (t : big_type) : Prop :=
  match t with BigBool ty => ty = "BOOLEAN" | BigOther _ => False | _ => True end.

(** A record holds a row with its fields; a repeated field holds a list without NULL. *)
Definition by_mode (m : big_mode) (P : datum -> Prop) (d : datum) : Prop :=
  match m with
  | Required => P d
  | Nullable => d = DNull \/ P d
  | Repeated => exists l, d = DList l /\ forall x, In x l -> P x
  end.
Section Rows.
  Variable P : big_type -> datum -> Prop.
  Fixpoint big_all (t : big_type) (d : datum) : Prop :=
    match t with
    | BigRecord _ fs => exists row, d = DRow row /\
        (fix fields (fs : list (string * big_mode * pyval * pyval * big_type)) (row : list (string * datum)) : Prop :=
          match fs, row with
          | [], [] => True
          | (n, m, _, _, t') :: fs', (n', v) :: row' => n' = n /\ by_mode m (big_all t') v /\ fields fs' row'
          | _, _ => False
          end) fs row
    | _ => P t d
    end.
  Definition big_row (fs : list big_field_decl) (row : list (string * datum)) : Prop :=
    Forall2 (fun f nv => let '(n, m, _, _, t) := f in fst nv = n /\ by_mode m (big_all t) (snd nv)) fs row.
End Rows.

Definition big_leaf (t : big_type) (d : datum) : Prop :=
  match t with
  | BigString None | BigJson | BigOther _ => exists s, d = DText s
  | BigString (Some n) => exists s, d = DText s /\ text_within n 4 s
  | BigBytes None => exists s, d = DBytes s
  | BigBytes (Some n) => exists s, d = DBytes s /\ String.length s <= n
  | BigInteger _ => exists z, d = DInt z /\ int_range 64 true z
  | BigFloat _ => exists q, d = DFloat q /\ double q
  | BigBool _ => exists b, d = DBool b
  | BigInstant _ => instants year_1 year_10000 6 d
  | BigTime => exists n, d = DClock n 6 /\ (0 <= n < 86400 * 10 ^ 6)%Z
  | BigDate => exists n, d = DDay n /\ (day_1 <= n <= last_day)%Z
  | BigNumeric false _ None => exists u, d = DNumber u 9 /\ (Z.abs u < 10 ^ 38)%Z
  | BigNumeric true _ None => exists u, d = DNumber u 38 /\ (- 2 ^ 255 <= u < 2 ^ 255)%Z
  | BigNumeric _ _ (Some (p, s)) =>
      exists u, d = DNumber u (match s with Some s => s | None => 0 end) /\ (Z.abs u < 10 ^ p)%Z
  | BigRecord _ _ => False
  end.
(** The length of a STRING is taken as a number of bytes; a time is a number of microseconds of 32 bits;
    a number of an unparametrised type is an integer. *)
Definition big_leaf_covered (t : big_type) (d : datum) : Prop :=
  match t, d with
  | BigString (Some n), DText s => String.length s <= n
  | BigTime, DClock n _ => (n < 2 ^ 31)%Z
  | BigNumeric _ _ None, DNumber u k => exists z, (u = z * 10 ^ k)%Z
  | _, _ => True
  end.

(** ** Hive: the language manual of its types *)
(** A value of a compound type is made of NULLs and values of its parts; a value of a union is a value of
    one of its types. *)
Section Hive.
  Variable P : htype -> datum -> Prop.
  Fixpoint hive_in (h : htype) (v : datum) : Prop :=
    match h with
    | HList x => exists l, v = DList l /\ forall w, In w l -> w = DNull \/ hive_in x w
    | HMap k x => exists l, v = DMap l /\ forall a b, In (a, b) l -> (a = DNull \/ hive_in k a) /\ (b = DNull \/ hive_in x b)
    | HUnion hs => (fix any l := match l with [] => False | x :: r => hive_in x v \/ any r end) hs
    | HStruct ns hs => exists row, v = DRow row /\
        (fix fields (ns : list string) (hs : list htype) (row : list (string * datum)) {struct hs} : Prop :=
           match ns, hs with
           | n :: ns', x :: hs' =>
               match row with
               | (m, w) :: row' => m = n /\ (w = DNull \/ hive_in x w) /\ fields ns' hs' row'
               | [] => False
               end
           | _, _ => row = []
           end) ns hs row
    | _ => P h v
    end.
  Definition hive_row (cols : list hcolumn) (row : list (string * datum)) : Prop :=
    Forall2 (fun col nv => fst nv = hc_name col /\ (snd nv = DNull \/ hive_in (hc_type col) (snd nv))) cols row.
End Hive.

(** The values that a column of the type can store. *)
Definition hive_stored (h : htype) (v : datum) : Prop :=
  match h with
  | HPrim HBoolean => exists b, v = DBool b
  | HPrim HByte => exists z, v = DInt z /\ int_range 8 true z
  | HPrim HShort => exists z, v = DInt z /\ int_range 16 true z
  | HPrim HInt => exists z, v = DInt z /\ int_range 32 true z
  | HPrim HLong => exists z, v = DInt z /\ int_range 64 true z
  | HPrim HFloat => exists q, v = DFloat q /\ single q
  | HPrim HDouble => exists q, v = DFloat q /\ double q
  | HPrim HString => exists s, v = DText s
  | HPrim HBinary => exists s, v = DBytes s /\ (Z.of_nat (String.length s) < 2 ^ 31)%Z
  | HPrim HDate => exists n, v = DDay n /\ (day_1 <= n <= last_day)%Z
  | HPrim HTimestamp | HPrim HTimestampLocalTz => instants year_1 year_10000 9 v
  | HDecimal p s => exists u, v = DNumber u s /\ (Z.abs u < 10 ^ p)%Z /\ (1 <= p <= 38)%Z /\ (0 <= s <= p)%Z
  | HVarchar n => exists s, v = DText s /\ text_within (Z.to_nat n) 4 s
  | HChar n => exists s, v = DText s /\ chars s = Z.to_nat n /\ String.length s <= 4 * chars s
  | _ => False
  end.
(** The values that the type read from it has: lengths are numbers of bytes and instants are numbers of
    nanoseconds of 64 bits.  Intervals, which Hive does not store, have no values. *)
Definition hive_taken (h : htype) (v : datum) : Prop :=
  match h with
  | HPrim HDate => exists n, v = DDay n /\ int_range 32 true n
  | HPrim HTimestamp | HPrim HTimestampLocalTz =>
      exists n k z, v = DInstant n k /\ same_number z 9 n k /\ int_range 64 true z
  | HDecimal p s => exists u k z, v = DNumber u k /\ same_number z s u k /\ (Z.abs z < 10 ^ p)%Z
  | HVarchar n => exists s, v = DText s /\ (Z.of_nat (String.length s) <= n)%Z
  | HChar n => exists s, v = DText s /\ (Z.of_nat (String.length s) = n)%Z
  | _ => hive_stored h v
  end.
(** Types with parts of other kinds only. *)
Inductive hive_safe : htype -> Prop :=
| hs_prim p : p <> HTimestamp -> p <> HTimestampLocalTz -> hive_safe (HPrim p)
| hs_decimal p s : hive_safe (HDecimal p s)
| hs_list x : hive_safe x -> hive_safe (HList x)
| hs_map k x : hive_safe k -> hive_safe x -> hive_safe (HMap k x)
| hs_union hs : Forall hive_safe hs -> hive_safe (HUnion hs)
| hs_struct ns hs : Forall hive_safe hs -> hive_safe (HStruct ns hs).
