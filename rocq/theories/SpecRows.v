(** Values that columns of database tables hold, and the values of Recap types (C108-C113); independent of
    recap/converters. *)
From Coq Require Import String Ascii List NArith ZArith QArith Bool.
From Verif Require Import PyVal RType SpecTypes SpecDb SpecInstances.
Import ListNotations.
Open Scope nat_scope.
Open Scope string_scope.
Open Scope list_scope.

(** ** Values *)
(** [DNumber u k] is u * 10^-k; [DInstant n k] and [DClock n k] are n * 10^-k seconds since the epoch
    and since midnight; [DDay n] is n days since the epoch.  Texts are UTF-8. *)
Inductive datum :=
| DNull | DBool (b : bool) | DInt (z : Z) | DNumber (u k : Z) | DFloat (q : Q)
| DText (s : string) | DBytes (s : string) | DInstant (n k : Z) | DClock (n k : Z) | DDay (n : Z)
| DList (l : list datum) | DMap (l : list (datum * datum)) | DRow (l : list (string * datum)).

(** The finite numbers of a binary floating point format (IEEE 754): [p] bits of precision, exponents of
    the last bit from [lo] to [hi]. *)
Definition in_format (p lo hi : Z) (q : Q) : Prop :=
  exists m e, (Z.abs m < 2 ^ p)%Z /\ (lo <= e <= hi)%Z /\ (q == inject_Z m * Qpower 2 e)%Q.
Definition single : Q -> Prop := in_format 24 (-149) 104.
Definition double : Q -> Prop := in_format 53 (-1074) 971.
Definition float_format (bits : Z) (q : Q) : Prop :=
  (bits = 32%Z /\ single q) \/ (bits = 64%Z /\ double q).

(** z * 10^-m = n * 10^-k *)
Definition same_number (z m n k : Z) : Prop := (z * 10 ^ k = n * 10 ^ m)%Z.

(** The characters of a text: the bytes that do not continue one. *)
Fixpoint chars (s : string) : nat :=
  match s with
  | EmptyString => 0
  | String c r => (if (N.leb 128 (N_of_ascii c) && N.ltb (N_of_ascii c) 192)%bool then 0 else 1) + chars r
  end.
(** A text of at most [n] characters of at most [w] bytes each. *)
Definition text_within (n w : nat) (s : string) : Prop :=
  chars s <= n /\ String.length s <= w * chars s.

(** ** Values of Recap types *)
Definition logical_is (c : common) (l : string) : Prop := c_logical c = PStr l.
Definition extra_is (c : common) (k : string) (v : pyval) : Prop := dget k (c_extra c) = Some v.

Section Holds.
  (** The types that an alias stands for. *)
  Variable env : string -> rtype -> Prop.
  Inductive holds : rtype -> datum -> Prop :=
  | h_null c : holds (TNull c) DNull
  | h_bool c b : holds (TBool c) (DBool b)
  | h_int c b s z : c_logical c = PNone -> int_range b s z -> holds (TInt c (PInt b) (PBool s)) (DInt z)
  | h_instant c b s u m n k z : logical_is c "build.recap.Timestamp" -> extra_is c "unit" (PStr u) ->
      time_unit u m -> same_number z m n k -> int_range b s z -> holds (TInt c (PInt b) (PBool s)) (DInstant n k)
  | h_clock c b s u m n k z : logical_is c "build.recap.Time" -> extra_is c "unit" (PStr u) ->
      time_unit u m -> same_number z m n k -> int_range b s z -> holds (TInt c (PInt b) (PBool s)) (DClock n k)
  | h_day c b s n : logical_is c "build.recap.Date" -> extra_is c "unit" (PStr "day") ->
      int_range b s n -> holds (TInt c (PInt b) (PBool s)) (DDay n)
  | h_float c b q : float_format b q -> holds (TFloat c (PInt b)) (DFloat q)
  | h_string c n va s : fits n va (String.length s) -> holds (TString c n va) (DText s)
  | h_bytes c n va s : c_logical c = PNone -> fits n va (String.length s) -> holds (TBytes c n va) (DBytes s)
  | h_decimal c b va p m u k z : logical_is c "build.recap.Decimal" ->
      extra_is c "precision" (PInt p) -> extra_is c "scale" (PInt m) ->
      same_number z m u k -> (Z.abs z < 10 ^ p)%Z -> int_range (8 * b) true z ->
      holds (TBytes c (PInt b) va) (DNumber u k)
  | h_list c t n va l : fits n va (length l) -> (forall x, In x l -> holds t x) -> holds (TList c t n va) (DList l)
  | h_map c k t l : (forall a b, In (a, b) l -> holds k a) -> (forall a b, In (a, b) l -> holds t b) ->
      holds (TMap c k t) (DMap l)
  | h_struct c fs l : length fs = length l ->
      (forall i f n d, nth_error fs i = Some f -> nth_error l i = Some (n, d) ->
         extra "name" f = Some (PStr n)) ->
      (forall i f n d, nth_error fs i = Some f -> nth_error l i = Some (n, d) -> holds f d) ->
      holds (TStruct c fs) (DRow l)
  | h_enum c l s : In (PStr s) l -> holds (TEnum c (PList l)) (DText s)
  | h_union c ts t d : In t ts -> holds t d -> holds (TUnion c ts) d
  | h_proxy c rg a t d : c_alias c = PStr a -> env a t -> holds t d -> holds (TProxy c rg) d.
End Holds.

(** ** Tables *)
Record decl (A : Type) := mkDecl { d_name : string; d_null : bool; d_type : A }.
Arguments mkDecl {A}.
Arguments d_name {A}.
Arguments d_null {A}.
Arguments d_type {A}.

Section Tables.
  Variable A : Type.
  (** The entries of information_schema.columns that depend on the type of the column. *)
  Variable facts : A -> list (string * pyval).
  (** The values of a column type other than NULL. *)
  Variable values : A -> datum -> Prop.

  Record described (d : decl A) (col : list (string * pyval)) : Prop := {
    de_name : dget "COLUMN_NAME" col = Some (PStr (d_name d));
    de_null : dget "IS_NULLABLE" col = Some (PStr (if d_null d then "YES" else "NO"));
    de_default : dget "COLUMN_DEFAULT" col <> None;
    de_facts : forall k v, In (k, v) (facts (d_type d)) -> dget k col = Some v
  }.
  (** A row with these columns all of whose values satisfy [P]. *)
  Definition row_of (P : A -> datum -> Prop) (ds : list (decl A)) (row : list (string * datum)) : Prop :=
    Forall2 (fun d nv => fst nv = d_name d /\
      (d_null d = true /\ snd nv = DNull \/ P (d_type d) (snd nv))) ds row.
  Definition in_table := row_of values.
End Tables.

(** ** MySQL 8: chapter 11 of the reference manual; texts in one of its UTF-8 character sets *)
Inductive my_int := MyTiny | MySmall | MyMedium | MyInt | MyBig.
Definition my_int_name (i : my_int) : string :=
  match i with MyTiny => "tinyint" | MySmall => "smallint" | MyMedium => "mediumint" | MyInt => "int" | MyBig => "bigint" end.
Definition my_int_bits (i : my_int) : Z :=
  match i with MyTiny => 8 | MySmall => 16 | MyMedium => 24 | MyInt => 32 | MyBig => 64 end.
Definition my_int_digits (i : my_int) : Z :=
  match i with MyTiny => 3 | MySmall => 5 | MyMedium => 7 | MyInt => 10 | MyBig => 19 end.
Inductive my_size := SizeTiny | SizePlain | SizeMedium | SizeLong.
Definition my_size_name (s : my_size) : string :=
  match s with SizeTiny => "tiny" | SizePlain => "" | SizeMedium => "medium" | SizeLong => "long" end.
Definition my_size_max (s : my_size) : Z :=
  match s with SizeTiny => 2 ^ 8 - 1 | SizePlain => 2 ^ 16 - 1 | SizeMedium => 2 ^ 24 - 1 | SizeLong => 2 ^ 32 - 1 end.
(** [w] is the number of bytes of the longest character of the character set. *)
Inductive my_type :=
| MyInteger (i : my_int) (unsigned : bool) | MyYear | MyFloat | MyDouble | MyDecimal (p s : Z)
| MyChar (n w : nat) | MyVarchar (n w : nat) | MyText (s : my_size) | MyJson
| MyEnum (labels : list string) (w : nat)
| MyBinary (n : nat) | MyVarbinary (n : nat) | MyBlob (s : my_size) | MyBit (n : nat)
| MyDatetime (p : Z) | MyTimestamp (p : Z) | MyDate | MyTime (p : Z) | MyGeometry.

Definition my_facts (t : my_type) : list (string * pyval) :=
  let row ty octets precision scale datetime :=
    [("DATA_TYPE", PStr ty); ("CHARACTER_OCTET_LENGTH", octets); ("NUMERIC_PRECISION", precision);
     ("NUMERIC_SCALE", scale); ("DATETIME_PRECISION", datetime)] in
  let octets n := PInt (Z.of_nat n) in
  match t with
  | MyInteger i u => row (my_int_name i) PNone
      (PInt (my_int_digits i + match i, u with MyBig, true => 1 | _, _ => 0 end)%Z) (PInt 0) PNone
  | MyYear => row "year" PNone PNone PNone PNone
  | MyFloat => row "float" PNone (PInt 12) PNone PNone
  | MyDouble => row "double" PNone (PInt 22) PNone PNone
  | MyDecimal p s => row "decimal" PNone (PInt p) (PInt s) PNone
  | MyChar n w => row "char" (octets (n * w)) PNone PNone PNone
  | MyVarchar n w => row "varchar" (octets (n * w)) PNone PNone PNone
  | MyText s => row (my_size_name s ++ "text")%string (PInt (my_size_max s)) PNone PNone PNone
  | MyJson => row "json" PNone PNone PNone PNone
  | MyEnum ls w => row "enum" (octets (list_max (map chars ls) * w)) PNone PNone PNone
  | MyBinary n => row "binary" (octets n) PNone PNone PNone
  | MyVarbinary n => row "varbinary" (octets n) PNone PNone PNone
  | MyBlob s => row (my_size_name s ++ "blob")%string (PInt (my_size_max s)) PNone PNone PNone
  | MyBit n => row "bit" PNone (octets n) PNone PNone
  | MyDatetime p => row "datetime" PNone PNone PNone (PInt p)
  | MyTimestamp p => row "timestamp" PNone PNone PNone (PInt p)
  | MyDate => row "date" PNone PNone PNone PNone
  | MyTime p => row "time" PNone PNone PNone (PInt p)
  | MyGeometry => row "geometry" PNone PNone PNone PNone
  end.

(** The parameters that CREATE TABLE accepts. *)
Definition my_legal (t : my_type) : Prop :=
  match t with
  | MyDecimal p s => (1 <= p <= 65 /\ 0 <= s <= 30 /\ s <= p)%Z
  | MyChar n w => n <= 255 /\ 1 <= w <= 4
  | MyVarchar n w => (Z.of_nat n <= 65535)%Z /\ 1 <= w <= 4
  | MyEnum ls w => ls <> [] /\ 1 <= w <= 4 /\ Forall (fun l => String.length l <= w * chars l) ls
  | MyBit n => 1 <= n <= 64
  | MyDatetime p | MyTimestamp p | MyTime p => (0 <= p <= 6)%Z
  | _ => True
  end.
(** Instants from [lo] to before [hi] seconds, in steps of 10^-p seconds. *)
Definition instants (lo hi p : Z) (d : datum) : Prop :=
  exists n, d = DInstant n p /\ (lo * 10 ^ p <= n < hi * 10 ^ p)%Z.
(** Midnight, 1 January of the years 1000 and 10000, in seconds since the epoch. *)
Definition year_1000 : Z := -30610224000.
Definition year_10000 : Z := 253402300800.
Definition my_values (t : my_type) (d : datum) : Prop :=
  match t with
  | MyInteger i u => exists z, d = DInt z /\ int_range (my_int_bits i) (negb u) z
  | MyYear => exists z, d = DInt z /\ (z = 0 \/ 1901 <= z <= 2155)%Z
  | MyFloat => exists q, d = DFloat q /\ single q
  | MyDouble => exists q, d = DFloat q /\ double q
  | MyDecimal p s => exists u, d = DNumber u s /\ (Z.abs u < 10 ^ p)%Z
  | MyChar n w | MyVarchar n w => exists s, d = DText s /\ text_within n w s
  | MyText m => exists s, d = DText s /\ (Z.of_nat (String.length s) <= my_size_max m)%Z
  | MyJson => exists s, d = DText s
  | MyEnum ls w => exists s, d = DText s /\ In s ls
  | MyBinary n => exists s, d = DBytes s /\ String.length s = n
  | MyVarbinary n => exists s, d = DBytes s /\ String.length s <= n
  | MyBlob m => exists s, d = DBytes s /\ (Z.of_nat (String.length s) <= my_size_max m)%Z
  | MyBit n => exists s, d = DBytes s /\ String.length s = Nat.div (n + 7) 8
  | MyDatetime p => instants year_1000 year_10000 p d
  | MyTimestamp p => instants 0 (2 ^ 31) p d
  | MyDate => exists n, d = DDay n
  | MyTime p => exists n, d = DClock n p
  | MyGeometry => exists s, d = DBytes s
  end.

(** The columns that can be read, and which of their values are values of the type that is read. *)
Definition my_readable (t : my_type) : Prop :=
  match t with MyDate | MyTime _ | MyGeometry => False | _ => True end.
Definition my_covered (t : my_type) (d : datum) : Prop :=
  match t, d with
  | MyInteger i true, DInt z => (z < 2 ^ (my_int_bits i - 1))%Z
  | MyChar n w, DText s => String.length s = n * w
  | MyEnum ls w, DText s => String.length s = list_max (map chars ls) * w
  | MyBit n, _ => 57 <= n
  | _, _ => True
  end.

(** ** PostgreSQL 15: chapter 8 of the manual, and its information_schema; a database with encoding UTF8 *)
Inductive pg_base :=
| PgSmall | PgInteger | PgBig | PgReal | PgDouble | PgBool | PgNumeric (limits : option (Z * Z))
| PgText | PgVarchar (limit : option nat) | PgChar (n : nat) | PgJson (binary : bool) | PgUuid
| PgBytea | PgBit (n : nat) | PgVarbit (n : nat) | PgEnum (name : string) (labels : list string)
| PgTimestamp (zone : bool) (p : Z) | PgDate | PgTime (p : Z) | PgInterval.
(** An array column declares a number of dimensions, which is not enforced. *)
Inductive pg_decl := PgColumn (b : pg_base) | PgArray (b : pg_base) (dimensions : nat).

Definition pg_sql_name (b : pg_base) : string :=
  match b with
  | PgSmall => "smallint" | PgInteger => "integer" | PgBig => "bigint" | PgReal => "real"
  | PgDouble => "double precision" | PgBool => "boolean" | PgNumeric _ => "numeric" | PgText => "text"
  | PgVarchar _ => "character varying" | PgChar _ => "character" | PgJson false => "json" | PgJson true => "jsonb"
  | PgUuid => "uuid" | PgBytea => "bytea" | PgBit _ => "bit" | PgVarbit _ => "bit varying"
  | PgEnum _ _ => "USER-DEFINED" | PgTimestamp false _ => "timestamp without time zone"
  | PgTimestamp true _ => "timestamp with time zone" | PgDate => "date" | PgTime _ => "time without time zone"
  | PgInterval => "interval"
  end.
Definition pg_udt_name (b : pg_base) : string :=
  match b with
  | PgSmall => "int2" | PgInteger => "int4" | PgBig => "int8" | PgReal => "float4" | PgDouble => "float8"
  | PgBool => "bool" | PgNumeric _ => "numeric" | PgText => "text" | PgVarchar _ => "varchar"
  | PgChar _ => "bpchar" | PgJson false => "json" | PgJson true => "jsonb" | PgUuid => "uuid"
  | PgBytea => "bytea" | PgBit _ => "bit" | PgVarbit _ => "varbit" | PgEnum n _ => n
  | PgTimestamp false _ => "timestamp" | PgTimestamp true _ => "timestamptz" | PgDate => "date"
  | PgTime _ => "time" | PgInterval => "interval"
  end.
(** One gigabyte, the size of the largest field; 10 million characters or bits. *)
Definition pg_largest : Z := 2 ^ 30.
Definition pg_max_length : Z := 10485760.
Definition pg_facts (t : pg_decl) : list (string * pyval) :=
  let nat_v n := PInt (Z.of_nat n) in
  let row ty udt ndims octets len precision scale datetime enum :=
    [("DATA_TYPE", PStr ty); ("UDT_NAME", PStr udt); ("ATTNDIMS", nat_v ndims); ("CHARACTER_OCTET_LENGTH", octets);
     ("CHARACTER_MAXIMUM_LENGTH", len); ("NUMERIC_PRECISION", precision); ("NUMERIC_SCALE", scale);
     ("DATETIME_PRECISION", datetime); ("ENUM_VALUES", enum)] in
  match t with
  | PgArray b n => row "ARRAY" ("_" ++ pg_udt_name b)%string n PNone PNone PNone PNone PNone PNone
  | PgColumn b =>
      let row := row (pg_sql_name b) (pg_udt_name b) 0 in
      match b with
      | PgSmall => row PNone PNone (PInt 16) (PInt 0) PNone PNone
      | PgInteger => row PNone PNone (PInt 32) (PInt 0) PNone PNone
      | PgBig => row PNone PNone (PInt 64) (PInt 0) PNone PNone
      | PgReal => row PNone PNone (PInt 24) PNone PNone PNone
      | PgDouble => row PNone PNone (PInt 53) PNone PNone PNone
      | PgNumeric (Some (p, s)) => row PNone PNone (PInt p) (PInt s) PNone PNone
      | PgText => row (PInt pg_largest) PNone PNone PNone PNone PNone
      | PgVarchar None => row (PInt pg_largest) PNone PNone PNone PNone PNone
      | PgVarchar (Some n) | PgChar n => row (nat_v (4 * n)) (nat_v n) PNone PNone PNone PNone
      | PgBit n | PgVarbit n => row PNone (nat_v n) PNone PNone PNone PNone
      | PgEnum _ ls => row PNone PNone PNone PNone PNone (PList (map PStr ls))
      | PgTimestamp _ p | PgTime p => row PNone PNone PNone PNone (PInt p) PNone
      | PgDate => row PNone PNone PNone PNone (PInt 0) PNone
      | PgInterval => row PNone PNone PNone PNone (PInt 6) PNone
      | PgBool | PgJson _ | PgUuid | PgBytea | PgNumeric None => row PNone PNone PNone PNone PNone PNone
      end
  end.

Definition pg_legal_base (b : pg_base) : Prop :=
  match b with
  | PgNumeric (Some (p, s)) => (1 <= p <= 1000 /\ 0 <= s <= p)%Z
  | PgVarchar (Some n) | PgChar n | PgBit n | PgVarbit n => 1 <= n /\ (Z.of_nat n <= 8 * pg_max_length)%Z
  | PgEnum _ ls => ls <> []
  | PgTimestamp _ p | PgTime p => (0 <= p <= 6)%Z
  | _ => True
  end.
(** Arrays of enumerations are looked at separately. *)
Definition pg_legal (t : pg_decl) : Prop :=
  match t with
  | PgColumn b => pg_legal_base b
  | PgArray b _ => pg_legal_base b /\ forall n ls, b <> PgEnum n ls
  end.

(** 24 November 4714 BC and 1 January 294277, in seconds since 1970. *)
Definition pg_first_second : Z := -210866803200.
Definition pg_end_second : Z := 9224318016000.
Definition pg_base_values (b : pg_base) (d : datum) : Prop :=
  let small s := (Z.of_nat (String.length s) < pg_largest)%Z in
  match b with
  | PgSmall => exists z, d = DInt z /\ int_range 16 true z
  | PgInteger => exists z, d = DInt z /\ int_range 32 true z
  | PgBig => exists z, d = DInt z /\ int_range 64 true z
  | PgReal => exists q, d = DFloat q /\ single q
  | PgDouble => exists q, d = DFloat q /\ double q
  | PgBool => exists x, d = DBool x
  | PgNumeric (Some (p, s)) => exists u, d = DNumber u s /\ (Z.abs u < 10 ^ p)%Z
  | PgNumeric None => exists u k, d = DNumber u k
  | PgText | PgVarchar None | PgJson _ => exists s, d = DText s /\ small s
  | PgVarchar (Some n) => exists s, d = DText s /\ small s /\ text_within n 4 s
  | PgChar n => exists s, d = DText s /\ small s /\ text_within n 4 s /\ chars s = n
  | PgUuid => exists s, d = DText s /\ String.length s = 36
  | PgBytea => exists s, d = DBytes s /\ small s
  | PgBit n => exists s, d = DBytes s /\ String.length s = Nat.div (n + 7) 8
  | PgVarbit n => exists s, d = DBytes s /\ String.length s <= Nat.div (n + 7) 8
  | PgEnum _ ls => exists s, d = DText s /\ In s ls
  | PgTimestamp _ p => instants pg_first_second pg_end_second p d
  | PgDate => exists n, d = DDay n
  | PgTime p => exists n, d = DClock n p
  | PgInterval => exists n p, d = DClock n p
  end.
(** [n] levels of lists around elements, which may be NULL. *)
Inductive levels (P : datum -> Prop) : nat -> datum -> Prop :=
| levels_null : levels P 0 DNull
| levels_value d : P d -> levels P 0 d
| levels_list n l : (forall x, In x l -> levels P n x) -> levels P (S n) (DList l).
Definition pg_values (t : pg_decl) (d : datum) : Prop :=
  match t with
  | PgColumn b => pg_base_values b d
  | PgArray b _ => exists n, 1 <= n <= 6 /\ levels (pg_base_values b) n d
  end.

Definition pg_readable (t : pg_decl) : Prop :=
  match t with
  | PgColumn (PgDate | PgTime _ | PgInterval) => False
  | PgColumn _ => True
  | PgArray (PgInteger | PgBig | PgReal | PgDouble | PgText | PgVarchar _ | PgJson _ | PgUuid | PgBytea | PgBit _) _ => True
  | PgArray _ _ => False
  end.
Definition pg_base_covered (b : pg_base) (d : datum) : Prop :=
  match b, d with
  | PgNumeric (Some _), DNumber u _ => int_range 256 true u
  | PgNumeric None, _ => False
  | PgChar n, DText s => String.length s = 4 * n
  | PgTimestamp _ p, DInstant n _ => (p <= 3 \/ n * 10 ^ (6 - p) < 2 ^ 63)%Z
  | _, _ => True
  end.
Definition pg_element_covered (b : pg_base) : Prop := match b with PgBit _ => False | _ => True end.
(** A part of nested lists. *)
Inductive leaf (x : datum) : datum -> Prop :=
| leaf_self : leaf x x
| leaf_in l y : In y l -> leaf x y -> leaf x (DList l).
(** [enforce] is the option enforce_array_dimensions of the converter. *)
Definition pg_covered (enforce : bool) (t : pg_decl) (d : datum) : Prop :=
  match t with
  | PgColumn b => pg_base_covered b d
  | PgArray b n =>
      if enforce then levels (fun x => pg_base_values b x /\ pg_element_covered b) n d
      else forall x, leaf x d -> x <> DNull /\ (pg_base_values b x -> pg_element_covered b)
  end.

(** ** Snowflake: the reference of its data types and the view INFORMATION_SCHEMA.COLUMNS *)
Inductive sf_type :=
| SfNumber (p s : Z) | SfFloat | SfBool | SfText (n : nat) | SfBinary (n : nat) | SfDate
| SfTimestamp (kind : string) (p : Z) | SfTime (p : Z) | SfOther (name : string).
Definition sf_kinds : list string := ["NTZ"; "LTZ"; "TZ"].
Definition sf_others : list string := ["VARIANT"; "OBJECT"; "ARRAY"; "GEOGRAPHY"; "GEOMETRY"; "VECTOR"].
Definition sf_text_max : Z := 16777216.
Definition sf_facts (t : sf_type) : list (string * pyval) :=
  let row ty octets precision scale datetime :=
    [("DATA_TYPE", PStr ty); ("CHARACTER_OCTET_LENGTH", octets); ("NUMERIC_PRECISION", precision);
     ("NUMERIC_SCALE", scale); ("DATETIME_PRECISION", datetime)] in
  match t with
  | SfNumber p s => row "NUMBER" PNone (PInt p) (PInt s) PNone
  | SfFloat => row "FLOAT" PNone PNone PNone PNone
  | SfBool => row "BOOLEAN" PNone PNone PNone PNone
  | SfText n => row "TEXT" (PInt (Z.min (4 * Z.of_nat n) sf_text_max)) PNone PNone PNone
  | SfBinary n => row "BINARY" (PInt (Z.of_nat n)) PNone PNone PNone
  | SfDate => row "DATE" PNone PNone PNone PNone
  | SfTimestamp k p => row ("TIMESTAMP_" ++ k)%string PNone PNone PNone (PInt p)
  | SfTime p => row "TIME" PNone PNone PNone (PInt p)
  | SfOther n => row n PNone PNone PNone PNone
  end.
Definition sf_legal (t : sf_type) : Prop :=
  match t with
  | SfNumber p s => (1 <= p <= 38 /\ 0 <= s <= p)%Z
  | SfText n => 1 <= n /\ (Z.of_nat n <= sf_text_max)%Z
  | SfBinary n => 1 <= n /\ (Z.of_nat n <= 8388608)%Z
  | SfTimestamp k p => In k sf_kinds /\ (0 <= p <= 9)%Z
  | SfTime p => (0 <= p <= 9)%Z
  | SfOther n => In n sf_others
  | _ => True
  end.
(** 1 January of the year 1, in seconds and in days since 1970; the last day of the year 9999. *)
Definition year_1 : Z := -62135596800.
Definition day_1 : Z := -719162.
Definition last_day : Z := 2932896.
Definition sf_values (t : sf_type) (d : datum) : Prop :=
  match t with
  | SfNumber p s => exists u, d = DNumber u s /\ (Z.abs u < 10 ^ p)%Z
  | SfFloat => exists q, d = DFloat q /\ double q
  | SfBool => exists b, d = DBool b
  | SfText n => exists s, d = DText s /\ text_within n 4 s /\ (Z.of_nat (String.length s) <= sf_text_max)%Z
  | SfBinary n => exists s, d = DBytes s /\ String.length s <= n
  | SfDate => exists n, d = DDay n /\ (day_1 <= n <= last_day)%Z
  | SfTimestamp _ p => instants year_1 year_10000 p d
  | SfTime p => exists n, d = DClock n p /\ (0 <= n < 86400 * 10 ^ p)%Z
  | SfOther _ => exists s, d = DText s
  end.
Definition sf_readable (t : sf_type) : Prop := match t with SfOther _ => False | _ => True end.
(** Instants and times are counted in nanoseconds. *)
Definition sf_covered (t : sf_type) (d : datum) : Prop :=
  match t, d with
  | SfTimestamp _ p, DInstant n _ => int_range 64 true (n * 10 ^ (9 - p))
  | SfTime p, DClock n _ => int_range 32 true (n * 10 ^ (9 - p))
  | _, _ => True
  end.

(** ** SQLite: https://www.sqlite.org/datatype3.html *)
(** The text of a column type in CREATE TABLE: without parentheses, or words, a last word and one or two
    numbers in parentheses. *)
Inductive sq_type := SqPlain (text : string) | SqSized (words last number : string) (scale : option string).
Definition sq_text (t : sq_type) : string :=
  match t with
  | SqPlain s => s
  | SqSized a w n None => (a ++ w ++ "(" ++ n ++ ")")%string
  | SqSized a w n (Some m) => (a ++ w ++ "(" ++ n ++ "," ++ m ++ ")")%string
  end.
Definition digit_char (c : ascii) : Prop := (48 <= N_of_ascii c <= 57)%N.
Definition word_char (c : ascii) : Prop :=
  digit_char c \/ (65 <= N_of_ascii c <= 90)%N \/ (97 <= N_of_ascii c <= 122)%N \/ c = "_"%char.
Definition sq_number (s : string) : Prop := s <> "" /\ all_chars digit_char s.
Definition sq_legal (t : sq_type) : Prop :=
  match t with
  | SqPlain s => all_chars (fun c => c <> "("%char) s
  | SqSized a w n m => (a = "" \/ exists b, a = (b ++ " ")%string) /\ all_chars (fun c => c <> "("%char) a /\
      w <> "" /\ all_chars word_char w /\ sq_number n /\ forall k, m = Some k -> sq_number k
  end.
(** The number that digits stand for. *)
Fixpoint number_of (acc : Z) (s : string) : Z :=
  match s with
  | EmptyString => acc
  | String c r => number_of (10 * acc + (Z.of_N (N_of_ascii c) - 48)) r
  end.
Inductive sq_size : sq_type -> string -> Z -> Prop :=
| sq_size_first a w n m : sq_size (SqSized a w n m) w (number_of 0 n).

Definition sq_max : Z := 2 ^ 31 - 1.
(** A column can hold a value of any storage class, whatever its type (unless the table is STRICT). *)
Definition sq_values (t : sq_type) (d : datum) : Prop :=
  match d with
  | DInt z => int_range 64 true z
  | DFloat q => double q
  | DText s | DBytes s => (Z.of_nat (String.length s) <= sq_max)%Z
  | _ => False
  end.
(** What PRAGMA table_info says about a column; [pk] is its place in the primary key, or 0. *)
Record sq_described (d : decl sq_type) (row : list (string * pyval)) : Prop := {
  sd_name : dget "NAME" row = Some (PStr (d_name d));
  sd_type : dget "TYPE" row = Some (PStr (sq_text (d_type d)));
  sd_default : exists v, dget "DFLT_VALUE" row = Some v;
  sd_null : exists n k, dget "NOTNULL" row = Some (PInt n) /\ dget "PK" row = Some (PInt k) /\
    (d_null d = true <-> n = 0%Z /\ k = 0%Z)
}.
(** The last word decides whether the number is taken as a length. *)
Definition length_word (w : string) : Prop := rule2 w \/ ci_contains "BLOB" w.
Definition sq_covered (t : sq_type) (d : datum) : Prop :=
  let short s := forall w n, sq_size t w n -> length_word w -> (1 <= n)%Z -> (Z.of_nat (String.length s) <= n)%Z in
  exists c, determined (sq_text t) c /\
  match c, d with
  | ClassInteger, DInt _ => True
  | ClassReal, DFloat q => forall w n, sq_size t w n -> (1 <= n <= 23)%Z -> single q
  | ClassText, DText s => short s
  | ClassBlob, DBytes s => short s
  | ClassNumeric, _ => True
  | _, _ => False
  end.

(** ** Arrays of enumerations in PostgreSQL (C109) *)
(** The names under which an array of a user's type is taken for an array of a built-in type. *)
Definition builtin_words : list string :=
  ["bigint"; "int8"; "bigserial"; "serial8"; "integer"; "int"; "int4"; "serial"; "serial4"; "smallint"; "smallserial"; "serial2";
   "double precision"; "float8"; "real"; "float4"; "boolean"; "text"; "json"; "jsonb"; "uuid"; "bytea"].
Definition builtin_beginnings : list string := ["varchar"; "char"; "bit"].
Definition underscores (s : string) : Prop := exists n, s = String.concat "" (repeat "_" n).
Definition builtin_like (name : string) : Prop :=
  exists u m r, name = (u ++ m ++ r)%string /\ underscores u /\
    ((exists w, ci_eq m w /\ In w builtin_words) /\ r = "" \/ exists w, ci_eq m w /\ In w builtin_beginnings).
