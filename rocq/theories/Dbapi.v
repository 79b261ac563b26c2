(** Database converters: recap/converters/dbapi.py, mysql.py, postgresql.py, snowflake.py,
    sqlite.py, and SQLiteClient.add_information_schema in recap/clients/sqlite.py.

    A column is the dict that DbapiClient.schema builds from one row (clients/dbapi.py:102-106).
    Simplifications: case conversion, white space, digits and word characters are ASCII. *)
From Coq Require Import String Ascii List NArith ZArith QArith Bool.
From Verif Require Import PyVal RType Registry FromDict Nullable Url.
Import ListNotations.
Open Scope nat_scope.
Open Scope string_scope.
Open Scope list_scope.

Definition column := list (string * pyval).

(** ** String and dict operations *)

(** d[k] *)
Definition item (k : string) (d : column) : res pyval :=
  match dget k d with Some v => Ok v | None => Err KeyError end.

(** The string on which a method is called. *)
Definition as_str (v : pyval) : res string :=
  match v with PStr s => Ok s | _ => Err AttributeError end.

Definition upper_char (c : ascii) : ascii :=
  let n := N_of_ascii c in
  if (N.leb 97 n && N.leb n 122)%bool then ascii_of_N (n - 32) else c.
(** str.upper *)
Fixpoint upper (s : string) : string :=
  match s with
  | EmptyString => EmptyString
  | String c r => String (upper_char c) (upper r)
  end.

(** s.startswith(p) *)
Definition starts (p s : string) : bool := String.prefix p s.

(** x or y *)
Definition or_else (v d : pyval) : pyval := if truthy v then v else d.

Definition is_space (c : ascii) : bool :=
  let n := N_of_ascii c in (N.eqb n 32 || (N.leb 9 n && N.leb n 13) || (N.leb 28 n && N.leb n 31))%bool.
Fixpoint lstrip (s : string) : string :=
  match s with
  | String c r => if is_space c then lstrip r else s
  | EmptyString => EmptyString
  end.
Fixpoint rstrip (s : string) : string :=
  match s with
  | EmptyString => EmptyString
  | String c r =>
      match rstrip r with
      | EmptyString => if is_space c then EmptyString else String c EmptyString
      | r' => String c r'
      end
  end.
(** str.strip() *)
Definition strip (s : string) : string := rstrip (lstrip s).

Definition digit_of (c : ascii) : option Z :=
  let n := N_of_ascii c in
  if (N.leb 48 n && N.leb n 57)%bool then Some (Z.of_N (n - 48)) else None.

(** Digits with single underscores between them; [after] says the previous character was a digit. *)
Fixpoint int_digits (after : bool) (acc : Z) (s : string) : option Z :=
  match s with
  | EmptyString => if after then Some acc else None
  | String c r =>
      match digit_of c with
      | Some d => int_digits true (10 * acc + d)%Z r
      | None => if (Ascii.eqb c "_" && after)%bool
                then match r with EmptyString => None | _ => int_digits false acc r end
                else None
      end
  end.
(** int(s) for a string *)
Definition parse_int (s : string) : option Z :=
  match strip s with
  | String "+" r => int_digits false 0 r
  | String "-" r => option_map Z.opp (int_digits false 0 r)
  | r => int_digits false 0 r
  end.
(** int(v): truncation for floats *)
Definition py_int (v : pyval) : res Z :=
  match v with
  | PInt z => Ok z
  | PBool b => Ok (if b then 1%Z else 0%Z)
  | PFloat q => Ok (Z.quot (Qnum q) (Zpos (Qden q)))
  | PStr s => match parse_int s with Some z => Ok z | None => Err ValueError end
  | _ => Err TypeError
  end.

(** ** DbapiConverter, converters/dbapi.py *)

(** Text up to the first closing parenthesis; None without one or with a line feed before it
    (the regex dot does not match a line feed). *)
Fixpoint until_close (s : string) : option string :=
  match s with
  | EmptyString => None
  | String c r =>
      if Ascii.eqb c ")" then Some EmptyString
      else if Ascii.eqb c "010" then None
      else option_map (String c) (until_close r)
  end.
Fixpoint find_params (s : string) : option string :=
  match s with
  | EmptyString => None
  | String c r =>
      if Ascii.eqb c "(" then
        match until_close r with Some t => Some t | None => find_params r end
      else find_params r
  end.
(** _parse_parameters, dbapi.py:32-39 *)
Definition parse_parameters (col_type : string) : option (list string) :=
  option_map (fun t => map strip (split "," t)) (find_params col_type).

(** _get_time_unit, dbapi.py:41-48; None when no case matches. *)
Definition get_time_unit (params : option (list pyval)) : res (option string) :=
  match params with
  | Some (u :: _) =>
      (n <- py_int u ;;
       if (n =? 0)%Z then Ok (Some "second")
       else if (n <=? 3)%Z then Ok (Some "millisecond")
       else if (n <=? 6)%Z then Ok (Some "microsecond")
       else Ok None)%res
  | _ => Ok None
  end.

(** obj.extra_attrs[k] = v *)
Definition set_extra (k : string) (v : pyval) (t : rtype) : rtype :=
  let c := get_c t in set_c t (mkC (c_logical c) (c_alias c) (c_doc c) (dset k v (c_extra c))).

(** The loop body of to_recap after _parse_type, dbapi.py:13-22. *)
Definition finish (col : column) (t : rtype) : res rtype :=
  (n <- item "IS_NULLABLE" col ;;
   s <- as_str n ;;
   let nullable := String.eqb (upper s) "YES" in
   t1 <- (if nullable then snd (make_nullable t) else Ok t) ;;
   d <- item "COLUMN_DEFAULT" col ;;
   let t2 := if (negb (is_none d) || nullable)%bool then set_extra "default" d t1 else t1 in
   name <- item "COLUMN_NAME" col ;;
   Ok (set_extra "name" name t2))%res.

(** to_recap, dbapi.py:9-26, over the converter's own _parse_type.  The state is the type registry
    that PostgresqlConverter keeps; the other converters do not use it. *)
Section ToRecap.
  Variable parse_type : column -> M rtype.
  Fixpoint fields_of (cols : list column) : M (list rtype) :=
    match cols with
    | [] => ret []
    | c :: cs =>
        (t <- parse_type c ;;
         f <- lift (finish c t) ;;
         fs <- fields_of cs ;;
         ret (f :: fs))%mon
    end.
  Definition to_recap (cols : list column) : M rtype :=
    (fs <- fields_of cols ;; ret (TStruct c0 fs))%mon.
End ToRecap.

Definition int_t (bits : Z) (signed : bool) : rtype := TInt c0 (PInt bits) (PBool signed).
Definition float_t (bits : Z) : rtype := TFloat c0 (PInt bits).
(** IntType(bits=.., logical=.., unit=..) *)
Definition time_t (logical : string) (bits : Z) (unit : string) : rtype :=
  TInt (lge logical [("unit", PStr unit)]) (PInt bits) (PBool true).
(** BytesType(logical="build.recap.Decimal", bytes_=.., variable=False, precision=.., scale=..) *)
Definition decimal_t (bytes : Z) (precision scale : pyval) : rtype :=
  TBytes (lge "build.recap.Decimal" [("precision", precision); ("scale", scale)])
    (PInt bytes) (PBool false).

Definition unit_or (u : option string) (dflt : string) : string :=
  match u with Some s => s | None => dflt end.

(** ** MysqlConverter._parse_type, converters/mysql.py:8-82 *)
Definition mysql_type (col : column) : res rtype :=
  (dt <- item "DATA_TYPE" col ;;
   dt <- as_str dt ;;
   let data_type := lower dt in
   octet <- item "CHARACTER_OCTET_LENGTH" col ;;
   precision <- item "NUMERIC_PRECISION" col ;;
   scale <- item "NUMERIC_SCALE" col ;;
   let is s := String.eqb data_type s in
   if is "bigint" then Ok (int_t 64 true)
   else if str_in data_type ["int"; "integer"] then Ok (int_t 32 true)
   else if is "mediumint" then Ok (int_t 24 true)
   else if is "smallint" then Ok (int_t 16 true)
   else if is "tinyint" then Ok (int_t 8 true)
   else if is "double" then Ok (float_t 64)
   else if is "float" then
     (gt <- py_gt_z precision 23 ;;
      if gt : bool then Ok (float_t 64) else Ok (float_t 32))
   else if (str_in data_type ["text"; "json"; "mediumtext"; "longtext"; "tinytext"]
            || starts "varchar" data_type)%bool then
     Ok (TString c0 octet (PBool true))
   else if (starts "char" data_type || str_in data_type ["enum"; "set"])%bool then
     Ok (TString c0 octet (PBool false))
   else if (str_in data_type ["blob"; "mediumblob"; "longblob"; "tinyblob"]
            || starts "varbinary" data_type)%bool then
     Ok (TBytes c0 octet (PBool true))
   else if starts "binary" data_type then Ok (TBytes c0 octet (PBool false))
   else if starts "bit" data_type then Ok (TBytes c0 (PInt 8) (PBool false))
   else if (starts "timestamp" data_type || starts "datetime" data_type)%bool then
     (p <- item "DATETIME_PRECISION" col ;;
      u <- get_time_unit (Some [p]) ;;
      Ok (time_t "build.recap.Timestamp" 64 (unit_or u "microsecond")))
   else if str_in data_type ["dec"; "decimal"; "numeric"] then
     Ok (decimal_t 32 precision scale)
   else if is "year" then Ok (int_t 16 false)
   else Err ValueError)%res.

(** ** SnowflakeConverter._parse_type, converters/snowflake.py:8-80 *)
Definition snowflake_type (col : column) : res rtype :=
  (dt <- item "DATA_TYPE" col ;;
   dt <- as_str dt ;;
   let data_type := lower dt in
   octet <- item "CHARACTER_OCTET_LENGTH" col ;;
   let st p := starts p data_type in
   let unit := get_time_unit (option_map (map PStr) (parse_parameters data_type)) in
   if str_in data_type ["float"; "float4"; "float8"; "double"; "double precision"; "real"]
   then Ok (float_t 64)
   else if String.eqb data_type "boolean" then Ok (TBool c0)
   else if (str_in data_type ["number"; "decimal"; "numeric"; "int"; "integer"; "bigint";
                              "smallint"; "tinyint"; "byteint"]
            || st "number" || st "decimal" || st "numeric")%bool then
     (precision <- item "NUMERIC_PRECISION" col ;;
      scale <- item "NUMERIC_SCALE" col ;;
      Ok (decimal_t 16 (or_else precision (PInt 38)) (or_else scale (PInt 0))))
   else if (st "varchar" || st "string" || st "text" || st "nvarchar" || st "nvarchar2"
            || st "char varying" || st "nchar varying")%bool then
     Ok (TString c0 (or_else octet (PInt 16777216)) (PBool true))
   else if (st "char" || st "nchar" || st "character")%bool then
     Ok (TString c0 (or_else octet (PInt 1)) (PBool true))
   else if str_in data_type ["binary"; "varbinary"; "blob"] then
     Ok (TBytes c0 (or_else octet (PInt 8388608)) (PBool true))
   else if String.eqb data_type "date" then Ok (time_t "build.recap.Date" 32 "day")
   else if (st "timestamp" || st "datetime")%bool then
     (u <- unit ;; Ok (time_t "build.recap.Timestamp" 64 (unit_or u "nanosecond")))
   else if st "time" then
     (u <- unit ;; Ok (time_t "build.recap.Time" 32 (unit_or u "nanosecond")))
   else Err ValueError)%res.

(** ** PostgresqlConverter, converters/postgresql.py *)
Definition max_field_size : Z := 1073741824.

(** ceil(v / 8), postgresql.py:78.  Simplification: exact division; Python divides floats, which
    agrees for lengths below 2^53. *)
Definition ceil_div8 (v : pyval) : res pyval :=
  match v with
  | PInt z => Ok (PInt (- ((- z) / 8))%Z)
  | PBool b => Ok (PInt (if b then 1 else 0))
  | PFloat q => Ok (PInt (- ((- Qnum q) / (8 * Zpos (Qden q))))%Z)
  | _ => Err TypeError
  end.

(** _create_n_dimension_list, postgresql.py:151-160; a negative number of dimensions exceeds the
    recursion limit. *)
Fixpoint n_lists (t : rtype) (n : nat) : rtype :=
  match n with
  | O => TUnion c0 [TNull c0; t]
  | S m => TList c0 (n_lists t m) PNone (PBool true)
  end.
Definition n_dimension_list (t : rtype) (ndims : pyval) : res rtype :=
  match ndims with
  | PInt z => if (z <? 0)%Z then Err OutOfFuel else Ok (n_lists t (Z.to_nat z))
  | PBool b => Ok (n_lists t (if b then 1 else 0))
  | PFloat _ => Err Unmodelled
  | _ => Err TypeError
  end.

(** s.lstrip("_") *)
Fixpoint lstrip_under (s : string) : string :=
  match s with
  | String "_" r => lstrip_under r
  | _ => s
  end.
(** s.replace(".", "_") *)
Fixpoint dots_under (s : string) : string :=
  match s with
  | EmptyString => EmptyString
  | String c r => String (if Ascii.eqb c "." then "_"%char else c) (dots_under r)
  end.

(** f"{self.namespace}.{column_name_without_periods}", postgresql.py:122-123 *)
Definition array_alias (namespace column_name : string) : string :=
  (namespace ++ "." ++ dots_under column_name)%string.

(** The column dict built for the element type, postgresql.py:103-117. *)
Definition element_column (data_type : string) : column :=
  [("COLUMN_NAME", PNone); ("DATA_TYPE", PStr data_type);
   ("CHARACTER_OCTET_LENGTH", PInt max_field_size);
   ("CHARACTER_MAXIMUM_LENGTH", PInt (max_field_size * 8));
   ("UDT_NAME", PNone); ("ATTNDIMS", PInt 0)].

(** The self-referencing list, postgresql.py:129-140. *)
Definition self_list (alias : string) (t : rtype) : rtype :=
  TList (mkC PNone (PStr alias) PNone [])
    (TUnion c0 [t; TProxy (mkC PNone (PStr alias) PNone []) None]) PNone (PBool true).

(** (v or "").lower() *)
Definition lower_or_empty (v : pyval) : res string :=
  if truthy v then rbind (as_str v) (fun s => Ok (lower s)) else Ok "".

(** _parse_type, postgresql.py:41-149.  Fuel counts array nesting. *)
Fixpoint pg_type_fuel (fuel : nat) (enforce : bool) (namespace : string) (col : column) : M rtype :=
  match fuel with
  | O => fail OutOfFuel
  | S n =>
    (column_name <- lift (item "COLUMN_NAME" col) ;;
     dt <- lift (rbind (item "DATA_TYPE" col) as_str) ;;
     let data_type := lower dt in
     octet <- lift (item "CHARACTER_OCTET_LENGTH" col) ;;
     max_length <- lift (item "CHARACTER_MAXIMUM_LENGTH" col) ;;
     udt_name <- lift (rbind (item "UDT_NAME" col) lower_or_empty) ;;
     ndims <- lift (item "ATTNDIMS" col) ;;
     let st p := starts p data_type in
     if str_in data_type ["bigint"; "int8"; "bigserial"; "serial8"] then ret (int_t 64 true)
     else if str_in data_type ["integer"; "int"; "int4"; "serial"; "serial4"] then ret (int_t 32 true)
     else if str_in data_type ["smallint"; "smallserial"; "serial2"] then ret (int_t 16 true)
     else if str_in data_type ["double precision"; "float8"] then ret (float_t 64)
     else if str_in data_type ["real"; "float4"] then ret (float_t 32)
     else if String.eqb data_type "boolean" then ret (TBool c0)
     else if (str_in data_type ["text"; "json"; "jsonb"]
              || st "character varying" || st "varchar")%bool then
       ret (TString c0 octet (PBool true))
     else if st "char" then ret (TString c0 octet (PBool false))
     else if String.eqb data_type "uuid" then
       ret (TString (lg "build.recap.UUID") (PInt 36) (PBool false))
     else if (String.eqb data_type "bytea" || st "bit varying")%bool then
       ret (TBytes c0 (PInt max_field_size) (PBool true))
     else if st "bit" then
       (b <- lift (ceil_div8 max_length) ;; ret (TBytes c0 b (PBool false)))
     else if st "timestamp" then
       (p <- lift (item "DATETIME_PRECISION" col) ;;
        u <- lift (get_time_unit (Some [p])) ;;
        ret (time_t "build.recap.Timestamp" 64 (unit_or u "microsecond")))
     else if (st "decimal" || st "numeric")%bool then
       (precision <- lift (item "NUMERIC_PRECISION" col) ;;
        scale <- lift (item "NUMERIC_SCALE" col) ;;
        ret (decimal_t 32 precision scale))
     else if String.eqb data_type "array" then
       (value_type <- pg_type_fuel n enforce namespace (element_column (lstrip_under udt_name)) ;;
        if enforce then lift (n_dimension_list value_type ndims)
        else
          (name <- lift (as_str column_name) ;;
           let t := self_list (array_alias namespace name) value_type in
           _ <- register_alias t ;;
           ret t))
     else if String.eqb data_type "user-defined" then
       (e <- lift (item "ENUM_VALUES" col) ;;
        if truthy e then ret (TEnum c0 e) else fail ValueError)
     else fail ValueError)%mon
  end.

(** The element of an array of arrays has an empty type name, so two levels are enough
    (pg_fuel_enough in DbapiFacts.v). *)
Definition pg_type (enforce : bool) (namespace : string) (col : column) : M rtype :=
  pg_type_fuel 3 enforce namespace col.

(** PostgresqlClient.schema reads the rows and calls to_recap of the converter, whose default is one
    object for the whole process (clients/postgresql.py:52-57, 87-129): a sequence of reads shares
    one registry. *)
Definition pg_read (cols : list column) : M rtype := to_recap (pg_type false "_root") cols.
Fixpoint pg_reads (tables : list (list column)) (R : registry) : list (res rtype) :=
  match tables with
  | [] => []
  | t :: ts => let '(R', r) := pg_read t R in r :: pg_reads ts R'
  end.

(** ** SQLiteConverter, converters/sqlite.py *)
Definition sqlite_max_length : Z := 2147483647.

Inductive affinity := AInteger | AReal | AText | ABlob | ANumeric.

(** get_affinity, sqlite.py:67-90 *)
Definition get_affinity (column_type : option string) : affinity :=
  let t := upper (match column_type with Some s => s | None => "" end) in
  if negb (nonempty t) then ABlob
  else if substr_in "INT" t then AInteger
  else if (substr_in "CHAR" t || substr_in "TEXT" t || substr_in "CLOB" t)%bool then AText
  else if substr_in "BLOB" t then ABlob
  else if (substr_in "REAL" t || substr_in "FLOA" t || substr_in "DOUB" t)%bool then AReal
  else ANumeric.

(** The argument of get_affinity: a string or something false. *)
Definition type_text (v : pyval) : res (option string) :=
  if truthy v then rbind (as_str v) (fun s => Ok (Some s)) else Ok None.

(** _parse_type, sqlite.py:33-64 *)
Definition sqlite_type (col : column) : res rtype :=
  (_ <- item "COLUMN_NAME" col ;;
   column_type <- item "TYPE" col ;;
   octet <- item "CHARACTER_OCTET_LENGTH" col ;;
   precision <- item "NUMERIC_PRECISION" col ;;
   tt <- type_text column_type ;;
   match get_affinity tt with
   | AInteger => Ok (int_t 64 true)
   | AReal =>
       if truthy precision then
         (gt <- py_gt_z precision 23 ;; Ok (float_t (if gt : bool then 64 else 32)))
       else Ok (float_t 64)
   | AText => Ok (TString c0 (or_else octet (PInt sqlite_max_length)) (PBool true))
   | ABlob => Ok (TBytes c0 (or_else octet (PInt sqlite_max_length)) (PBool true))
   | ANumeric =>
       Ok (TUnion c0 [TNull c0; int_t 64 true; float_t 64;
                      TString c0 (PInt sqlite_max_length) (PBool true);
                      TBytes c0 (PInt sqlite_max_length) (PBool true)])
   end)%res.

(** ** SQLiteClient.add_information_schema, clients/sqlite.py:99-141 *)
Definition is_word (c : ascii) : bool :=
  let n := N_of_ascii c in
  (N.leb 48 n && N.leb n 57 || N.leb 65 n && N.leb n 90 || N.leb 97 n && N.leb n 122 || N.eqb n 95)%bool.
Definition is_digit (c : ascii) : bool := match digit_of c with Some _ => true | None => false end.

(** The longest prefix of characters satisfying p, and the rest. *)
Fixpoint span (p : ascii -> bool) (s : string) : string * string :=
  match s with
  | String c r => if p c then let '(a, b) := span p r in (String c a, b) else (EmptyString, s)
  | EmptyString => (EmptyString, EmptyString)
  end.

(** The regex (\w+)\((\d+)(?:,\s*(\d+))?\) at the start of s (clients/sqlite.py:124).  Greedy runs never
    have to give characters back because the next character is of another kind. *)
Definition numeric_here (s : string) : option (string * string * string) :=
  let '(w, r) := span is_word s in
  if nonempty w then
    match r with
    | String "(" r1 =>
        let '(p, r2) := span is_digit r1 in
        if nonempty p then
          match r2 with
          | String ")" _ => Some (w, p, "")
          | String "," r3 =>
              let '(_, r4) := span is_space r3 in
              let '(q, r5) := span is_digit r4 in
              match r5 with
              | String ")" _ => if nonempty q then Some (w, p, q) else None
              | _ => None
              end
          | _ => None
          end
        else None
    | _ => None
    end
  else None.
(** Pattern.search *)
Fixpoint numeric_search (s : string) : option (string * string * string) :=
  match numeric_here s with
  | Some m => Some m
  | None => match s with EmptyString => None | String _ r => numeric_search r end
  end.
Fixpoint digits (acc : Z) (s : string) : Z :=
  match s with
  | EmptyString => acc
  | String c r => digits (10 * acc + match digit_of c with Some d => d | None => 0 end)%Z r
  end.

Definition add_information_schema (row : column) : res column :=
  (nn <- item "NOTNULL" row ;;
   pk <- (if truthy nn then Ok PNone else item "PK" row) ;;
   let is_not_null := (truthy nn || truthy pk)%bool in
   name <- item "NAME" row ;;
   dflt <- item "DFLT_VALUE" row ;;
   ty <- item "TYPE" row ;;
   ty <- match ty with PStr s => Ok s | _ => Err TypeError end ;;
   let base := [("COLUMN_NAME", name);
                ("IS_NULLABLE", PStr (if is_not_null then "NO" else "YES"));
                ("COLUMN_DEFAULT", dflt)] in
   let rest :=
     match numeric_search ty with
     | Some (w, p, q) =>
         let precision := PInt (digits 0 p) in
         let scale := PInt (digits 0 q) in
         match get_affinity (Some (upper w)) with
         | AInteger | AReal | ANumeric =>
             [("NUMERIC_PRECISION", precision); ("NUMERIC_SCALE", scale);
              ("CHARACTER_OCTET_LENGTH", PNone)]
         | AText | ABlob =>
             [("NUMERIC_PRECISION", PNone); ("NUMERIC_SCALE", PNone);
              ("CHARACTER_OCTET_LENGTH", precision)]
         end
     | None => [("NUMERIC_PRECISION", PNone); ("NUMERIC_SCALE", PNone);
                ("CHARACTER_OCTET_LENGTH", PNone)]
     end in
   Ok (dupd row (base ++ rest)))%res.

(** A column parser without state. *)
Definition pure (f : column -> res rtype) (col : column) : M rtype := lift (f col).

(** SQLiteClient.schema on the rows of PRAGMA table_info, clients/sqlite.py:80-97 *)
Definition sqlite_schema (rows : list column) : M rtype :=
  (cols <- lift (rmap add_information_schema rows) ;; to_recap (pure sqlite_type) cols)%mon.
