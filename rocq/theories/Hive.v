(** Hive: recap/converters/hive_metastore.py (whole file) and _load_stats of
    recap/clients/hive_metastore.py lines 80-129. *)
From Coq Require Import String Ascii List ZArith Bool.
From Verif Require Import PyVal RType FromDict Nullable.
Import ListNotations.
Open Scope nat_scope.
Open Scope string_scope.
Open Scope list_scope.

(** pymetastore.htypes (an external package): the type trees the metastore client
    hands over.  HDecimalType, HVarcharType and HCharType hold integers.
    [HOther] is any type without a case of its own, e.g. PrimitiveCategory.UNKNOWN. *)
Inductive hprim :=
| HVoid | HBoolean | HByte | HShort | HInt | HLong | HFloat | HDouble | HString | HBinary
| HDate | HTimestamp | HTimestampLocalTz | HIntervalYearMonth | HIntervalDayTime.

Inductive htype :=
| HPrim (p : hprim)
| HDecimal (precision scale : Z)
| HVarchar (length : Z)
| HChar (length : Z)
| HMap (key value : htype)
| HList (element : htype)
| HUnion (types : list htype)
| HStruct (names : list string) (types : list htype)
| HOther.

(** HColumn: name, type and an optional comment. *)
Record hcolumn := mkHCol { hc_name : string; hc_type : htype; hc_comment : option string }.

(** The cases for primitive types, hive_metastore.py:52-72, 91-138.  [d] is the value of the
    keyword doc and [e] the remaining keywords of **extra_attrs; they follow the
    explicit keywords. *)
Definition hive_prim (d : pyval) (e : list (string * pyval)) (p : hprim) : rtype :=
  let cc := mkC PNone PNone d e in
  let cl l x := mkC (PStr l) PNone d (x ++ e) in
  match p with
  | HVoid => TNull cc
  | HBoolean => TBool cc
  | HByte => TInt cc (PInt 8) (PBool true)
  | HShort => TInt cc (PInt 16) (PBool true)
  | HInt => TInt cc (PInt 32) (PBool true)
  | HLong => TInt cc (PInt 64) (PBool true)
  | HFloat => TFloat cc (PInt 32)
  | HDouble => TFloat cc (PInt 64)
  | HString => TString cc PNone (PBool true)
  | HBinary => TBytes cc (PInt 2147483647) (PBool true)
  | HDate => TInt (cl "build.recap.Date" [("unit", PStr "day")]) (PInt 32) (PBool true)
  | HTimestamp => TInt (cl "build.recap.Timestamp" [("unit", PStr "nanosecond"); ("timezone", PStr "UTC")])
                    (PInt 64) (PBool true)
  | HTimestampLocalTz => TInt (cl "build.recap.Timestamp" [("unit", PStr "nanosecond"); ("timezone", PNone)])
                    (PInt 64) (PBool true)
  | HIntervalYearMonth => TBytes (cl "build.recap.Interval" [("signed", PBool true); ("unit", PStr "month")])
                    (PInt 12) (PBool true)
  | HIntervalDayTime => TBytes (cl "build.recap.Interval" [("signed", PBool true); ("unit", PStr "second")])
                    (PInt 12) (PBool true)
  end.

(** [x in l] for lists of types: RecapType.__eq__ decides, types.py:92-106. *)
Definition rt_in (x : rtype) (l : list rtype) : bool := existsb (fun y => rt_eq x y) l.

(** One turn of the loop at hive_metastore.py:191-205.  The comprehension tests against
    the list as it was before [extend]. *)
Definition flat_add (acc : list rtype) (f : rtype) : list rtype :=
  match f with
  | TUnion _ ts => acc ++ filter (fun t => negb (rt_in t acc)) ts
  | _ => if rt_in f acc then acc else acc ++ [f]
  end.

(** The keyword [extra_attrs=extra_attrs] at hive_metastore.py:219 and 225: the whole dict
    of lines 181-185 becomes one extra attribute of that name, and logical, alias and doc
    are not passed on. *)
Definition wrap_attrs (c : common) : common :=
  mkC PNone PNone PNone
    [("extra_attrs", PDict (dupd (c_extra c)
        [("logical", c_logical c); ("alias", c_alias c); ("doc", c_doc c)]))].

(** _flatten_unions, hive_metastore.py:173-229.  Unions and structs get their attributes
    back through **extra_attrs; lists and maps do not, and a list's length and variable
    are not passed either.  Simplified: an extra attribute whose name collides with a
    parameter of the constructor would be a TypeError; the converter never makes one. *)
Fixpoint flatten_unions (t : rtype) : rtype :=
  match t with
  | TUnion c ts => TUnion c (fold_left flat_add (map flatten_unions ts) [])
  | TStruct c fs => TStruct c (map flatten_unions fs)
  | TList c v _ _ => TList (wrap_attrs c) (flatten_unions v) PNone (PBool true)
  | TMap c k v => TMap (wrap_attrs c) (flatten_unions k) (flatten_unions v)
  | _ => t
  end.

(** hive_metastore.py:165-171. *)
Definition hive_finish (t : rtype) : res rtype :=
  match t with
  | TUnion _ _ | TNull _ => Ok t
  | _ => snd (make_nullable t)
  end.

(** _parse_schema, hive_metastore.py:43-171. *)
Fixpoint hive_parse (d : pyval) (e : list (string * pyval)) (h : htype) {struct h} : res rtype :=
  match h with
  | HPrim p => hive_finish (hive_prim d e p)
  | HDecimal precision scale =>
      if (38 <? precision)%Z then Err ValueError
      else hive_finish (TBytes (mkC (PStr "build.recap.Decimal") PNone d
             (("precision", PInt precision) :: ("scale", PInt scale) :: e)) (PInt 16) (PBool false))
  | HVarchar n => hive_finish (TString (mkC PNone PNone d e) (PInt n) (PBool true))
  | HChar n => hive_finish (TString (mkC PNone PNone d e) (PInt n) (PBool false))
  | HMap k v =>
      rbind (hive_parse PNone [] k) (fun k' => rbind (hive_parse PNone [] v) (fun v' =>
        hive_finish (TMap (mkC PNone PNone d e) k' v')))
  | HList x =>
      rbind (hive_parse PNone [] x) (fun x' => hive_finish (TList (mkC PNone PNone d e) x' PNone (PBool true)))
  | HUnion ts =>
      rbind ((fix all (l : list htype) : res (list rtype) :=
                match l with
                | [] => Ok []
                | x :: r => rbind (hive_parse PNone [] x) (fun y => rbind (all r) (fun ys => Ok (y :: ys)))
                end) ts)
        (fun us => hive_finish (flatten_unions
           (TUnion (mkC PNone PNone d (("default", PNone) :: e)) (TNull c0 :: us))))
  | HStruct names ts =>
      rbind ((fix all (ns : list string) (l : list htype) {struct l} : res (list rtype) :=
                match ns, l with
                | n :: ns', x :: r =>
                    rbind (hive_parse PNone [("name", PStr n)] x) (fun y => rbind (all ns' r) (fun ys => Ok (y :: ys)))
                | _, _ => Ok []
                end) names ts)
        (fun fs => hive_finish (TStruct (mkC PNone PNone d e) fs))
  | HOther => Err ValueError
  end.

(** _parse_schema of a column: hive_metastore.py:46-50; an empty comment is left out. *)
Definition hive_column (col : hcolumn) : res rtype :=
  hive_parse (match hc_comment col with Some (String a r) => PStr (String a r) | _ => PNone end)
    [("name", PStr (hc_name col))] (hc_type col).

(** to_recap, hive_metastore.py:33-41. *)
Definition hive_to_recap (name : string) (columns : list hcolumn) : res rtype :=
  rbind (rmap hive_column columns) (fun fs => Ok (TStruct (mkC PNone PNone PNone [("name", PStr name)]) fs)).

(** pymetastore.stats: column statistics.  Low and high of the date statistics are days
    since the epoch; every class is a TypeStats with numNulls. *)
Inductive hstats :=
| SLong (low high cardinality nulls : pyval)
| SDouble (low high cardinality nulls : pyval)
| SDate (low high : option pyval) (cardinality nulls : pyval)
| SString (average max cardinality nulls : pyval)
| SBoolean (trues falses nulls : pyval)
| SBinary (average max nulls : pyval)
| SDecimal (low high : option pyval) (cardinality nulls : pyval).

Definition opt_entry (k : string) (o : option pyval) : list (string * pyval) :=
  match o with Some v => [(k, v)] | None => [] end.

(** clients/hive_metastore.py:86-129: the entries written for one column. *)
Definition stat_entries (s : hstats) : list (string * pyval) :=
  match s with
  | SLong lo hi ca nu | SDouble lo hi ca nu =>
      [("low", lo); ("high", hi); ("cardinality", ca); ("null_count", nu)]
  | SDate lo hi ca nu | SDecimal lo hi ca nu =>
      ("cardinality", ca) :: opt_entry "low" lo ++ opt_entry "high" hi ++ [("null_count", nu)]
  | SString av mx ca nu =>
      [("average_length", av); ("max_length", mx); ("cardinality", ca); ("null_count", nu)]
  | SBoolean tr fa nu => [("true_count", tr); ("false_count", fa); ("null_count", nu)]
  | SBinary av mx nu => [("average_length", av); ("max_length", mx); ("null_count", nu)]
  end.

Definition has_name (n : string) (t : rtype) : bool :=
  match dget "name" (c_extra (get_c t)) with Some v => py_eq v (PStr n) | None => false end.

Definition with_stats (s : hstats) (t : rtype) : rtype :=
  let c := get_c t in
  set_c t (mkC (c_logical c) (c_alias c) (c_doc c) (dupd (c_extra c) (stat_entries s))).

(** fields_dict[columnName], clients/hive_metastore.py:81, 85: the last field of that name,
    KeyError if there is none; the entries are written into that field's own dict. *)
Fixpoint stat_column (n : string) (s : hstats) (fs : list rtype) : res (list rtype) :=
  match fs with
  | [] => Err KeyError
  | f :: r =>
      match stat_column n s r with
      | Ok r' => Ok (f :: r')
      | Err x => if has_name n f then Ok (with_stats s f :: r) else Err x
      end
  end.

(** _load_stats, clients/hive_metastore.py:80-129, on the statistics the metastore returns;
    columns without statistics are skipped.  All fields come from to_recap and have a name.
    On KeyError the statistics written so far stay, but schema() does not return. *)
Fixpoint load_stats (l : list (string * option hstats)) (fs : list rtype) : res (list rtype) :=
  match l with
  | [] => Ok fs
  | (_, None) :: r => load_stats r fs
  | (n, Some s) :: r => rbind (stat_column n s fs) (load_stats r)
  end.

(** HiveMetastoreClient.schema, clients/hive_metastore.py:68-78. *)
Definition hive_schema (name : string) (columns : list hcolumn)
    (stats : option (list (string * option hstats))) : res rtype :=
  rbind (hive_to_recap name columns) (fun t =>
    match stats, t with
    | Some l, TStruct c fs => rbind (load_stats l fs) (fun fs' => Ok (TStruct c fs'))
    | _, _ => Ok t
    end).
