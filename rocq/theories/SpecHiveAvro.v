(** Which tables of Hive are printed as Avro schemas, and for which the schema describes the rows (C131);
    independent of recap/converters. *)
From Coq Require Import String Ascii List NArith ZArith Bool.
From Verif Require Import PyVal RType SpecDb SpecRows SpecNested Hive.
Import ListNotations.
Open Scope nat_scope.
Open Scope string_scope.
Open Scope list_scope.

(** Numbers, truth values, bytes, days and texts of limited length; arrays and unions of them. *)
Inductive avro_shown : htype -> Prop :=
| as_prim p : In p [HVoid; HBoolean; HByte; HShort; HInt; HLong; HFloat; HDouble; HBinary; HDate] -> avro_shown (HPrim p)
| as_decimal p s : (1 <= p <= 38)%Z -> (0 <= s <= p)%Z -> avro_shown (HDecimal p s)
| as_varchar n : (1 <= n <= 65535)%Z -> avro_shown (HVarchar n)
| as_char n : (1 <= n <= 255)%Z -> avro_shown (HChar n)
| as_list h : avro_shown h -> avro_shown (HList h)
| as_union hs : Forall avro_shown hs -> avro_shown (HUnion hs).

(** Texts of any length, instants, intervals and maps, also in arrays, unions and structs. *)
Inductive avro_hidden : htype -> Prop :=
| ah_prim p : In p [HString; HTimestamp; HTimestampLocalTz; HIntervalYearMonth; HIntervalDayTime] -> avro_hidden (HPrim p)
| ah_map k v : avro_hidden (HMap k v)
| ah_list h : avro_hidden h -> avro_hidden (HList h)
| ah_union hs h : In h hs -> avro_hidden h -> avro_hidden (HUnion hs)
| ah_struct ns hs n h : In (n, h) (combine ns hs) -> avro_hidden h -> avro_hidden (HStruct ns hs).
