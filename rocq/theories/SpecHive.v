(** Vocabulary of the Hive properties, independent of the converter. *)
From Coq Require Import String Ascii List NArith ZArith Bool.
From Verif Require Import PyVal RType SpecTypes SpecDb Hive.
Import ListNotations.
Open Scope nat_scope.
Open Scope string_scope.
Open Scope list_scope.

(** ** Flat unions (C54) *)
(** No two members at different positions are equal (RecapType.__eq__). *)
Definition distinct_members (ts : list rtype) : Prop :=
  forall i j a b, i < j -> nth_error ts i = Some a -> nth_error ts j = Some b -> rt_eq b a = false.
Definition flat (t : rtype) : Prop :=
  forall c ts, node_of (TUnion c ts) t ->
    (forall c' ts', ~ In (TUnion c' ts') ts) /\ distinct_members ts.

(** ** What a Hive type has to become (C54) *)
(** The type without the attributes of lists and maps (see C55). *)
Fixpoint erase (t : rtype) : rtype :=
  match t with
  | TList _ v l r => TList c0 (erase v) l r
  | TMap _ k v => TMap c0 (erase k) (erase v)
  | TStruct c fs => TStruct c (map erase fs)
  | TUnion c ts => TUnion c (map erase ts)
  | _ => t
  end.
Definition members (t : rtype) : list rtype :=
  match t with TUnion _ ts => ts | _ => [t] end.
(** [ms] has null and the members of all of [us], each of them once, and no others. *)
Definition merged (us : list rtype) (ms : list rtype) : Prop :=
  In (TNull c0) ms /\ distinct_members ms /\
  (forall m, In m ms -> m = TNull c0 \/ exists u x, In u us /\ In x (members u) /\ erase x = erase m) /\
  (forall u x, In u us -> In x (members u) ->
     exists y m, In m ms /\ (y = m \/ rt_eq y m = true) /\ erase y = erase x).

(** Types without components: what the values look like in Recap's terms. *)
Inductive hive_leaf : htype -> rtype -> Prop :=
| hl_boolean : hive_leaf (HPrim HBoolean) (TBool c0)
| hl_byte t : int_holds t (-2^7) (2^7 - 1) -> get_c t = c0 -> hive_leaf (HPrim HByte) t
| hl_short t : int_holds t (-2^15) (2^15 - 1) -> get_c t = c0 -> hive_leaf (HPrim HShort) t
| hl_int t : int_holds t (-2^31) (2^31 - 1) -> get_c t = c0 -> hive_leaf (HPrim HInt) t
| hl_long t : int_holds t (-2^63) (2^63 - 1) -> get_c t = c0 -> hive_leaf (HPrim HLong) t
| hl_float : hive_leaf (HPrim HFloat) (TFloat c0 (PInt 32))
| hl_double : hive_leaf (HPrim HDouble) (TFloat c0 (PInt 64))
| hl_string : hive_leaf (HPrim HString) (TString c0 PNone (PBool true))
| hl_binary n : (2147483647 <= n)%Z -> hive_leaf (HPrim HBinary) (TBytes c0 (PInt n) (PBool true))
| hl_decimal p s t n : (p <= 38)%Z -> t = TBytes (get_c t) (PInt n) (PBool false) -> decimal_fits n p ->
    c_logical (get_c t) = PStr "build.recap.Decimal" ->
    extra "precision" t = Some (PInt p) -> extra "scale" t = Some (PInt s) -> hive_leaf (HDecimal p s) t
| hl_varchar n : hive_leaf (HVarchar n) (TString c0 (PInt n) (PBool true))
| hl_char n : hive_leaf (HChar n) (TString c0 (PInt n) (PBool false))
  (** days from 0001-01-01 to 9999-12-31 *)
| hl_date t : int_holds t (-719162) 2932896 -> c_logical (get_c t) = PStr "build.recap.Date" ->
    extra "unit" t = Some (PStr "day") -> hive_leaf (HPrim HDate) t
| hl_timestamp t p : In p [(HTimestamp, PStr "UTC"); (HTimestampLocalTz, PNone)] ->
    c_logical (get_c t) = PStr "build.recap.Timestamp" -> extra "unit" t = Some (PStr "nanosecond") ->
    extra "timezone" t = Some (snd p) -> children t = [] -> is_null t = false -> hive_leaf (HPrim (fst p)) t
| hl_interval t p v : In p [(HIntervalYearMonth, "month"); (HIntervalDayTime, "second")] ->
    t = TBytes (get_c t) (PInt 12) v ->
    c_logical (get_c t) = PStr "build.recap.Interval" -> extra "unit" t = Some (PStr (snd p)) ->
    hive_leaf (HPrim (fst p)) t.

(** [hive_reads h t]: values of the Hive type [h] are read as [t], whose own attributes
    (name, doc, default) are left open. *)
Inductive hive_reads : htype -> rtype -> Prop :=
| hr_void c : hive_reads (HPrim HVoid) (TNull c)
| hr_leaf h c b : hive_leaf h b -> hive_reads h (TUnion c [TNull c0; b])
| hr_list h v c : hive_reads h v -> hive_reads (HList h) (TUnion c [TNull c0; TList c0 v PNone (PBool true)])
| hr_map hk hv k v c : hive_reads hk k -> hive_reads hv v ->
    hive_reads (HMap hk hv) (TUnion c [TNull c0; TMap c0 k v])
| hr_struct names hs fs c : hive_fields names hs fs ->
    hive_reads (HStruct names hs) (TUnion c [TNull c0; TStruct c0 fs])
| hr_union hs us ms c : hive_all hs us -> merged us ms -> hive_reads (HUnion hs) (TUnion c ms)
with hive_all : list htype -> list rtype -> Prop :=
| ha_nil : hive_all [] []
| ha_cons h t hs ts : hive_reads h t -> hive_all hs ts -> hive_all (h :: hs) (t :: ts)
with hive_fields : list string -> list htype -> list rtype -> Prop :=
| hf_end names hs : names = [] \/ hs = [] -> hive_fields names hs []
| hf_cons n names h hs t ts : hive_reads h t -> extra "name" t = Some (PStr n) ->
    hive_fields names hs ts -> hive_fields (n :: names) (h :: hs) (t :: ts).

(** Types the converter supports: no unknown type, at most 38 decimal digits. *)
Inductive hive_ok : htype -> Prop :=
| ok_prim p : hive_ok (HPrim p)
| ok_decimal p s : (p <= 38)%Z -> hive_ok (HDecimal p s)
| ok_varchar n : hive_ok (HVarchar n)
| ok_char n : hive_ok (HChar n)
| ok_list h : hive_ok h -> hive_ok (HList h)
| ok_map k v : hive_ok k -> hive_ok v -> hive_ok (HMap k v)
| ok_union hs : Forall hive_ok hs -> hive_ok (HUnion hs)
  (** a struct has as many names as types; surplus types would be ignored *)
| ok_struct names hs : (forall n h, In (n, h) (combine names hs) -> hive_ok h) -> hive_ok (HStruct names hs).

(** The field made from a column. *)
Record hive_field (col : hcolumn) (f : rtype) : Prop := {
  hfd_reads : hive_reads (hc_type col) f;
  hfd_null : accepts_null f;
  hfd_flat : flat f;
  hfd_name : extra "name" f = Some (PStr (hc_name col));
  hfd_doc : forall s, hc_comment col = Some s -> s <> "" -> c_doc (get_c f) = PStr s;
  hfd_default : is_null f = false -> extra "default" f = Some PNone
}.

(** ** Attributes of nested types (C55) *)
(** [same_attrs a b]: [a] and [b] have the same class and the same attributes. *)
Definition same_attrs (a b : rtype) : Prop :=
  match a, b with
  | TList c _ l r, TList c' _ l' r' => c = c' /\ l = l' /\ r = r'
  | TMap c _ _, TMap c' _ _ => c = c'
  | TStruct c _, TStruct c' _ => c = c'
  | _, _ => a = b
  end.
Inductive no_collections : htype -> Prop :=
| nc_prim p : no_collections (HPrim p)
| nc_decimal p s : no_collections (HDecimal p s)
| nc_varchar n : no_collections (HVarchar n)
| nc_char n : no_collections (HChar n)
| nc_union hs : Forall no_collections hs -> no_collections (HUnion hs)
| nc_struct names hs : Forall no_collections hs -> no_collections (HStruct names hs).

(** A list or map with the stray attribute. *)
Definition tagged (t : rtype) : Prop :=
  match t with
  | TList _ _ _ _ | TMap _ _ _ => exists v, extra "extra_attrs" t = Some v
  | _ => True
  end.

(** ** Statistics (C68) *)
Definition stat_keys : list string :=
  ["low"; "high"; "cardinality"; "null_count"; "average_length"; "max_length"; "true_count"; "false_count"].
(** What each kind of statistics says. *)
Inductive stat_says : hstats -> string -> pyval -> Prop :=
| say_l_low a b c n : stat_says (SLong a b c n) "low" a
| say_l_high a b c n : stat_says (SLong a b c n) "high" b
| say_l_card a b c n : stat_says (SLong a b c n) "cardinality" c
| say_l_null a b c n : stat_says (SLong a b c n) "null_count" n
| say_d_low a b c n : stat_says (SDouble a b c n) "low" a
| say_d_high a b c n : stat_says (SDouble a b c n) "high" b
| say_d_card a b c n : stat_says (SDouble a b c n) "cardinality" c
| say_d_null a b c n : stat_says (SDouble a b c n) "null_count" n
| say_t_low a b c n : stat_says (SDate (Some a) b c n) "low" a
| say_t_high a b c n : stat_says (SDate a (Some b) c n) "high" b
| say_t_card a b c n : stat_says (SDate a b c n) "cardinality" c
| say_t_null a b c n : stat_says (SDate a b c n) "null_count" n
| say_n_low a b c n : stat_says (SDecimal (Some a) b c n) "low" a
| say_n_high a b c n : stat_says (SDecimal a (Some b) c n) "high" b
| say_n_card a b c n : stat_says (SDecimal a b c n) "cardinality" c
| say_n_null a b c n : stat_says (SDecimal a b c n) "null_count" n
| say_s_avg a b c n : stat_says (SString a b c n) "average_length" a
| say_s_max a b c n : stat_says (SString a b c n) "max_length" b
| say_s_card a b c n : stat_says (SString a b c n) "cardinality" c
| say_s_null a b c n : stat_says (SString a b c n) "null_count" n
| say_b_true a b n : stat_says (SBoolean a b n) "true_count" a
| say_b_false a b n : stat_says (SBoolean a b n) "false_count" b
| say_b_null a b n : stat_says (SBoolean a b n) "null_count" n
| say_y_avg a b n : stat_says (SBinary a b n) "average_length" a
| say_y_max a b n : stat_says (SBinary a b n) "max_length" b
| say_y_null a b n : stat_says (SBinary a b n) "null_count" n.

Definition mentions (n : string) (l : list (string * option hstats)) : Prop := exists s, In (n, Some s) l.

(** ** Timestamps (C69): nanoseconds since 1970 of the first and the last second that Hive
    can store, 0001-01-01 00:00:00 and 9999-12-31 23:59:59 *)
Definition hive_first_ns : Z := (-62135596800 * 10 ^ 9)%Z.
Definition hive_last_ns : Z := (253402300799 * 10 ^ 9)%Z.

(** ** Limits (C70): Hive's own limits on VARCHAR (65535) and CHAR (255) *)
Inductive hive_sizes : htype -> Prop :=
| sz_prim p : hive_sizes (HPrim p)
| sz_decimal p s : hive_sizes (HDecimal p s)
| sz_varchar n : (1 <= n <= 65535)%Z -> hive_sizes (HVarchar n)
| sz_char n : (1 <= n <= 255)%Z -> hive_sizes (HChar n)
| sz_list h : hive_sizes h -> hive_sizes (HList h)
| sz_map k v : hive_sizes k -> hive_sizes v -> hive_sizes (HMap k v)
| sz_union hs : Forall hive_sizes hs -> hive_sizes (HUnion hs)
| sz_struct names hs : Forall hive_sizes hs -> hive_sizes (HStruct names hs)
| sz_other : hive_sizes HOther.

(** ** Statistics (C68) *)
Definition named (n : string) (f : rtype) : Prop := extra "name" f = Some (PStr n).
(** [f'] differs from [f] at most in attributes that statistics may set. *)
Definition attributes_only (f f' : rtype) : Prop :=
  set_c f' (get_c f) = f /\ c_logical (get_c f') = c_logical (get_c f) /\
  c_alias (get_c f') = c_alias (get_c f) /\ c_doc (get_c f') = c_doc (get_c f) /\
  forall k, ~ In k stat_keys -> extra k f' = extra k f.
(** The field [f] of the column [n] before and [f'] after loading the statistics [l]. *)
Record stats_loaded (l : list (string * option hstats)) (n : string) (f f' : rtype) : Prop := {
  sl_attributes : attributes_only f f';
  sl_none : ~ mentions n l -> f' = f;
  sl_last : forall l1 s l2 k v, l = l1 ++ (n, Some s) :: l2 -> ~ mentions n l2 -> stat_says s k v ->
              extra k f' = Some v
}.
