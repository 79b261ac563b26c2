(** Property theorems for the Avro converter (C33-C37, C72-C76). *)
From Coq Require Import String Ascii List NArith ZArith QArith Bool Lia.
From Verif Require Import PyVal RType Registry FromDict SpecTypes RoundTrip Avro SpecAvro AvroFacts AvroMore AvroProps.
Import ListNotations.
Open Scope nat_scope.
Open Scope string_scope.
Open Scope list_scope.

(** ** Example schemas *)
Definition lname (s : string) : labels := mkLabels None (Some s) None.
Definition user : avro :=
  ARecord (mkLabels (Some "a user") (Some "user") None)
    [APrim (lname "id") "long";
     AUnion (mkLabels None (Some "mail") (Some PNone)) [APrim unlabelled "null"; APrim unlabelled "string"];
     AArray (lname "tags") (APrim unlabelled "string");
     AMap (lname "boss") (ARef unlabelled "org.user");
     ALogical (lname "born") "int" "date";
     AArray (lname "posts") (ARecord (lname "post") [AEnum (lname "kind") [PStr "A"; PStr "B"]; ADecimal (lname "price") 10 2])].
Ltac ident := cbn [identifier all_chars]; unfold alnum_, alpha_; cbv [N_of_ascii N_of_digits N.add N.mul Pos.add Pos.mul]; repeat split; lia.
Lemma user_ok : avro_ok user /\ inlined user /\ NoDup (defined_names user) /\ namespace "org".
Proof.
  assert (L : forall s, identifier s -> labels_ok (lname s)).
  { intros s I. split; [discriminate|]. intros s' [= <-]. exact I. }
  assert (U : labels_ok unlabelled) by (split; discriminate).
  split; [|split; [|split]].
  - unfold user. apply ok_record.
    + split; [discriminate|]. intros s [= <-]. ident.
    + repeat (apply Forall_cons); [..|apply Forall_nil].
      * apply ok_prim; [apply L; ident|cbn; auto].
      * apply ok_union; [split; [discriminate|intros s [= <-]; ident]|].
        repeat (apply Forall_cons); [..|apply Forall_nil]; (apply ok_prim; [exact U|cbn; tauto]).
      * apply ok_array; [apply L; ident|]. apply ok_prim; [exact U|cbn; tauto].
      * apply ok_map; [apply L; ident|]. apply ok_ref; [exact U|reflexivity].
      * apply ok_logical; [apply L; ident|cbn; auto].
      * apply ok_array; [apply L; ident|]. apply ok_record; [apply L; ident|].
        repeat (apply Forall_cons); [..|apply Forall_nil]; constructor; apply L; ident.
  - repeat constructor.
  - vm_compute. repeat constructor; cbn; intuition discriminate.
  - exists ["org"]. split; [cbn; lia|]. split; [constructor; [ident|constructor]|reflexivity].
Qed.

(** ** C33: Avro integer types hold every value of the Recap integer *)
(** Proved for signed integers of at most 64 bits and unsigned ones of at most 32. *)
Theorem C33_integers_partial : forall R c n (s : bool), (forall x, c_logical c <> PStr x) -> sized_alias c ->
  (if s then n <= 64 else n <= 32)%Z ->
  exists o, avro_from R (TInt c (PInt n) (PBool s)) = Ok o /\ forall v, int_value n s v -> avro_int o v.
Proof. exact ints_hold. Qed.
Print Assumptions C33_integers_partial.
(** False for all others: the precision is one digit short. *)
Theorem C33_integers_refuted : forall R c n (s : bool) o, (forall x, c_logical c <> PStr x) ->
  (if s then 64 < n else 32 < n)%Z -> avro_from R (TInt c (PInt n) (PBool s)) = Ok o ->
  exists v, int_value n s v /\ ~ avro_int o v.
Proof. exact ints_lost. Qed.
Print Assumptions C33_integers_refuted.
Example C33_case : avro_from [] (TInt c0 (PInt 32) (PBool false)) = Ok (PDict [("type", PStr "long")]) /\
  avro_from [] (TInt c0 (PInt 33) (PBool false)) =
    Ok (PDict [("type", PStr "bytes"); ("logicalType", PStr "decimal"); ("precision", PInt 9)]) /\
  int_value 33 false (10 ^ 9).
Proof. repeat split; try (vm_compute; reflexivity); vm_compute; congruence. Qed.

(** ** C34: conversion keeps the record structure *)
Theorem C34_records : forall R c fs v, (forall s, c_logical c <> PStr s) -> Forall (plain_reference R) fs ->
  avro_from_f 1 R (TStruct c fs) = Ok v ->
  exists o os, v = PDict o /\ has o "type" (PStr "record") /\ has o "fields" (PList (map PDict os)) /\
    labelled (TStruct c fs) o /\ Forall2 labelled fs os.
Proof. exact (struct_record 1). Qed.
Print Assumptions C34_records.
Definition point : rtype :=
  TStruct (mkC PNone (PStr "geo.point") (PStr "a point") [("name", PStr "point")])
    [TFloat (mkC PNone PNone PNone [("name", PStr "x"); ("default", PFloat 0)]) (PInt 64);
     TProxy (mkC PNone (PStr "int8") (PStr "second") [("name", PStr "y")]) None;
     TProxy (mkC PNone (PStr "geo.unit") PNone [("name", PStr "u")]) None].
Example C34_case : Forall (plain_reference builtin_aliases)
    (match point with TStruct _ fs => fs | _ => [] end) /\
  avro_from builtin_aliases point = Ok (PDict
    [("doc", PStr "a point"); ("name", PStr "point"); ("aliases", PList [PStr "geo.point"]); ("type", PStr "record");
     ("fields", PList
       [PDict [("name", PStr "x"); ("default", PFloat 0); ("type", PStr "double")];
        PDict [("doc", PStr "second"); ("name", PStr "y"); ("type", PStr "int")];
        PDict [("name", PStr "u"); ("type", PStr "geo.unit")]])]).
Proof.
  assert (B : forall n t, In (n, t) builtin_aliases -> c_doc (get_c t) = PNone /\ is_proxy t = false).
  { intros n t D. vm_compute in D.
    repeat match type of D with _ \/ _ => destruct D as [D|D] end; [..|destruct D]; injection D as <- <-; split; reflexivity. }
  split; [|vm_compute; reflexivity]. repeat (apply Forall_cons); [exact Logic.I|..|apply Forall_nil].
  all: split; [cbn; repeat constructor; cbn; tauto|]; split; [|exact B].
  all: cbn; intros k [<-|[]]; split; [|discriminate]; repeat split; cbn; try discriminate; intuition discriminate.
Qed.

(** ** C35: Avro to Recap to Avro gives back the schema *)
(** Proved for schemas whose field types are written into the field; every named
    definition gets the annotation "aliases" with its full name. *)
Theorem C35_roundtrip_partial : forall start ns a R, is_record a -> starts start ns a -> namespace ns ->
  avro_ok a -> inlined a -> NoDup (dkeys R ++ full_names ns a) ->
  exists R' t, avro_to (json false ns a) start R = (R', Ok t) /\ avro_from R' t = Ok (json true ns a).
Proof. exact record_roundtrip. Qed.
Print Assumptions C35_roundtrip_partial.
(** False for every field whose type is a record definition of its own: the name of the
    definition is replaced by that of the field and its body moves into the field. *)
Theorem C35_roundtrip_refuted : forall start ns h f r fs R,
  let a := ARecord h [ANested (mkLabels None (Some f) None) (ARecord (mkLabels None (Some r) None) fs)] in
  starts start ns a -> namespace ns -> avro_ok a -> Forall inlined fs ->
  NoDup (dkeys R ++ full_names ns a) ->
  exists R' t, avro_to (json false ns a) start R = (R', Ok t) /\
    avro_from R' t = Ok (PDict (label_json true ns true h ++
      [("type", PStr "record");
       ("fields", PList [PDict [("name", PStr f); ("aliases", PList [PStr (ns ++ "." ++ r)]); ("type", PStr "record");
                                ("fields", PList (map (json true ns) fs))]])])).
Proof. exact record_nested. Qed.
Print Assumptions C35_roundtrip_refuted.
Example C35_case : exists R' t, avro_to (json false "org" user) (PStr "org") builtin_aliases = (R', Ok t)
  /\ avro_from R' t = Ok (json true "org" user).
Proof.
  destruct user_ok as (A & B & C & D). apply C35_roundtrip_partial; auto; [exact Logic.I|left; reflexivity|].
  apply fresh_names. exact C.
Qed.
Example C35_nested : exists R' t, avro_to (PDict [("name", PStr "a"); ("type", PStr "record");
     ("fields", PList [PDict [("name", PStr "f"); ("type", PDict [("type", PStr "record"); ("name", PStr "b"); ("fields", PList [])])]])])
     (PStr "n") builtin_aliases = (R', Ok t) /\
  avro_from R' t = Ok (PDict [("name", PStr "a"); ("aliases", PList [PStr "n.a"]); ("type", PStr "record");
     ("fields", PList [PDict [("name", PStr "f"); ("aliases", PList [PStr "n.b"]); ("type", PStr "record"); ("fields", PList [])]])]).
Proof. eexists _, _. split; [vm_compute; reflexivity|vm_compute; reflexivity]. Qed.

(** ** C36: fixed, decimal and duration keep their size semantics *)
(** Plain bytes and nothing else are read as intended. *)
Theorem C36_sizes_partial : forall d ns R R' t, has d "type" (PStr "bytes") ->
  dget "logicalType" d = None -> avro_parse (PDict d) ns R = (R', Ok t) -> variable_bytes t.
Proof. exact bytes_read. Qed.
Print Assumptions C36_sizes_partial.
(** A fixed type is read as a variable one. *)
Theorem C36_fixed_refuted : forall d ns R R' t n, has d "type" (PStr "fixed") -> has d "size" (PInt n) ->
  (n <= 9223372036854775807)%Z -> dget "logicalType" d = None -> avro_parse (PDict d) ns R = (R', Ok t) ->
  variable_bytes t.
Proof. intros d ns R R' t n H1 H2 H3 H4 H5. destruct (fixed_read d ns R R' t n H1 H2 H3 H4 H5) as [c E]. exists c, (PInt n). exact E. Qed.
Print Assumptions C36_fixed_refuted.
(** A decimal is read as fixed when it is variable, and as variable when it is fixed. *)
Theorem C36_decimal_refuted : forall d ns R R' t ty, has d "type" (PStr ty) -> has d "logicalType" (PStr "decimal") ->
  avro_parse (PDict d) ns R = (R', Ok t) ->
  (ty = "fixed" -> variable_bytes t) /\ (ty = "bytes" -> fixed_bytes t).
Proof.
  intros d ns R R' t ty H1 H2 H3. destruct (decimal_read d ns R R' t ty H1 H2 H3) as (c & n & E).
  split; intros ->; exists c, n; exact E.
Qed.
Print Assumptions C36_decimal_refuted.
(** A duration, which is always fixed, is read as variable. *)
Theorem C36_duration_refuted : forall d ns R R' t, has d "logicalType" (PStr "duration") ->
  avro_parse (PDict d) ns R = (R', Ok t) -> variable_bytes t.
Proof. intros d ns R R' t H1 H2. destruct (duration_read d ns R R' t H1 H2) as (c & E & _). exists c, (PInt 12). exact E. Qed.
Print Assumptions C36_duration_refuted.
Example C36_case :
  let run d := snd (avro_parse (PDict d) (PStr "n") builtin_aliases) in
  run [("type", PStr "fixed"); ("size", PInt 16)] = Ok (TBytes c0 (PInt 16) (PBool true)) /\
  run [("type", PStr "bytes"); ("logicalType", PStr "decimal"); ("precision", PInt 5)] =
    Ok (TBytes (mkC (PStr "build.recap.Decimal") PNone PNone [("precision", PInt 5); ("scale", PInt 0)])
          (PInt 9223372036854775807) (PBool false)) /\
  exists t, run [("type", PStr "fixed"); ("size", PInt 12); ("logicalType", PStr "duration")] = Ok t /\ variable_bytes t.
Proof.
  cbv zeta. split; [vm_compute; reflexivity|]. split; [vm_compute; reflexivity|].
  eexists. split; [vm_compute; reflexivity|]. eexists _, _. reflexivity.
Qed.

(** ** C37: records may reuse field names *)
(** Proved when no two definitions and fields have the same name. *)
Theorem C37_names_partial : forall start ns a, is_record a -> starts start ns a -> namespace ns -> avro_ok a ->
  NoDup (defined_names a) -> exists R' t, avro_to (json false ns a) start builtin_aliases = (R', Ok t).
Proof.
  intros start ns a I S N OK ND.
  destruct (read_record start ns a builtin_aliases I S N OK builtin_nodup) as [(_ & R' & E)|[A _]]; [eauto|].
  exfalso. apply A, fresh_names, ND.
Qed.
Print Assumptions C37_names_partial.
(** False for every schema in which a name is used twice, also by fields of different records. *)
Theorem C37_names_refuted : forall start ns a, is_record a -> starts start ns a -> namespace ns -> avro_ok a ->
  ~ NoDup (defined_names a) -> exists R', avro_to (json false ns a) start builtin_aliases = (R', Err ValueError).
Proof.
  intros start ns a I S N OK ND.
  destruct (read_record start ns a builtin_aliases I S N OK builtin_nodup) as [[A _]|[_ E]]; [|exact E].
  exfalso. apply ND, (fresh_names ns), A.
Qed.
Print Assumptions C37_names_refuted.
Example C37_case : exists R' t, avro_to (json false "org" user) (PStr "org") builtin_aliases = (R', Ok t).
Proof.
  destruct user_ok as (A & B & C & D). apply C37_names_partial; auto; [exact Logic.I|left; reflexivity].
Qed.
Definition two_ids : avro :=
  ARecord (lname "a") [APrim (lname "id") "long"; AArray (lname "bs") (ARecord (lname "b") [APrim (lname "id") "int"])].
Example C37_clash : ~ NoDup (defined_names two_ids) /\
  snd (avro_to (json false "n" two_ids) (PStr "n") builtin_aliases) = Err ValueError.
Proof.
  split; [|vm_compute; reflexivity]. intros H. vm_compute in H. inversion H as [|? ? A]; subst. apply A. cbn; auto.
Qed.

(** ** C72: references to built-in types are written as the Avro type they stand for *)
(** Proved for references with a name, such as struct fields. *)
Theorem C72_builtin_references_partial : forall R a t n doc, In (a, t) builtin_aliases -> dget a R = Some t -> n <> "" ->
  avro_from R (TProxy (mkC PNone (PStr a) (PStr doc) [("name", PStr n)]) None) = avro_from R (named_type t doc n).
Proof. exact builtin_ref_named. Qed.
Print Assumptions C72_builtin_references_partial.
(** False for references without a name, such as list items and union members: the Recap
    name is written, which Avro does not know. *)
Theorem C72_builtin_references_refuted : forall a E, In a plain_builtins ->
  avro_from (builtin_aliases ++ E) (TProxy (mkC PNone (PStr a) PNone []) None) = Ok (PDict [("type", PStr a)]) /\
  ~ In a avro_type_names /\ exists s t, dget a builtin_aliases = Some t /\
    avro_from builtin_aliases t = Ok (PDict [("type", PStr s)]) /\ In s avro_type_names.
Proof.
  intros a E I. split; [apply builtin_bare; eauto|]. cbn in I.
  repeat match type of I with _ \/ _ => destruct I as [I|I] end; [..|destruct I]; subst a.
  all: split; [cbn; intuition discriminate|]; eexists _, _;
    (split; [reflexivity|]); (split; [vm_compute; reflexivity|cbn; tauto]).
Qed.
Print Assumptions C72_builtin_references_refuted.
Example C72_case :
  avro_from builtin_aliases (TProxy (mkC PNone (PStr "int8") (PStr "") [("name", PStr "x")]) None) =
    Ok (PDict [("name", PStr "x"); ("type", PStr "int")]) /\
  avro_from builtin_aliases (TList c0 (TProxy (mkC PNone (PStr "int8") PNone []) None) PNone (PBool true)) =
    Ok (PDict [("type", PStr "array"); ("items", PStr "int8")]).
Proof. split; vm_compute; reflexivity. Qed.

(** ** C73: unions are read wherever Avro allows them *)
(** Proved for the types of record fields. *)
Theorem C73_unions_partial : forall ns h u l fs, let a := ARecord h (AUnion u l :: fs) in
  namespace ns -> avro_ok a -> NoDup (defined_names a) ->
  exists R' c cu ts fs', avro_to (json false ns a) (PStr ns) builtin_aliases = (R', Ok (TStruct c (TUnion cu ts :: fs')))
    /\ List.length ts = List.length l.
Proof.
  intros ns h u l fs a N OK ND.
  destruct (read_record (PStr ns) ns a builtin_aliases Logic.I (or_introl eq_refl) N OK builtin_nodup) as [(_ & R' & E)|[A _]].
  - exists R'. rewrite E. cbn [tree_of a map]. eexists _, _, _, _. split; [reflexivity|apply map_length].
  - exfalso. apply A, fresh_names, ND.
Qed.
Print Assumptions C73_unions_partial.
(** False for array items, map values and top-level schemas. *)
Theorem C73_unions_refuted : forall l ns R,
  (exists e, snd (avro_to (PList l) ns R) = Err e) /\
  (forall d, has d "type" (PStr "array") -> has d "items" (PList l) -> dget "logicalType" d = None ->
     exists e, snd (avro_parse (PDict d) ns R) = Err e) /\
  (forall d, has d "type" (PStr "map") -> has d "values" (PList l) -> dget "logicalType" d = None ->
     exists e, snd (avro_parse (PDict d) ns R) = Err e).
Proof.
  intros l ns R. split; [|split].
  - unfold avro_to, mbind. destruct (list_schema l ns R) as (e & -> & _). eexists. reflexivity.
  - intros d. apply list_items.
  - intros d. apply list_values.
Qed.
Print Assumptions C73_unions_refuted.
Example C73_case : 
  snd (avro_parse (PDict [("type", PStr "array"); ("items", PList [PStr "null"; PStr "string"])]) PNone builtin_aliases)
    = Err AttributeError /\
  exists t, snd (avro_parse (PDict [("name", PStr "x"); ("type", PList [PStr "null"; PStr "string"])]) PNone builtin_aliases)
    = Ok t.
Proof. split; [vm_compute; reflexivity|eexists; vm_compute; reflexivity]. Qed.

(** ** C74: logical types that are read can be written back *)
(** Proved for uuid, date, the times and timestamps, and decimals of bytes. *)
Theorem C74_logical_types_partial : forall R ns a, NoDup (dkeys R) -> namespace ns -> avro_ok a ->
  (exists h s l, a = ALogical h s l) \/ (exists h p s, a = ADecimal h p s) ->
  exists R' t, avro_parse (json false ns a) (PStr ns) R = (R', Ok t) /\
    avro_from R' t = Ok (json false ns a).
Proof. exact logical_back. Qed.
Print Assumptions C74_logical_types_partial.
(** False for every duration: what was read is rejected. *)
Theorem C74_logical_types_refuted : forall d ns R R' R2 t, has d "logicalType" (PStr "duration") ->
  avro_parse (PDict d) ns R = (R', Ok t) -> avro_from R2 t = Err ValueError.
Proof.
  intros d ns R R' R2 t H1 H2. destruct (duration_read d ns R R' t H1 H2) as (c & -> & L & A). apply duration_unwritable; auto.
Qed.
Print Assumptions C74_logical_types_refuted.
Example C74_case : exists t,
  avro_parse (json false "n" (ALogical (lname "d") "int" "date")) (PStr "n") builtin_aliases = (builtin_aliases, Ok t) /\
  avro_from builtin_aliases t = Ok (PDict [("name", PStr "d"); ("type", PStr "int"); ("logicalType", PStr "date")]).
Proof. eexists. split; [vm_compute; reflexivity|vm_compute; reflexivity]. Qed.
Example C74_duration : exists R' t,
  avro_parse (PDict [("type", PStr "fixed"); ("size", PInt 12); ("logicalType", PStr "duration")]) PNone builtin_aliases = (R', Ok t)
  /\ avro_from R' t = Err ValueError.
Proof. eexists _, _. split; [vm_compute; reflexivity|vm_compute; reflexivity]. Qed.

(** ** C75: the Avro conversions terminate *)
Theorem C75_reading_terminates : forall j ns R, snd (avro_to j ns R) <> Err OutOfFuel /\
  forall n, psize j <= n -> avro_parse_f n j ns R = avro_parse j ns R.
Proof. intros j ns R. split; [apply nof_avro_to|]. intros n H. apply avro_parse_fuel; auto. Qed.
Print Assumptions C75_reading_terminates.
Theorem C75_writing_terminates : forall R t, looks_in naked_plain t -> naked_plain R -> avro_from R t <> Err OutOfFuel.
Proof. exact nof_avro_from. Qed.
Print Assumptions C75_writing_terminates.
Example C75_case : looks_in naked_plain point /\ naked_plain builtin_aliases.
Proof. split; [cbn; tauto|apply builtin_plain]. Qed.

(** ** C76: every Avro definition that is written has a name *)
(** Proved for types with a name attribute. *)
Theorem C76_names_partial : forall R t v, avro_named t -> truthy_name t -> avro_from R t = Ok v ->
  exists o n, v = PDict o /\ has o "name" n /\ dget "name" (c_extra (get_c t)) = Some n.
Proof.
  intros R t v N (n & E & T) H. destruct (from_dicts R t v H) as [o ->]. exists o, n. split; auto. split; auto.
  assert (P : is_proxy t = false) by (destruct t; try destruct N; reflexivity).
  unfold has. rewrite (name_written R t o P H), E, T. reflexivity.
Qed.
Print Assumptions C76_names_partial.
(** False for all others: a struct, enum or fixed type without a name attribute is
    written without a name, also when it has an alias. *)
Theorem C76_names_refuted : forall R t v, avro_named t -> ~ truthy_name t -> avro_from R t = Ok v ->
  exists o, v = PDict o /\ dget "name" o = None.
Proof.
  intros R t v N NT H. destruct (from_dicts R t v H) as [o ->]. exists o. split; auto.
  assert (P : is_proxy t = false) by (destruct t; try destruct N; reflexivity).
  rewrite (name_written R t o P H). destruct (dget "name" _) as [n|] eqn:E; auto. destruct (truthy n) eqn:T; auto.
  exfalso. apply NT. exists n. auto.
Qed.
Print Assumptions C76_names_refuted.
Example C76_case : avro_named (TEnum (mkC PNone (PStr "a.color") PNone []) (PList [PStr "RED"])) /\
  avro_from [] (TEnum (mkC PNone (PStr "a.color") PNone []) (PList [PStr "RED"])) =
    Ok (PDict [("aliases", PList [PStr "a.color"]); ("type", PStr "enum"); ("symbols", PList [PStr "RED"])]).
Proof. split; [discriminate|vm_compute; reflexivity]. Qed.
