(** Property theorems for the Hive metastore converter and client (C54, C55, C68-C71). *)
From Coq Require Import String Ascii List NArith ZArith QArith Bool Lia.
From Verif Require Import PyVal PyValFacts RType Registry FromDict ToDict Nullable SpecTypes SpecDb
  Hive SpecHive HiveFacts HiveMore Documents.
Import ListNotations.
Open Scope nat_scope.
Open Scope string_scope.
Open Scope list_scope.

(** ** Example table *)
Definition orders : list hcolumn :=
  [mkHCol "id" (HPrim HLong) (Some "key");
   mkHCol "note" (HVarchar 40) (Some "");
   mkHCol "empty" (HPrim HVoid) None;
   mkHCol "price" (HDecimal 10 2) None;
   mkHCol "at" (HPrim HTimestamp) None;
   mkHCol "u" (HUnion [HPrim HInt; HUnion [HPrim HInt; HPrim HString]; HStruct ["a"; "b"] [HPrim HInt; HUnion [HPrim HDate; HPrim HVoid]]]) None;
   mkHCol "m" (HMap (HPrim HString) (HList (HPrim HDouble))) None].

(** ** C54: Hive columns are always nullable and unions are flat *)
Theorem C54_columns : forall name cols t, hive_to_recap name cols = Ok t ->
  exists c fs, t = TStruct c fs /\ dget "name" (c_extra c) = Some (PStr name) /\ Forall2 hive_field cols fs.
Proof. exact hive_table_spec. Qed.
Print Assumptions C54_columns.
(** Exactly the tables with supported types are read. *)
Theorem C54_supported : forall name cols,
  (exists t, hive_to_recap name cols = Ok t) <-> Forall (fun c => hive_ok (hc_type c)) cols.
Proof. exact hive_table_ok. Qed.
Print Assumptions C54_supported.
Example C54_case : exists c fs, hive_to_recap "orders" orders = Ok (TStruct c fs)
  /\ map (extra "name") fs = map (fun n => Some (PStr n)) ["id"; "note"; "empty"; "price"; "at"; "u"; "m"]
  /\ map (fun f => c_doc (get_c f)) fs = [PStr "key"; PNone; PNone; PNone; PNone; PNone; PNone]
  /\ (exists c' st, nth_error fs 5 = Some (TUnion c' [TNull c0; TInt c0 (PInt 32) (PBool true); TString c0 PNone (PBool true); TStruct c0 st])).
Proof. eexists _, _. split; [vm_compute; reflexivity|]. repeat split. eexists _, _. reflexivity. Qed.
Example C54_unsupported : hive_to_recap "t" [mkHCol "d" (HDecimal 39 0) None] = Err ValueError.
Proof. reflexivity. Qed.

(** ** C55: flattening Hive unions keeps the attributes of nested types *)
(** Proved for unions without lists and maps: the members are those of the parts, unchanged. *)
Theorem C55_attributes_kept_partial : forall col hs c ms us,
  hc_type col = HUnion hs -> Forall no_collections hs -> hive_column col = Ok (TUnion c ms) ->
  Forall2 (fun h u => hive_parse PNone [] h = Ok u) hs us ->
  (forall m, In m ms -> m = TNull c0 \/ exists u, In u us /\ In m (members u)) /\
  (forall u x, In u us -> In x (members u) -> exists m, In m ms /\ (x = m \/ rt_eq x m = true)).
Proof.
  intros col hs c ms us T NC H F. unfold hive_column in H. rewrite T in H.
  eapply union_attrs_kept; eauto. right. eauto.
Qed.
Print Assumptions C55_attributes_kept_partial.
(** False for every list in a union: the list gets an attribute that it does not have elsewhere. *)
Theorem C55_attributes_kept_refuted : forall col hs h f, hc_type col = HUnion hs -> In (HList h) hs ->
  hive_column col = Ok f ->
  (exists c ms c' v, f = TUnion c ms /\ In (TList c' v PNone (PBool true)) ms /\
     exists x, dget "extra_attrs" (c_extra c') = Some x)
  /\ (forall t, hive_parse PNone [] (HList h) = Ok t ->
        exists c v, t = TUnion c [TNull c0; TList c0 v PNone (PBool true)]).
Proof.
  intros col hs h f T I H. unfold hive_column in H. rewrite T in H. split.
  - eapply list_in_union; eauto. right. eauto.
  - intros t E. eapply list_alone; [|exact E]. left. reflexivity.
Qed.
Print Assumptions C55_attributes_kept_refuted.
(** The same happens to every list and map below a union, at any depth. *)
Theorem C55_all_collections_changed : forall col hs c ms, hc_type col = HUnion hs ->
  hive_column col = Ok (TUnion c ms) -> forall s, node_of s (TUnion c ms) -> tagged s.
Proof.
  intros col hs c ms T H. unfold hive_column in H. rewrite T in H.
  eapply union_attrs_changed; eauto. right. eauto.
Qed.
Print Assumptions C55_all_collections_changed.
Example C55_kept_case : exists c ms,
  hive_column (mkHCol "u" (HUnion [HPrim HInt; HStruct ["a"] [HPrim HDate]; HPrim HInt]) None) = Ok (TUnion c ms)
  /\ List.length ms = 3.
Proof. eexists _, _. split; vm_compute; reflexivity. Qed.
Example C55_changed_case : exists c x v,
  hive_column (mkHCol "u" (HUnion [HList (HPrim HInt)]) None) = Ok (TUnion c [TNull c0; TList x v PNone (PBool true)])
  /\ c_extra x = [("extra_attrs", PDict [("logical", PNone); ("alias", PNone); ("doc", PNone)])].
Proof. eexists _, _, _. split; vm_compute; reflexivity. Qed.

(** ** C68: statistics go to the column they belong to *)
Theorem C68_statistics : forall l fs ns, Forall2 named ns fs -> NoDup ns ->
  (forall fs', load_stats l fs = Ok fs' ->
     List.length fs' = List.length fs /\
     forall i n f f', nth_error ns i = Some n -> nth_error fs i = Some f -> nth_error fs' i = Some f' ->
       stats_loaded l n f f') /\
  ((exists fs', load_stats l fs = Ok fs') <-> forall n, mentions n l -> In n ns).
Proof. exact load_stats_spec. Qed.
Print Assumptions C68_statistics.
(** The hypotheses hold for the fields of a table with distinct column names. *)
Theorem C68_applies_to_tables : forall name cols c fs, hive_to_recap name cols = Ok (TStruct c fs) ->
  Forall2 named (map hc_name cols) fs.
Proof.
  intros name cols c fs H. apply hive_table_spec in H as (c' & fs' & E & _ & F). injection E; intros; subst.
  clear E. induction F as [|x y l l' H F IH]; constructor; auto. apply (hfd_name _ _ H).
Qed.
Print Assumptions C68_applies_to_tables.
(** So reading a table with statistics is reading it without, and then the statistics. *)
Theorem C68_schema : forall name cols t, NoDup (map hc_name cols) ->
  (hive_schema name cols None = Ok t <-> hive_to_recap name cols = Ok t) /\
  forall l,
  (hive_schema name cols (Some l) = Ok t -> exists c fs fs', hive_schema name cols None = Ok (TStruct c fs) /\ t = TStruct c fs' /\
     List.length fs' = List.length fs /\
     forall i col f f', nth_error cols i = Some col -> nth_error fs i = Some f -> nth_error fs' i = Some f' ->
       stats_loaded l (hc_name col) f f') /\
  ((exists t', hive_schema name cols (Some l) = Ok t') <->
   (exists t', hive_schema name cols None = Ok t') /\ forall n, mentions n l -> In n (map hc_name cols)).
Proof.
  intros name cols t ND. unfold hive_schema. destruct (hive_to_recap name cols) as [u|e] eqn:E; cbn [rbind].
  2: { split; [tauto|]. intros l. split; [discriminate|]. split; [intros [t' K]; discriminate|intros [[t' K] _]; discriminate]. }
  split; [tauto|]. intros l. destruct (hive_table_spec _ _ _ E) as (c & fs & -> & _ & _).
  destruct (C68_statistics l fs _ (C68_applies_to_tables _ _ _ _ E) ND) as [A B]. split.
  - intros K. apply rbind_Ok in K as (fs' & L & K). injection K as <-. exists c, fs, fs'. split; [reflexivity|]. split; [reflexivity|].
    destruct (A _ L) as [A1 A2]. split; [exact A1|]. intros i col f f' I1 I2 I3. apply (A2 i); auto. now rewrite nth_error_map, I1.
  - split.
    + intros [t' K]. apply rbind_Ok in K as (fs' & L & K). split; [eauto|]. apply B. eauto.
    + intros [_ M]. apply B in M as [fs' ->]. cbn. eauto.
Qed.
Print Assumptions C68_schema.
Definition orders_stats : list (string * option hstats) :=
  [("id", Some (SLong (PInt 1) (PInt 90) (PInt 42) (PInt 0))); ("at", None);
   ("price", Some (SDecimal None (Some (PStr "9.99")) (PInt 7) (PInt 3)))].
Example C68_case : exists c fs f, hive_schema "orders" orders (Some orders_stats) = Ok (TStruct c fs)
  /\ nth_error fs 3 = Some f /\ extra "cardinality" f = Some (PInt 7) /\ extra "low" f = None
  /\ extra "high" f = Some (PStr "9.99") /\ extra "null_count" f = Some (PInt 3) /\ extra "name" f = Some (PStr "price").
Proof. eexists _, _, _. split; [vm_compute; reflexivity|]. split; [reflexivity|]. repeat split. Qed.
Example C68_unknown_column : hive_schema "orders" orders (Some [("ID", Some (SBoolean PNone PNone PNone))]) = Err KeyError.
Proof. reflexivity. Qed.

(** ** C69: every Hive timestamp is a value of the field's type *)
(** Proved for the instants of 64-bit nanoseconds. *)
Theorem C69_timestamps_partial : forall col f, In (hc_type col) [HPrim HTimestamp; HPrim HTimestampLocalTz] ->
  hive_column col = Ok f ->
  exists c b, f = TUnion c [TNull c0; b] /\ int_holds b (-2^63) (2^63 - 1).
Proof.
  intros col f I H. destruct (hive_timestamp col f I H) as (c & b & E & A & _). eauto.
Qed.
Print Assumptions C69_timestamps_partial.
(** False for the whole range of Hive. *)
Theorem C69_timestamps_refuted : forall col f, In (hc_type col) [HPrim HTimestamp; HPrim HTimestampLocalTz] ->
  hive_column col = Ok f ->
  exists c b, f = TUnion c [TNull c0; b] /\ ~ int_holds b hive_first_ns hive_last_ns.
Proof.
  intros col f I H. destruct (hive_timestamp col f I H) as (c & b & E & _ & A). eauto.
Qed.
Print Assumptions C69_timestamps_refuted.
Example C69_case : In (hc_type (mkHCol "at" (HPrim HTimestamp) None)) [HPrim HTimestamp; HPrim HTimestampLocalTz].
Proof. cbn; auto. Qed.

(** ** C70: types read from Hive respect the limits of the type specification *)
Theorem C70_limits : forall col f, hive_sizes (hc_type col) -> hive_column col = Ok f -> tree_within_limits f.
Proof. exact hive_limits. Qed.
Print Assumptions C70_limits.
Example C70_case : Forall (fun c => hive_sizes (hc_type c)) orders.
Proof.
  assert (S : forall x, hive_sizes (HPrim x)) by constructor.
  unfold orders. repeat (apply Forall_cons; [cbn [hc_type]|]); [..|apply Forall_nil]; auto.
  - constructor. lia.
  - constructor.
  - constructor. repeat (apply Forall_cons); auto.
    + constructor. repeat (apply Forall_cons); auto.
    + constructor. repeat (apply Forall_cons); auto. constructor. repeat (apply Forall_cons); auto.
  - constructor; auto. constructor; auto.
Qed.

(** ** C71: a schema read from Hive can be stored as a document and read back *)
Theorem C71_documents : forall name cols t, Forall (fun c => hive_sizes (hc_type c)) cols ->
  hive_to_recap name cols = Ok t ->
  exists d, to_dict false false t = Ok d /\ forall R, from_dict d R = (R, Ok t).
Proof. exact hive_documented. Qed.
Print Assumptions C71_documents.
Example C71_case : exists t d, hive_to_recap "orders" orders = Ok t /\ to_dict false false t = Ok d
  /\ from_dict d builtin_aliases = (builtin_aliases, Ok t).
Proof. eexists _, _. split; [vm_compute; reflexivity|]. split; vm_compute; reflexivity. Qed.
