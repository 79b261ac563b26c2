(** C128: Hive tables that are printed with their statistics. *)
From Coq Require Import String Ascii List NArith ZArith Bool Lia.
From Verif Require Import PyVal RType Registry FromDict ToDict SpecTypes SpecCompact Url SpecDb Hive SpecHive HiveFacts SpecPrinted
  SpecStats Commands Documents Printed HivePrinted StatsPrinted.
Import ListNotations.
Open Scope nat_scope.
Open Scope string_scope.
Open Scope list_scope.

(** The document can be read again, in any state of the registry.  It describes the table with the
    types and the statistics of all columns, except that the columns with statistics have neither a
    name nor a default value. *)
Theorem C128_statistics_partial : forall name cols l t,
  Forall (fun c => hive_sizes (hc_type c)) cols -> Forall uncommented cols -> all_plain l ->
  hive_schema name cols (Some l) = Ok t ->
  exists d, schema_output FRecap t = Ok (ODocument d)
    /\ forall R0, exists R2 t', from_dict d R0 = (R2, Ok t') /\ same_meaning builtin_ref (table_as_printed t) t'.
Proof.
  intros name cols l t S U P H. pose proof (stats_printed name cols l t S U P H) as Q.
  destruct (Q []) as (d & _ & _ & W & _).
  exists (PDict d). unfold schema_output. rewrite W. split; [reflexivity|].
  intros R0. destruct (Q R0) as (d' & R2 & t' & W' & F & M).
  rewrite W in W'. injection W' as <-. eauto.
Qed.
Print Assumptions C128_statistics_partial.

(** The names are missing from every table: a column keeps its name exactly when no statistics were
    loaded for it, or when its type is void. *)
Theorem C128_names_refuted : forall name cols l t d R0 R2 t',
  Forall (fun c => hive_sizes (hc_type c)) cols -> Forall uncommented cols -> all_plain l -> NoDup (map hc_name cols) ->
  hive_schema name cols (Some l) = Ok t -> schema_output FRecap t = Ok (ODocument d) -> from_dict d R0 = (R2, Ok t') ->
  forall i col, nth_error cols i = Some col ->
  exists f, nth_error (children t') i = Some f
    /\ (mentions (hc_name col) l /\ hc_type col <> HPrim HVoid -> extra "name" f = None)
    /\ (~ mentions (hc_name col) l \/ hc_type col = HPrim HVoid -> extra "name" f = Some (PStr (hc_name col))).
Proof.
  intros name cols l t d R0 R2 t' S U P N H E F. unfold schema_output in E.
  destruct (to_dict true true t) as [d'|] eqn:W; cbn [rbind] in E; [|discriminate]. assert (d' = d) as -> by (destruct d'; congruence).
  exact (names_printed name cols l t d R0 R2 t' S U P N H W F).
Qed.
Print Assumptions C128_names_refuted.

(** A table of five columns, three of which have statistics. *)
Definition sold : list hcolumn :=
  [mkHCol "id" (HPrim HLong) None; mkHCol "tags" (HList (HVarchar 40)) None; mkHCol "nothing" (HPrim HVoid) None;
   mkHCol "price" (HDecimal 10 2) (Some ""); mkHCol "value" (HUnion [HPrim HInt; HPrim HString]) None].
Definition sold_stats : list (string * option hstats) :=
  [("id", Some (SLong (PInt 1) (PInt 9) (PInt 5) (PInt 0))); ("value", None);
   ("nothing", Some (SBoolean (PInt 0) (PInt 0) (PInt 7)));
   ("price", Some (SDecimal None (Some (PStr "9.99")) (PInt 7) (PInt 3)))].
Example C128_table : Forall (fun c => hive_sizes (hc_type c)) sold /\ Forall uncommented sold /\ all_plain sold_stats
  /\ NoDup (map hc_name sold) /\ exists t, hive_schema "sold" sold (Some sold_stats) = Ok t /\ List.length (children t) = 5.
Proof.
  split; [repeat constructor; cbn; lia|].
  split; [repeat (constructor; [first [left; reflexivity|right; reflexivity]|]); constructor|].
  split; [intros n s I; cbn in I; intuition (try discriminate); match goal with X : (_, _) = _ |- _ => injection X as <- <- end; cbn; repeat split; constructor|].
  split; [repeat constructor; cbn; intuition discriminate|].
  eexists. split; [vm_compute; reflexivity|reflexivity].
Qed.
(** What is printed for a table with the column id alone. *)
Example C128_document : exists t,
  hive_schema "sold" [mkHCol "id" (HPrim HLong) None] (Some [("id", Some (SLong (PInt 1) (PInt 9) (PInt 5) (PInt 0)))]) = Ok t
  /\ schema_output FRecap t = Ok (ODocument (PDict [("type", PStr "struct"); ("name", PStr "sold");
       ("fields", PList [PDict [("type", PStr "union"); ("low", PInt 1); ("high", PInt 9); ("cardinality", PInt 5); ("null_count", PInt 0);
                                ("types", PList [PStr "null"; PStr "int64"])]])])).
Proof. eexists. split; [vm_compute; reflexivity|]. vm_compute. reflexivity. Qed.
