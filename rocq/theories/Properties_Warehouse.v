(** C127: browsing Snowflake accounts and BigQuery projects. *)
From Coq Require Import String Ascii List NArith ZArith Bool Sorting.Permutation Sorting.Sorted Lia.
From Verif Require Import PyVal RType Registry FromDict Url Settings Clients SpecUrl UrlFacts ClientsFacts Dbapi Commands BigQuery
  Browse SpecBrowse SpecDriver Warehouse SpecWarehouse WarehouseFacts Properties_Url.
Import ListNotations.
Open Scope nat_scope.
Open Scope string_scope.
Open Scope list_scope.

(** ** C127: Snowflake and BigQuery URLs lead to what they name *)
(** Snowflake, for the database in which the sessions of the user start, in strict mode or not. *)
Theorem C127_snowflake_listed_partial : forall ip margs A P loc names urls strict d ss ch pa,
  located ip loc -> Forall plain_name names -> no_queries ip urls ->
  distinct (account_tree A) -> starts_in A d ss -> (names = [] \/ exists r, names = d :: r) ->
  below (account_tree A) names = Some (Branch ch) ->
  parse_url ip urls "ls" (snowflake_url loc names) strict = Ok pa ->
  exists l, wh_ls ip margs A P urls (snowflake_url loc names) strict = Ok l /\ Permutation l (map fst ch).
Proof. exact sf_listed. Qed.
Print Assumptions C127_snowflake_listed_partial.

Theorem C127_snowflake_read_partial : forall ip margs A P loc names urls strict d ss cols pa,
  located ip loc -> Forall plain_name names -> no_queries ip urls ->
  distinct (account_tree A) -> starts_in A d ss -> (exists r, names = d :: r) ->
  below (account_tree A) names = Some (Leaf cols) ->
  parse_url ip urls "schema" (snowflake_url loc names) strict = Ok pa ->
  exists rows, in_order cols rows
    /\ wh_schema ip margs A P urls (snowflake_url loc names) strict = to_recap (pure snowflake_type) rows.
Proof. exact sf_read. Qed.
Print Assumptions C127_snowflake_read_partial.

(** BigQuery tables; one that does not exist is an error. *)
Theorem C127_bigquery_read_partial : forall ip margs A P loc p d t ps,
  location ip loc -> Forall plain_name [p; d; t] -> modest ps ->
  let there fs := exists ds ts, dget p P = Some ds /\ dget d ds = Some ts /\ dget t ts = Some fs in
  let answer := wh_schema ip margs A P [] (asked "bigquery" loc [p; d; t] ps) false in
  (forall fs R, there fs -> answer R = (R, bq_to_recap fs)) /\
  ((forall fs, ~ there fs) -> forall R, exists e, answer R = (R, Err e)).
Proof.
  intros ip margs A P loc p d t ps L F M there answer. split.
  - intros fs R (ds & ts & G1 & G2 & G3). unfold answer. rewrite bq_read by auto. now rewrite G1, G2, G3.
  - intros N R. unfold answer. rewrite bq_read by auto.
    destruct (dget p P) as [ds|] eqn:G1; [|eauto]. destruct (dget d ds) as [ts|] eqn:G2; [|eauto].
    destruct (dget t ts) as [fs|] eqn:G3; [|eauto]. destruct (N fs). exists ds, ts. auto.
Qed.
Print Assumptions C127_bigquery_read_partial.

(** False: whatever is in another Snowflake database, it has no schemas and no tables, and each of its
    tables is a struct without fields. *)
Theorem C127_snowflake_other_refuted : forall ip margs A P loc n r urls strict d ss,
  located ip loc -> Forall plain_name (n :: r) -> no_queries ip urls -> starts_in A d ss -> n <> d ->
  (forall pa, parse_url ip urls "ls" (snowflake_url loc (n :: r)) strict = Ok pa ->
     wh_ls ip margs A P urls (snowflake_url loc (n :: r)) strict = Ok [])
  /\ (forall pa R, parse_url ip urls "schema" (snowflake_url loc (n :: r)) strict = Ok pa ->
     wh_schema ip margs A P urls (snowflake_url loc (n :: r)) strict R = (R, Ok (TStruct c0 []))).
Proof.
  intros ip margs A P loc n r urls strict d ss L F NQ S N. split.
  - intros pa H. exact (sf_other ip margs A P loc n r urls strict "ls" d ss pa L F NQ S N (or_introl eq_refl) H).
  - intros pa R H. exact (sf_other ip margs A P loc n r urls strict "schema" d ss pa L F NQ S N (or_intror (or_introl eq_refl)) H R).
Qed.
Print Assumptions C127_snowflake_other_refuted.

(** False: without such a database nothing can be listed or read. *)
Theorem C127_snowflake_session_refuted : forall ip margs A P loc names urls strict,
  located ip loc -> Forall plain_name names -> no_queries ip urls -> ac_default A = None ->
  (exists e, wh_ls ip margs A P urls (snowflake_url loc names) strict = Err e) /\
  (forall R, exists e, wh_schema ip margs A P urls (snowflake_url loc names) strict R = (R, Err e)).
Proof. exact sf_nowhere. Qed.
Print Assumptions C127_snowflake_session_refuted.

(** False: no BigQuery URL can be listed. *)
Theorem C127_bigquery_ls_refuted : forall ip margs A P urls url strict s,
  urlsplit ip url = Ok s -> u_scheme s = "bigquery" -> plain_query (u_query s) ->
  (forall x t, In x urls -> urlsplit ip x = Ok t -> plain_query (u_query t)) ->
  exists e, wh_ls ip margs A P urls url strict = Err e.
Proof.
  intros ip margs A P urls url strict s E S Q QC. destruct (C59_bigquery_ls_refuted ip margs urls url strict s E S Q QC) as [e H].
  exists e. unfold wh_ls. now rewrite H.
Qed.
Print Assumptions C127_bigquery_ls_refuted.

(** The BigQuery client itself, whose method takes at most two names, lists the names of what it is
    given and nothing else. *)
Theorem C127_bigquery_client_partial : forall P names l, bq_distinct P -> List.length names <= 2 ->
  (bq_ls P (map PStr names) = Ok l <-> bq_holds P names l).
Proof.
  intros P names l [D1 D2] L. rewrite Forall_forall in D2.
  assert (G : forall (B : Type) k (x : B) d, NoDup (map fst d) -> (dget k d = Some x <-> In (k, x) d)).
  { intros B k x d N. split; [apply PyValFacts.dget_In|]. induction d as [|[a y] d IH]; intros I; [destruct I|].
    inversion N as [|? ? NI N']; subst. cbn [dget]. destruct I as [[= -> ->]|I].
    - now rewrite String.eqb_refl.
    - destruct (String.eqb_spec k a) as [->|]; [|auto]. destruct NI. apply in_map_iff. exists (a, x). auto. }
  split.
  - destruct names as [|p [|d [|x r]]]; cbn in *; [| | |Lia.lia].
    + intros [= <-]. constructor.
    + destruct (dget p P) as [ds|] eqn:E; [|discriminate]. intros [= <-]. constructor. now apply G.
    + destruct (dget p P) as [ds|] eqn:E; [|discriminate]. destruct (dget d ds) as [ts|] eqn:E2; [|discriminate].
      intros [= <-]. apply G in E; auto. econstructor; eauto. apply G; auto. exact (D2 _ E).
  - intros H. destruct H as [|p ds I|p ds d ts I I2]; cbn.
    + reflexivity.
    + apply G in I; auto. now rewrite I.
    + pose proof (D2 _ I) as ND. apply G in I; auto. rewrite I. apply G in I2; auto. now rewrite I2.
Qed.
Print Assumptions C127_bigquery_client_partial.

(** An account with two databases; sessions start in SALES. *)
Definition text_col (n : string) : column :=
  [("COLUMN_NAME", PStr n); ("DATA_TYPE", PStr "BOOLEAN"); ("IS_NULLABLE", PStr "NO"); ("COLUMN_DEFAULT", PNone); ("CHARACTER_OCTET_LENGTH", PNone)].
Definition sales_db : schemas := [("PUBLIC", [("ORDERS", [(2%Z, text_col "PAID"); (1%Z, text_col "SENT")]); ("EMPTY", [])])].
Definition acme : account := mkAccount [("SALES", sales_db); ("HR", sales_db)] (Some "SALES").
Definition projects : bq_projects := [("proj", [("data", [("users", [BqField "BOOLEAN" "REQUIRED" (PStr "ok") PNone PNone PNone PNone PNone []])])])].
Definition plain_ip : string -> bool := fun _ => false.
Example C127_case :
  located plain_ip "u:p@acme" /\ Forall plain_name ["SALES"; "PUBLIC"; "ORDERS"; "HR"] /\ no_queries plain_ip ["snowflake://u:p@acme/"]
  /\ distinct (account_tree acme) /\ starts_in acme "SALES" sales_db
  /\ below (account_tree acme) ["SALES"; "PUBLIC"; "ORDERS"] = Some (Leaf [(2%Z, text_col "PAID"); (1%Z, text_col "SENT")])
  /\ wh_ls plain_ip [] acme projects ["snowflake://u:p@acme/"] "snowflake://acme" true = Ok ["HR"; "SALES"]
  /\ wh_ls plain_ip [] acme projects [] "snowflake://u:p@acme/SALES/PUBLIC" false = Ok ["ORDERS"; "EMPTY"]
  /\ (exists c f g, snd (wh_schema plain_ip [] acme projects [] "snowflake://u:p@acme/SALES/PUBLIC/ORDERS" false []) = Ok (TStruct c [f; g])
      /\ dget "name" (c_extra (get_c f)) = Some (PStr "SENT") /\ dget "name" (c_extra (get_c g)) = Some (PStr "PAID"))
  /\ wh_ls plain_ip [] acme projects [] "snowflake://u:p@acme/HR" false = Ok []
  /\ snd (wh_schema plain_ip [] acme projects [] "snowflake://u:p@acme/HR/PUBLIC/ORDERS" false []) = Ok (TStruct c0 [])
  (* naming the database twice helps *)
  /\ wh_ls plain_ip [] acme projects [] "snowflake://u:p@acme/HR?database=HR" false = Ok ["PUBLIC"].
Proof.
  split; [repeat split; try reflexivity; [discriminate|eexists; reflexivity]|].
  split; [repeat constructor; discriminate|]. split.
  { intros x s [<-|[]] E. vm_compute in E. now injection E as <-. }
  split.
  { assert (D : distinct (Branch (schema_trees sales_db))).
    { repeat (constructor || (intros ? ? I; cbn in I; repeat destruct I as [I|I]; try contradiction; injection I as <- <-)); cbn; intuition congruence. }
    constructor; [repeat constructor; cbn; intuition congruence|]. intros n c I. cbn [map acme ac_databases fst snd] in I.
    destruct I as [I|[I|[]]]; injection I as <- <-; exact D. }
  split; [split; reflexivity|]. split; [reflexivity|]. split; [vm_compute; reflexivity|]. split; [vm_compute; reflexivity|].
  split; [eexists _, _, _; split; [vm_compute; reflexivity|]; split; reflexivity|]. repeat split; vm_compute; reflexivity.
Qed.
Example C127_bigquery_case : location plain_ip "host" /\ Forall plain_name ["proj"; "data"; "users"]
  /\ exists f, snd (wh_schema plain_ip [] acme projects [] "bigquery://host/proj/data/users" false []) = Ok (TStruct c0 [f]).
Proof.
  split; [repeat split; try reflexivity; eexists; reflexivity|]. split; [repeat constructor; discriminate|].
  eexists. vm_compute. reflexivity.
Qed.
Example C127_client_case : bq_distinct projects /\ bq_ls projects [PStr "proj"; PStr "data"] = Ok ["users"] /\ bq_holds projects ["proj"; "data"] ["users"].
Proof. split; [split; repeat constructor; cbn; tauto|]. split; [reflexivity|]. apply C127_bigquery_client_partial; [split; repeat constructor; cbn; tauto|repeat constructor|reflexivity]. Qed.
