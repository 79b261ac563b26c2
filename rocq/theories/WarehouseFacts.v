(** What Snowflake and BigQuery requests return (proofs only). *)
From Coq Require Import String Ascii List NArith ZArith Bool Lia Sorting.Permutation Sorting.Sorted.
From Verif Require Import PyVal PyValFacts RType Registry FromDict Quote QuoteFacts Url Settings Clients SpecUrl UrlFacts
  SettingsFacts SettingsMore ClientsFacts ClientsMore Dbapi Commands BigQuery Browse SpecBrowse BrowseRequest BrowseFacts SpecDriver DriverFacts
  Warehouse SpecWarehouse.
Import ListNotations.
Open Scope nat_scope.
Open Scope string_scope.
Open Scope list_scope.

Section Snowflake.
  Variables (ip : string -> bool) (margs : list string) (A : account) (P : bq_projects).

  Lemma snowflake_split loc names : located ip loc -> Forall plain_name names ->
    urlsplit ip (snowflake_url loc names) = Ok (mkSplit "snowflake" loc (below_url names) "" "").
  Proof.
    intros (L1 & L2 & L3 & L4 & _) F. unfold snowflake_url.
    pose proof (urlsplit_build ip "snowflake" loc (below_url names) "" "") as U.
    change (tail "" "") with "" in U. rewrite app_nil_r' in U. rewrite U; auto.
    - rewrite L4. reflexivity.
    - apply below_start.
    - apply below_has; [discriminate|]. apply Forall_impl with (2 := F). intros n N. apply N.
    - apply below_has; [discriminate|]. apply Forall_impl with (2 := F). intros n N. apply N.
    - apply below_clean. apply Forall_impl with (2 := F). intros n N. apply N.
  Qed.

  (** Every request that is parsed reaches the client, with the names as arguments. *)
  Lemma snowflake_args loc names urls strict method u args : In method ["ls"; "schema"] ->
    located ip loc -> Forall plain_name names -> no_queries ip urls ->
    parse_url ip urls method (snowflake_url loc names) strict = Ok (u, args) ->
    exists conn kw, relational_parse method (mkSplit "snowflake" loc (below_url names) "" "") = Ok (conn, args)
      /\ request ip margs urls method (snowflake_url loc names) strict = Ok (Snowflake, kw, args) /\ dget "database" kw = None.
  Proof.
    intros IM L F NQ PU. pose proof (snowflake_split loc names L F) as E. pose proof PU as PU0.
    destruct L as (_ & _ & _ & _ & HN & p & PT). set (s := mkSplit "snowflake" loc (below_url names) "" "") in *.
    assert (R : relational s) by (unfold relational; cbn; auto).
    pose proof (urlsplit_well _ _ _ E) as WS. pose proof (plain_none' (u_query s) eq_refl) as PQ.
    assert (NE : nonempty (u_netloc s) = true) by (cbn [u_netloc s]; destruct loc; [now cbn in HN|reflexivity]).
    assert (ND : first_seg (u_path s) <> ".").
    { cbn [u_path s]. unfold first_seg. rewrite segs_below by auto. destruct names; [discriminate|]. inversion F as [|? ? X _]; subst. apply X. }
    rewrite (parse_url_relational _ _ _ _ _ _ _ E PT PQ R) in PU.
    destruct (relational_parse method s) as [[conn a']|] eqn:RP; cbn [rbind fst snd] in PU; [|discriminate].
    destruct (unsafe_url ip urls conn strict) as [u'|] eqn:UU; cbn [rbind] in PU; [|discriminate].
    injection PU; intros; subst u' a'. clear PU. pose proof RP as RP0. apply relational_first in RP. subst conn.
    pose proof (conn_url_split ip s WS R NE) as CS.
    set (inp := mkSplit (u_scheme s) (u_netloc s) _ (u_query s) (u_fragment s)) in CS.
    destruct (first_seg_facts _ _ WS) as (_ & _ & _ & F4).
    destruct (final_url ip urls _ inp strict u CS) as (f & Ef & Sf & Qf & Hf & Pf & Gf & Zf); auto.
    { cbn. discriminate. }
    { cbn. cbn [u_path s] in *. destruct (nonempty (first_seg (below_url names))) eqn:N; [right|left; reflexivity].
      exists (first_seg (below_url names)). repeat split; auto. intros Z. rewrite Z in N. discriminate. }
    { intros x t I X. apply plain_none'. exact (NQ x t I X). }
    assert (Sf' : u_scheme f = "snowflake") by (rewrite Sf; reflexivity).
    destruct (url_to_dict_plain ip u f p Ef) as (d & DE & D); auto; try (rewrite Sf'; reflexivity).
    { rewrite Pf. exact PT. }
    exists (conn_url s).
    assert (X : exists kw, request ip margs urls method (snowflake_url loc names) strict = Ok (Snowflake, kw, args)).
    { unfold request. rewrite PU0. cbn [rbind fst snd].
      unfold create_client. rewrite DE. cbn [rbind]. unfold client_of, text.
      rewrite (pd_scheme _ _ _ _ _ D), Sf'. cbn [rbind].
      cbn [dget clients String.eqb Ascii.eqb Bool.eqb rbind create_args].
      rewrite (pd_host _ _ _ _ _ D), Hf. cbn [u_netloc inp s].
      destruct (hostname loc) as [h|]; [|congruence]. cbn [option_map rbind].
      assert (AR : let '(lo, hi) := arity Snowflake method in (Nat.leb lo (List.length args) && Nat.leb (List.length args) hi)%bool = true).
      { unfold relational_parse in RP0. cbn [u_scheme u_path s String.eqb Ascii.eqb Bool.eqb] in RP0. rewrite segs_below in RP0 by auto.
        clear - RP0 IM. revert RP0. generalize (conn_url s). intros cu RP0.
        destruct IM as [<-|[<-|[]]]; cbn in RP0 |- *; destruct names as [|x1 [|x2 [|x3 l]]]; cbn in RP0;
          try discriminate; injection RP0 as <-; reflexivity. }
      destruct (arity Snowflake method) as [lo hi]. rewrite AR. eauto. }
    destruct X as [kw RQ]. exists kw. split; auto. split; auto.
    exact (snowflake_database ip margs urls method _ strict s kw args E eq_refl HN eq_refl NQ ND RQ).
  Qed.

  Lemma session kw : dget "database" kw = None ->
    sf_session A kw = match ac_default A with Some n => match dget n (ac_databases A) with Some ss => Some (n, ss) | None => None end | None => None end.
  Proof. intros K. unfold sf_session. now rewrite K. Qed.

  Lemma current_distinct d ss : distinct (account_tree A) -> dget d (ac_databases A) = Some ss -> distinct (Branch (schema_trees ss)).
  Proof.
    intros D G. inversion D as [|? _ H]; subst. apply (H d). apply dget_In in G.
    apply (in_map (fun d => (fst d, Branch (schema_trees (snd d)))) _ _ G).
  Qed.
  Lemma account_below d ss r : dget d (ac_databases A) = Some ss -> below (account_tree A) (d :: r) = below (Branch (schema_trees ss)) r.
  Proof.
    intros G. unfold account_tree. cbn [below]. rewrite (dget_map (fun ss => Branch (schema_trees ss))). now rewrite G.
  Qed.

  Theorem sf_listed loc names urls strict d ss ch pa : located ip loc -> Forall plain_name names -> no_queries ip urls ->
    distinct (account_tree A) -> starts_in A d ss -> (names = [] \/ exists r, names = d :: r) ->
    below (account_tree A) names = Some (Branch ch) ->
    parse_url ip urls "ls" (snowflake_url loc names) strict = Ok pa ->
    exists l, wh_ls ip margs A P urls (snowflake_url loc names) strict = Ok l /\ Permutation l (map fst ch).
  Proof.
    intros L F NQ D (SD & SS) N B H. destruct pa as [u args].
    destruct (snowflake_args loc names urls strict "ls" u args) as (conn & kw & RP & RQ & K); auto; [now left|].
    unfold wh_ls. rewrite RQ. cbn [rbind]. rewrite (session kw K), SD, SS.
    unfold relational_parse in RP. cbn [u_path u_scheme String.eqb Ascii.eqb Bool.eqb] in RP. rewrite segs_below in RP by auto.
    destruct N as [->|(r & ->)].
    - cbn in RP. injection RP as _ <-. cbn. eexists. split; [reflexivity|]. injection B as <-. rewrite sorted_perm, map_map. reflexivity.
    - rewrite (account_below d ss r SS) in B. pose proof (schemas_listed d _ _ _ (current_distinct d ss D SS) B) as Q.
      destruct r as [|s [|t r]]; [| |contradiction]; cbn in RP; injection RP as _ <-; cbn [sf_ls arg nth fst snd];
        rewrite Q; eexists; split; reflexivity.
  Qed.

  Theorem sf_read loc names urls strict d ss cols pa : located ip loc -> Forall plain_name names -> no_queries ip urls ->
    distinct (account_tree A) -> starts_in A d ss -> (exists r, names = d :: r) ->
    below (account_tree A) names = Some (Leaf cols) ->
    parse_url ip urls "schema" (snowflake_url loc names) strict = Ok pa ->
    exists rows, in_order cols rows /\ wh_schema ip margs A P urls (snowflake_url loc names) strict = db_schema Snowflake rows.
  Proof.
    intros L F NQ D (SD & SS) (r & ->) B H. destruct pa as [u args].
    destruct (snowflake_args loc (d :: r) urls strict "schema" u args) as (conn & kw & RP & RQ & K); auto; [cbn; auto|].
    unfold wh_schema. rewrite RQ. rewrite (session kw K), SD, SS.
    unfold relational_parse in RP. cbn [u_path u_scheme String.eqb Ascii.eqb Bool.eqb] in RP. rewrite segs_below in RP by auto.
    rewrite (account_below d ss r SS) in B. pose proof (schemas_read d _ _ _ (current_distinct d ss D SS) B) as Q.
    destruct r as [|s [|t [|x r]]]; try contradiction. cbn in RP. injection RP as _ <-. cbn [sf_rows fst snd].
    eexists. split; [exact Q|reflexivity].
  Qed.

  Lemma filter_none {B} (p : B -> bool) l : (forall x, In x l -> p x = false) -> filter p l = [].
  Proof. intros H. rewrite (filter_const _ false); auto. Qed.

  (** Other databases look empty. *)
  Theorem sf_other loc n r urls strict method d ss pa : located ip loc -> Forall plain_name (n :: r) -> no_queries ip urls ->
    starts_in A d ss -> n <> d -> In method ["ls"; "schema"] ->
    parse_url ip urls method (snowflake_url loc (n :: r)) strict = Ok pa ->
    if String.eqb method "ls" then wh_ls ip margs A P urls (snowflake_url loc (n :: r)) strict = Ok []
    else forall R, wh_schema ip margs A P urls (snowflake_url loc (n :: r)) strict R = (R, Ok (TStruct c0 [])).
  Proof.
    intros L F NQ (SD & SS) ND IM H. destruct pa as [u args].
    destruct (snowflake_args loc (n :: r) urls strict method u args) as (conn & kw & RP & RQ & K); auto.
    unfold relational_parse in RP. cbn [u_path u_scheme String.eqb Ascii.eqb Bool.eqb] in RP. rewrite segs_below in RP by auto.
    assert (NE : String.eqb d n = false) by (now apply String.eqb_neq; congruence).
    destruct IM as [<-|[<-|[]]]; cbn [String.eqb Ascii.eqb Bool.eqb].
    - unfold wh_ls. rewrite RQ. cbn [rbind]. rewrite (session kw K), SD, SS.
      destruct r as [|s [|t r]]; cbn in RP; try discriminate; injection RP as _ <-; cbn [sf_ls arg nth fst snd].
      + unfold q_schemas, v_schemata. rewrite filter_none; auto. intros x I. apply in_map_iff in I as (y & <- & _). exact NE.
      + unfold q_tables, v_tables. rewrite filter_none; auto. intros x I. apply in_flat_map in I as (y & _ & I).
        apply in_map_iff in I as (z & <- & _). now rewrite NE.
    - intros R. unfold wh_schema. rewrite RQ. rewrite (session kw K), SD, SS.
      destruct r as [|s [|t r]]; cbn in RP; try discriminate; injection RP as _ <-; cbn [sf_rows fst snd].
      unfold q_columns, v_columns. rewrite filter_none; [reflexivity|]. intros x I. apply in_flat_map in I as (y & _ & I).
      apply in_flat_map in I as (z & _ & I). apply in_map_iff in I as (w & <- & _). now rewrite NE, andb_false_r.
  Qed.

  (** Without a default database nothing can be read. *)
  Theorem sf_nowhere loc names urls strict : located ip loc -> Forall plain_name names -> no_queries ip urls ->
    ac_default A = None ->
    (exists e, wh_ls ip margs A P urls (snowflake_url loc names) strict = Err e) /\
    (forall R, exists e, wh_schema ip margs A P urls (snowflake_url loc names) strict R = (R, Err e)).
  Proof.
    intros L F NQ SD. split.
    - destruct (parse_url ip urls "ls" (snowflake_url loc names) strict) as [[u args]|e] eqn:H.
      + destruct (snowflake_args loc names urls strict "ls" u args) as (conn & kw & RP & RQ & K); auto; [now left|].
        unfold wh_ls. rewrite RQ. cbn [rbind]. rewrite (session kw K), SD. unfold sf_ls.
        destruct (arg 0 args), (arg 1 args); eauto.
      + unfold wh_ls, request. rewrite H. cbn [rbind]. eauto.
    - intros R. destruct (parse_url ip urls "schema" (snowflake_url loc names) strict) as [[u args]|e] eqn:H.
      + destruct (snowflake_args loc names urls strict "schema" u args) as (conn & kw & RP & RQ & K); auto; [cbn; auto|].
        unfold wh_schema. rewrite RQ. rewrite (session kw K), SD. unfold sf_rows.
        destruct args as [|[] [|[] [|[] []]]]; eexists; reflexivity.
      + unfold wh_schema, request. rewrite H. cbn [rbind]. eexists. reflexivity.
  Qed.

  (** BigQuery: the table is read, or there is none and the request fails. *)
  Theorem bq_read loc p d t ps : location ip loc -> Forall plain_name [p; d; t] -> modest ps ->
    forall R, wh_schema ip margs A P [] (asked "bigquery" loc [p; d; t] ps) false R
      = (R, match dget p P with
            | Some ds => match dget d ds with
                         | Some ts => match dget t ts with Some fs => bq_to_recap fs | None => Err KeyError end
                         | None => Err KeyError end
            | None => Err KeyError end).
  Proof.
    intros L F M R. pose proof (bigquery_positions ip loc [p; d; t] ps L F M "schema" ltac:(cbn; auto)) as H.
    unfold wh_schema, request. rewrite H. cbn [rbind fst snd].
    change (create_client ip margs "bigquery://") with (@Ok (client * dict) (BigQuery, [])). cbn.
    destruct (dget p P) as [ds|]; [|reflexivity]. destruct (dget d ds) as [ts|]; [|reflexivity].
    destruct (dget t ts) as [fs|]; [|reflexivity]. cbn [rbind]. now destruct (bq_to_recap fs).
  Qed.
End Snowflake.
