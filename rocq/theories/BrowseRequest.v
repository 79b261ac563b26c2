(** Which database a relational request opens (proofs only). *)
From Coq Require Import String Ascii List NArith ZArith Bool Lia.
From Verif Require Import PyVal PyValFacts Quote QuoteFacts Url Settings Clients SpecUrl UrlFacts
  SettingsFacts SettingsMore ClientsFacts ClientsMore Dbapi Browse SpecBrowse.
Import ListNotations.
Open Scope nat_scope.
Open Scope string_scope.
Open Scope list_scope.

(** *** URLs made of names *)
Lemma below_cons n r : below_url (n :: r) = (String "/" (n ++ below_url r))%string.
Proof. unfold below_url. destruct r; [cbn; now rewrite app_nil_r'|]. reflexivity. Qed.

Lemma segs_below names : Forall plain_name names -> segments (below_url names) = names.
Proof.
  induction names as [|n r IH]; intros F; [reflexivity|]. inversion F as [|? ? N F']; subst.
  destruct N as (N1 & _ & N3 & _). rewrite below_cons. unfold segments in *. rewrite split_cons_sep. cbn [filter nonempty].
  assert (NE : nonempty n = true) by (destruct n; [congruence|reflexivity]).
  destruct r as [|m r].
  - unfold below_url. cbn [map String.concat]. rewrite app_nil_r'. rewrite split_plain by auto. cbn [filter]. now rewrite NE.
  - rewrite below_cons in *. rewrite split_app_sep. rewrite split_plain by auto. cbn [app filter]. rewrite NE. f_equal.
    specialize (IH F'). now rewrite split_cons_sep in IH.
Qed.
Lemma below_start names : below_url names = "" \/ starts_slash (below_url names) = true.
Proof. destruct names; [now left|right]. now rewrite below_cons. Qed.
Lemma below_has c names : c <> "/"%char -> Forall (fun n => has c n = false) names -> has c (below_url names) = false.
Proof.
  intros N F. induction F as [|n r H F IH]; [reflexivity|]. rewrite below_cons. cbn [has].
  rewrite has_app, H, IH. destruct (Ascii.eqb_spec "/" c); [congruence|reflexivity].
Qed.
Lemma below_clean names : Forall (fun n => clean n = true) names -> clean (below_url names) = true.
Proof.
  intros F. induction F as [|n r H F IH]; [reflexivity|]. rewrite below_cons.
  rewrite clean_cons, clean_app, H, IH. reflexivity.
Qed.

Lemma db_url_split ip c loc names : located ip loc -> Forall plain_name names ->
  urlsplit ip (db_url c loc names) = Ok (mkSplit (db_scheme c) loc (below_url names) "" "").
Proof.
  intros (L1 & L2 & L3 & L4 & _) F. unfold db_url.
  pose proof (urlsplit_build ip (db_scheme c) loc (below_url names) "" "") as U.
  change (tail "" "") with "" in U. rewrite app_nil_r' in U. rewrite U; auto.
  - rewrite L4. reflexivity.
  - destruct c; reflexivity.
  - destruct c; reflexivity.
  - apply below_start.
  - apply below_has; [discriminate|]. apply Forall_impl with (2 := F). intros n N. apply N.
  - apply below_has; [discriminate|]. apply Forall_impl with (2 := F). intros n N. apply N.
  - apply below_clean. apply Forall_impl with (2 := F). intros n N. apply N.
Qed.

(** *** The URL that create_client gets *)
Lemma posix_name n : n <> "" -> n <> "." -> has "/" n = false -> as_posix (String "/" n) = String "/" n.
Proof.
  intros N1 N2 H. unfold as_posix, path_parts. rewrite split_cons_sep, split_plain by auto. cbn [filter path_part nonempty andb].
  assert (P : path_part n = true).
  { unfold path_part. destruct (String.eqb_spec n "."); [congruence|]. destruct n; [congruence|reflexivity]. }
  cbn [filter]. rewrite P. destruct n as [|x r]; [congruence|]. cbn in H. apply orb_false_elim in H as [H _].
  change (path_root (String "/" (String x r))) with (match x with "/"%char => path_root (String "/" (String "/" r)) | _ => "/" end).
  destruct x as [[] [] [] [] [] [] [] []]; try reflexivity. discriminate.
Qed.

Lemma rstrip_plain n : n <> "" -> has "/" n = false -> rstrip_slash n = n.
Proof.
  induction n as [|c n IH]; [congruence|]. intros _ H. cbn in H. apply orb_false_elim in H as [H1 H2].
  destruct n as [|d n]; [cbn; now rewrite H1|]. cbn [rstrip_slash] in *. rewrite IH; auto. discriminate.
Qed.

Theorem final_url ip urls conn inp strict u :
  urlsplit ip conn = Ok inp -> u_scheme inp <> "" -> hostname (u_netloc inp) <> None ->
  (u_path inp = "" \/ exists n, u_path inp = String "/" n /\ n <> "" /\ n <> "." /\ has "/" n = false) ->
  plain_query (u_query inp) ->
  (forall x t, In x urls -> urlsplit ip x = Ok t -> plain_query (u_query t)) ->
  unsafe_url ip urls conn strict = Ok u ->
  exists f, urlsplit ip u = Ok f /\ u_scheme f = u_scheme inp /\ plain_query (u_query f)
    /\ hostname (u_netloc f) = hostname (u_netloc inp)
    /\ port (u_netloc f) = port (u_netloc inp)
    /\ segments (u_path f) = segments (u_path inp)
    /\ (u_query inp = "" -> no_queries ip urls -> u_query f = "").
Proof.
  intros E NS HN Pa Q QC H.
  assert (X : u = conn \/ exists c conf, In c urls /\ urlsplit ip c = Ok conf
    /\ url_matches conf inp (input_path inp) = Ok true /\ u = merge_urls conf inp (input_path inp)).
  { destruct strict.
    - destruct (unsafe_url_inv _ _ _ _ H) as (i & c & conf & E' & I & Ec & M & U).
      rewrite E in E'. injection E'; intros; subst i. eauto 10.
    - unfold unsafe_url in H. rewrite E in H. cbn [rbind] in H.
      apply unsafe_loop_loose in H. exact H. }
  destruct X as [->|(c & conf & I & Ec & M & ->)].
  - exists inp. auto 10.
  - apply url_matches_true in M as (M1 & M2 & (p & M3 & M4) & M5).
    destruct (merged_resplit ip conf inp (urlsplit_well _ _ _ Ec) (urlsplit_well _ _ _ E) M1) as (p' & RS & PP).
    { congruence. }
    { right. destruct Pa as [->|(n & -> & _)]; auto. }
    eexists. split; [exact RS|]. cbn [u_scheme u_netloc u_query u_path]. split; [exact M1|].
    split; [apply plain_merge; [exact (QC _ _ I Ec)|exact Q]|]. split; [congruence|]. split; [congruence|].
    split.
    + destruct PP as [->|[Z _]]; [|exfalso; rewrite Z in M2; cbn in M2; congruence].
      unfold input_path. destruct Pa as [->|(n & -> & N1 & N2 & N3)]; [reflexivity|]. cbn [nonempty].
      rewrite posix_name by auto. cbn [rstrip_slash]. rewrite rstrip_plain by auto.
      destruct n as [|x n]; [congruence|]. reflexivity.
    + intros Q0 QE. rewrite (QE _ _ I Ec), Q0. reflexivity.
Qed.

(** *** The dictionary of a URL without a query *)
Lemma dict_noquery ip url s d k : urlsplit ip url = Ok s -> has "+" (u_scheme s) = false -> u_query s = "" ->
  url_to_dict ip url = Ok d ->
  ~ In k ["scheme"; "netloc"; "path"; "params"; "query"; "fragment"; "username"; "password"; "hostname"; "port";
          "user"; "host"; "paths"; "url"] -> dget k d = None.
Proof.
  intros U P Q H N. unfold url_to_dict in H. rewrite U in H. cbn [rbind] in H. rewrite Q in H.
  destruct (if (str_in (u_scheme s) uses_params && has ";" (u_path s))%bool then split_params (u_path s) else (u_path s, "")) as [path params].
  destruct (port (u_netloc s)); [|discriminate]. cbn [rbind] in H. rewrite P in H. cbn [rbind] in H.
  assert (NN : forall x, In x ["scheme"; "netloc"; "path"; "params"; "query"; "fragment"; "username"; "password"; "hostname"; "port";
          "user"; "host"; "paths"; "url"] -> String.eqb k x = false).
  { intros x I. destruct (String.eqb_spec k x); congruence. }
  destruct (username (u_netloc s)) as [[|? ?]|], (hostname (u_netloc s)) as [[|? ?]|]; injection H; intros <-;
    cbn [dget]; now rewrite !NN by (cbn; tauto).
Qed.

(** *** Requests *)
Definition db_client (c : client) : Prop := c = Postgresql \/ c = Mysql.
Definition db_key (c : client) : string := match c with Postgresql => "dbname" | _ => "database" end.
Definition db_allowed (margs : list string) (c : client) : list string :=
  match c with Postgresql => psycopg2_args | _ => margs end.

Lemma db_scheme_rel c s : db_client c -> u_scheme s = db_scheme c -> relational s.
Proof. intros [-> | ->] E; unfold relational; rewrite E; cbn; auto. Qed.

Lemma relational_first method s u a : relational_parse method s = Ok (u, a) -> u = conn_url s.
Proof.
  unfold relational_parse.
  repeat match goal with |- context [if ?b then _ else _] => destruct b end; intros E; congruence.
Qed.
Lemma relational_arity method s u a c : u_scheme s = db_scheme c -> db_client c -> relational_parse method s = Ok (u, a) ->
  let '(lo, hi) := arity c method in (Nat.leb lo (List.length a) && Nat.leb (List.length a) hi)%bool = true.
Proof.
  intros S [-> | ->] H; unfold relational_parse in H; rewrite S in H; cbn [db_scheme String.eqb Ascii.eqb Bool.eqb] in H; cbn [arity].
  - destruct (String.eqb_spec method "ls") as [->|].
    + destruct (segments (u_path s)) as [|x1 [|x2 [|x3 l]]]; cbn in H; try discriminate;
        injection H; intros; subst; reflexivity.
    + cbn [andb] in H. destruct (String.eqb method "schema"); [|discriminate].
      destruct (segments (u_path s)) as [|x1 [|x2 [|x3 l]]]; cbn in H; try discriminate; injection H; intros; subst; reflexivity.
  - destruct (String.eqb method "ls"); [destruct (segments (u_path s)) as [|x1 [|x2 l]]; injection H; intros; subst; reflexivity|].
    destruct (String.eqb method "schema"); [|discriminate].
    destruct (segments (u_path s)) as [|x1 [|x2 l]]; cbn in H; try discriminate; injection H; intros; subst; reflexivity.
Qed.

Theorem db_request ip my urls method url s u args strict c :
  db_client c -> urlsplit ip url = Ok s -> u_scheme s = db_scheme c -> hostname (u_netloc s) <> None ->
  plain_query (u_query s) -> (forall x t, In x urls -> urlsplit ip x = Ok t -> plain_query (u_query t)) ->
  first_seg (u_path s) <> "." ->
  parse_url ip urls method url strict = Ok (u, args) ->
  (exists conn, relational_parse method s = Ok (conn, args))
  /\ exists kw, request ip my urls method url strict = Ok (c, kw, args)
  /\ (forall n r, segs (u_path s) = n :: r -> dget (db_key c) kw = if str_in (db_key c) (db_allowed my c) then Some (PStr n) else None)
  /\ (segs (u_path s) = [] -> u_query s = "" -> no_queries ip urls -> dget (db_key c) kw = None).
Proof.
  intros C E SC HN Q QC ND H.
  pose proof (db_scheme_rel _ _ C SC) as R.
  pose proof (urlsplit_well _ _ _ E) as W.
  assert (NE : nonempty (u_netloc s) = true) by (destruct (u_netloc s); [now cbn in HN|reflexivity]).
  unfold request. rewrite H. cbn [rbind fst snd].
  assert (PP : exists p, port (u_netloc s) = Ok p).
  { unfold parse_url in H. destruct (url_to_dict ip url) as [d0|] eqn:D0; cbn [rbind] in H; [|discriminate].
    exact (url_dict_port _ _ _ _ E D0). }
  destruct PP as [p P]. rewrite (parse_url_relational _ _ _ _ _ _ _ E P Q R) in H.
  destruct (relational_parse method s) as [[conn a]|] eqn:RP; cbn [rbind fst snd] in H; [|discriminate].
  destruct (unsafe_url ip urls conn strict) as [u'|] eqn:UU; cbn [rbind] in H; [|discriminate].
  injection H; intros; subst u' a. clear H. split; [eauto|].
  pose proof (relational_arity _ _ _ _ _ SC C RP) as AR.
  apply relational_first in RP. subst conn.
  pose proof (conn_url_split ip s W R NE) as CS.
  set (inp := mkSplit (u_scheme s) (u_netloc s) _ (u_query s) (u_fragment s)) in CS.
  destruct (first_seg_facts _ _ W) as (_ & _ & _ & F4).
  destruct (final_url ip urls _ inp strict u CS) as (f & Ef & Sf & Qf & Hf & Pf & Gf & Zf); auto.
  { cbn. apply (relational_facts _ _ W R). }
  { cbn. destruct (nonempty (first_seg (u_path s))) eqn:N; [right|left; reflexivity].
    exists (first_seg (u_path s)). repeat split; auto. intros Z. rewrite Z in N. discriminate. }
  assert (Sf' : u_scheme f = u_scheme s) by exact Sf. clear Sf.
  destruct (relational_facts _ _ W R) as (_ & _ & _ & R4 & R5).
  destruct (url_to_dict_plain ip u f p Ef) as (d & DE & D); auto; try (rewrite Sf'; auto).
  { rewrite Pf. exact P. }
  unfold create_client. rewrite DE. cbn [rbind]. unfold client_of, text.
  rewrite (pd_scheme _ _ _ _ _ D), Sf', SC. cbn [rbind].
  assert (Gs : segments (u_path f) = firstn 1 (segments (u_path s))).
  { rewrite Gf. unfold inp. cbn [u_path]. unfold first_seg in *.
    destruct (segments (u_path s)) as [|x l] eqn:ES; [reflexivity|].
    assert (NX : nonempty x = true).
    { assert (I : In x (segments (u_path s))) by (rewrite ES; left; reflexivity).
      apply filter_In in I as [_ I]. exact I. }
    rewrite NX. cbn [append firstn]. unfold segments. rewrite split_cons_sep. cbn [filter nonempty].
    rewrite split_plain by auto. cbn [filter]. now rewrite NX. }
  exists (keep (db_allowed my c) (first_path (db_key c) d)). split.
  - destruct C as [-> | ->]; cbn [db_scheme dget clients String.eqb Ascii.eqb Bool.eqb rbind create_args];
      destruct (arity _ method) as [lo hi]; now rewrite AR.
  - change (segs (u_path s)) with (segments (u_path s)). split.
    + intros n r ES. rewrite dget_keep. unfold first_path. rewrite (pd_paths _ _ _ _ _ D). unfold seg_vals.
      rewrite Gs, ES. cbn [firstn map]. rewrite dget_dset, String.eqb_refl. reflexivity.
    + intros ES Q0 QE. rewrite dget_keep. unfold first_path. rewrite (pd_paths _ _ _ _ _ D). unfold seg_vals.
      rewrite Gs, ES. cbn [firstn map].
      assert (DN : dget (db_key c) (ddel "paths" d) = None).
      { rewrite dget_ddel. destruct C as [-> | ->]; cbn [db_key String.eqb Ascii.eqb Bool.eqb];
          apply (dict_noquery _ _ _ _ _ Ef); auto; try (rewrite Sf'; auto);
          cbn; intros Z; repeat destruct Z as [Z|Z]; try discriminate; contradiction. }
      rewrite DN. destruct (str_in (db_key c) (db_allowed my c)); reflexivity.
Qed.
