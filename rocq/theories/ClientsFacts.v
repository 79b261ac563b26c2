(** Lemmas about the URL dictionary and the connection URLs of the database clients. *)
From Coq Require Import String Ascii List NArith ZArith Bool Lia.
From Verif Require Import PyVal PyValFacts Quote QuoteFacts Url Settings Clients SpecUrl UrlFacts
  SettingsFacts SettingsMore.
Import ListNotations.
Open Scope nat_scope.
Open Scope string_scope.
Open Scope list_scope.

(** *** dictionaries *)
Lemma dget_dupd_notin : forall V k (e d : list (string * V)), ~ In k (dkeys e) ->
  dget k (dupd d e) = dget k d.
Proof.
  intros V k. unfold dupd. induction e as [|[k' v] e IH]; cbn; intros d H; auto.
  rewrite IH by tauto. rewrite dget_dset. destruct (String.eqb_spec k k'); auto. subst. tauto.
Qed.
Lemma dupd_keys : forall V k (e d : list (string * V)),
  In k (dkeys (dupd d e)) -> In k (dkeys d) \/ In k (dkeys e).
Proof.
  intros V k. unfold dupd. induction e as [|[k' v] e IH]; cbn; intros d H; auto.
  apply IH in H as [H|H]; auto. apply dset_keys in H as [H|H]; auto.
Qed.
Lemma dget_keep : forall k allowed d,
  dget k (keep allowed d) = if str_in k allowed then dget k d else None.
Proof.
  intros k allowed. induction d as [|[k' v] d IH]; cbn; [destruct (str_in k allowed); auto|].
  destruct (str_in k' allowed) eqn:E; cbn.
  - destruct (String.eqb_spec k k') as [->|N]; [rewrite E; auto|exact IH].
  - destruct (String.eqb_spec k k') as [->|N]; [rewrite E in *; auto|exact IH].
Qed.
Lemma query_dict_keys : forall q, dkeys (query_dict q) = dkeys (parse_qs q).
Proof. intros q. unfold query_dict, dkeys. rewrite map_map. reflexivity. Qed.

(** *** query strings *)
Lemma qs_add_keys : forall k d kv, In k (dkeys (qs_add d kv)) <-> In k (dkeys d) \/ k = fst kv.
Proof.
  intros k d [k' v]. unfold qs_add. cbn [fst snd]. destruct (dget k' d) eqn:E.
  - apply dset_keys.
  - rewrite dkeys_app, in_app_iff. cbn. intuition.
Qed.
Lemma fold_qs_keys : forall k l d,
  In k (dkeys (fold_left qs_add l d)) <-> In k (dkeys d) \/ In k (map fst l).
Proof.
  intros k. induction l as [|kv l IH]; intros d; cbn [fold_left map In]; [tauto|].
  rewrite IH, qs_add_keys. intuition.
Qed.
Lemma parse_qs_keys : forall k q, In k (dkeys (parse_qs q)) <-> In k (map fst (parse_qsl q)).
Proof. intros. unfold parse_qs. rewrite fold_qs_keys. cbn. tauto. Qed.

Lemma quote_char_no : forall c s, query_char c = true -> always_safe c = false ->
  Ascii.eqb c "+" = false -> Ascii.eqb c "%" = false -> has c (quote_plus s) = false.
Proof.
  intros c s Q A1 A2 A3. assert (H : forall d, hex_digit (N_of_ascii d / 16) <> c /\ hex_digit (N_of_ascii d mod 16) <> c).
  { assert (G : forall d, always_safe (hex_digit (N_of_ascii d / 16)) = true
                          /\ always_safe (hex_digit (N_of_ascii d mod 16)) = true)
      by (intros [[] [] [] [] [] [] [] []]; split; reflexivity).
    intros d. destruct (G d). split; intros X; congruence. }
  induction s as [|d s IH]; cbn; auto. unfold quote_char. destruct (Ascii.eqb_spec d " ").
  - cbn [has]. rewrite IH, orb_false_r. destruct (Ascii.eqb_spec "+" c); auto. subst c. discriminate.
  - destruct (always_safe d) eqn:E; cbn [has].
    + rewrite IH, orb_false_r. destruct (Ascii.eqb_spec d c); auto. congruence.
    + destruct (H d) as [H1 H2]. rewrite IH, !orb_false_r.
      destruct (Ascii.eqb_spec "%" c); [subst c; discriminate|].
      destruct (Ascii.eqb_spec (hex_digit (N_of_ascii d / 16)) c); [congruence|].
      destruct (Ascii.eqb_spec (hex_digit (N_of_ascii d mod 16)) c); [congruence|]. reflexivity.
Qed.

Definition pair_text (k v : string) : string := (quote_plus k ++ "=" ++ quote_plus v)%string.
Lemma pair_amp : forall k v, has "&" (pair_text k v) = false.
Proof.
  intros k v. unfold pair_text. rewrite !has_app, !quote_char_no by reflexivity. reflexivity.
Qed.
Lemma quote_nonempty : forall s, nonempty (quote_plus s) = nonempty s.
Proof.
  intros [|c s]; cbn; auto. unfold quote_char. destruct (Ascii.eqb c " "); auto.
  destruct (always_safe c); auto.
Qed.
Lemma parse_pair_text : forall k v, parse_pair (pair_text k v) = if nonempty v then [(k, v)] else [].
Proof.
  intros k v. unfold parse_pair, pair_text.
  change (quote_plus k ++ "=" ++ quote_plus v)%string with (quote_plus k ++ String "=" (quote_plus v))%string.
  rewrite partition_hit by (apply quote_char_no; reflexivity).
  rewrite quote_nonempty, !unquote_quote. reflexivity.
Qed.

Lemma urlencode_keys : forall k m, In k (dkeys (parse_qs (urlencode m))) -> In k (dkeys m).
Proof.
  intros k m H. apply parse_qs_keys in H. unfold parse_qsl, urlencode in H.
  set (l := flat_map (fun kv => map (fun v => (quote_plus (fst kv) ++ "=" ++ quote_plus v)%string) (snd kv)) m) in *.
  assert (L : forall x, In x l -> exists k v, In k (dkeys m) /\ x = pair_text k v).
  { intros x X. apply in_flat_map in X as ((k0 & vs) & X1 & X2). apply in_map_iff in X2 as (v & <- & X3).
    exists k0, v. split; [|reflexivity]. apply (in_map fst) in X1. exact X1. }
  clearbody l. destruct l as [|x l]; [destruct H|].
  rewrite split_join in H; [|discriminate|].
  - apply in_map_iff in H as ((k' & v') & <- & H). apply in_flat_map in H as (t & T1 & T2).
    destruct (L _ T1) as (k0 & v0 & K & ->). rewrite parse_pair_text in T2.
    destruct (nonempty v0); [|destruct T2]. destruct T2 as [T2|[]]. cbn. congruence.
  - apply Forall_forall. intros y Y. destruct (L _ Y) as (k0 & v0 & _ & ->). apply pair_amp.
Qed.

Lemma plain_keys : forall q k, plain_query q -> In k steering -> ~ In k (dkeys (query_dict q)).
Proof. intros q k P I H. rewrite query_dict_keys in H. apply parse_qs_keys in H. exact (P k I H). Qed.

Lemma plain_merge : forall q r, plain_query q -> plain_query r ->
  plain_query (urlencode (dupd (parse_qs q) (parse_qs r))).
Proof.
  intros q r P Q k I H. apply parse_qs_keys in H. apply urlencode_keys in H.
  apply dupd_keys in H as [H|H]; apply parse_qs_keys in H; [exact (P k I H)|exact (Q k I H)].
Qed.

(** *** the URL dictionary of a plain URL without a driver suffix *)
Definition seg_vals (path : string) : list pyval := map PStr (segments path).

Lemma segments_rstrip : forall s, segments (rstrip_slash s) = segments s.
Proof.
  assert (S0 : forall t, all_chars (Ascii.eqb "/") t = true -> segments t = []).
  { induction t as [|c t IH]; cbn [all_chars]; auto. intros H. apply andb_prop in H as [H1 H2].
    apply Ascii.eqb_eq in H1. subst c. unfold segments. rewrite split_cons_sep. exact (IH H2). }
  intros s. destruct (rstrip_split s) as (t & E & A). rewrite E at 2.
  destruct t as [|c t]; [rewrite app_nil_r'; auto|]. cbn [all_chars] in A.
  apply andb_prop in A as [A1 A2]. apply Ascii.eqb_eq in A1. subst c.
  unfold segments. rewrite split_app_sep, filter_app. fold (segments t). rewrite S0 by auto.
  rewrite app_nil_r. reflexivity.
Qed.

Lemma segments_in : forall p path x, In x (segments path) -> all_chars p path = true ->
  nonempty x = true /\ has "/" x = false /\ all_chars p x = true.
Proof.
  intros p path x H A. apply filter_In in H as [H1 H2]. split; auto.
  pose proof (split_no "/" path) as F. rewrite Forall_forall in F.
  pose proof (split_all p "/" path A) as G. rewrite Forall_forall in G. auto.
Qed.

Record plain_dict (dial : option string) (s : split_url) (p : option N) (url : string) (d : dict)
  : Prop := {
  pd_scheme : dget "scheme" d = Some (PStr (u_scheme s));
  pd_netloc : dget "netloc" d = Some (PStr (u_netloc s));
  pd_params : dget "params" d = Some (PStr "");
  pd_query : dget "query" d = Some (PStr (u_query s));
  pd_fragment : dget "fragment" d = Some (PStr (u_fragment s));
  pd_paths : dget "paths" d = Some (PList (seg_vals (u_path s)));
  pd_port : dget "port" d = Some (opt_int p);
  pd_host : dget "host" d = option_map PStr (hostname (u_netloc s));
  pd_url : dget "url" d = Some (PStr url);
  pd_dialect : dget "dialect" d = option_map PStr dial;
  pd_method : dget "method" d = None;
  pd_us : dget "_" d = None;
  pd_other : forall k, In k ["hostaddr"; "service"; "unix_socket"; "dsn"; "account"] -> dget k d = None
}.

Lemma hostname_nonempty : forall n h, hostname n = Some h -> nonempty h = true.
Proof.
  intros n h H. unfold hostname in H. destruct (hostinfo n) as [g t].
  destruct (nonempty g) eqn:E; [|discriminate]. injection H; intros; subst h.
  rewrite lower_host_nonempty. exact E.
Qed.

Lemma opt_other : forall k key o (d : dict), key <> k ->
  dget k (match o with Some u => if nonempty u then dset key (PStr u) d else d | None => d end) = dget k d.
Proof.
  intros k key [u|] d N; [|reflexivity]. destruct (nonempty u); [|reflexivity]. rewrite dget_dset.
  destruct (String.eqb_spec k key) as [->|]; [contradiction|reflexivity].
Qed.
Lemma opt_host : forall n (d : dict), dget "host" (match hostname n with Some u => if nonempty u then dset "host" (PStr u) d else d | None => d end) =
  match hostname n with Some h => Some (PStr h) | None => dget "host" d end.
Proof.
  intros n d. destruct (hostname n) as [h|] eqn:H; [|reflexivity]. rewrite (hostname_nonempty _ _ H), dget_dset. reflexivity.
Qed.

Lemma url_to_dict_plain : forall ip url s p,
  urlsplit ip url = Ok s -> port (u_netloc s) = Ok p -> plain_query (u_query s) ->
  str_in (u_scheme s) uses_params = false -> has "+" (u_scheme s) = false ->
  exists d, url_to_dict ip url = Ok d /\ plain_dict None s p url d.
Proof.
  intros ip url s p E P Q NP NPlus. unfold url_to_dict. rewrite E. cbn [rbind].
  rewrite NP. cbn [andb]. rewrite P. cbn [rbind]. rewrite NPlus. cbn [rbind].
  eexists. split; [reflexivity|].
  assert (K : forall k, In k steering -> ~ In k (dkeys (query_dict (u_query s))))
    by (intros; apply plain_keys; auto).
  constructor; [ .. | intros k Hk; rewrite dget_dupd_notin; [ | apply K; cbn in Hk |- *; tauto ] ];
    [ rewrite dget_dupd_notin by (apply K; cbn; tauto); rewrite !dget_dset; cbn [String.eqb Ascii.eqb Bool.eqb];
      rewrite ?opt_host, ?opt_other by discriminate; cbn; rewrite ?segments_rstrip; (reflexivity || (destruct (hostname _); reflexivity)) .. | ].
  rewrite !dget_dset. cbn in Hk. destruct Hk as [<-|[<-|[<-|[<-|[<-|[]]]]]]; cbn [String.eqb Ascii.eqb Bool.eqb]; rewrite !opt_other by discriminate; reflexivity.
Qed.

Lemma url_to_dict_driver : forall ip url s p dial driver,
  urlsplit ip url = Ok s -> port (u_netloc s) = Ok p -> plain_query (u_query s) ->
  str_in (u_scheme s) uses_params = false -> has "+" (u_scheme s) = true ->
  split "+" (u_scheme s) = [dial; driver] ->
  exists d, url_to_dict ip url = Ok d
    /\ plain_dict (Some dial) s p
         (replace_all (dial ++ "+" ++ driver ++ "://") (dial ++ "://") url) d.
Proof.
  intros ip url s p dial driver E P Q NP Plus Sp. unfold url_to_dict. rewrite E. cbn [rbind].
  rewrite NP. cbn [andb]. rewrite P. cbn [rbind]. rewrite Plus, Sp. cbn [rbind].
  eexists. split; [reflexivity|].
  assert (K : forall k, In k steering -> ~ In k (dkeys (query_dict (u_query s))))
    by (intros; apply plain_keys; auto).
  constructor; [ .. | intros k Hk; rewrite dget_dupd_notin; [ | apply K; cbn in Hk |- *; tauto ] ];
    [ rewrite dget_dupd_notin by (apply K; cbn; tauto); rewrite !dget_dset; cbn [String.eqb Ascii.eqb Bool.eqb];
      rewrite ?opt_host, ?opt_other by discriminate; cbn; rewrite ?segments_rstrip; (reflexivity || (destruct (hostname _); reflexivity)) .. | ].
  rewrite !dget_dset. cbn in Hk. destruct Hk as [<-|[<-|[<-|[<-|[<-|[]]]]]]; cbn [String.eqb Ascii.eqb Bool.eqb]; rewrite !opt_other by discriminate; reflexivity.
Qed.

(** *** the connection URL of the relational clients *)
Definition relational (s : split_url) : Prop :=
  In (u_scheme s) ["postgresql"; "mysql"; "snowflake"].

Lemma relational_facts : forall ip s, well_split ip s -> relational s ->
  u_scheme s <> "" /\ scheme_ok (u_scheme s) = true /\ lower (u_scheme s) = u_scheme s /\
  str_in (u_scheme s) uses_params = false /\ has "+" (u_scheme s) = false.
Proof.
  intros ip s W [E|[E|[E|[]]]]; rewrite <- E; repeat split; discriminate.
Qed.

(** The connection URL: the first path segment only. *)
Definition first_seg (path : string) : string :=
  match segments path with [] => "" | x :: _ => x end.
Definition conn_url (s : split_url) : string :=
  urlunsplit (mkSplit (u_scheme s) (u_netloc s) (first_seg (u_path s)) (u_query s) (u_fragment s)).

Lemma first_seg_facts : forall ip s, well_split ip s ->
  has "#" (first_seg (u_path s)) = false /\ has "?" (first_seg (u_path s)) = false
  /\ clean (first_seg (u_path s)) = true /\ has "/" (first_seg (u_path s)) = false.
Proof.
  intros ip s W. unfold first_seg. destruct (segments (u_path s)) as [|x l] eqn:E; [auto|].
  assert (I : In x (segments (u_path s))) by (rewrite E; left; reflexivity).
  split.
  - apply has_no. apply (segments_in _ _ _ I). apply has_all, (ws_path_hash _ _ W).
  - split; [apply has_no; apply (segments_in _ _ _ I); apply has_all, (ws_path_quest _ _ W)|].
    split.
    + apply (segments_in _ _ _ I). apply (ws_path_clean _ _ W).
    + apply (segments_in (fun _ => true) _ _ I). clear. induction (u_path s); cbn; auto.
Qed.

Lemma slashless_abs : forall x, has "/" x = false ->
  abs_path x = if nonempty x then ("/" ++ x)%string else "".
Proof.
  intros [|c x] H; [reflexivity|]. cbn [has] in H. apply orb_false_elim in H as [H _].
  unfold abs_path. rewrite starts_slash_cons, H. reflexivity.
Qed.

Lemma conn_url_split : forall ip s, well_split ip s -> relational s ->
  nonempty (u_netloc s) = true ->
  urlsplit ip (conn_url s) =
  Ok (mkSplit (u_scheme s) (u_netloc s)
        (if nonempty (first_seg (u_path s)) then "/" ++ first_seg (u_path s) else "")%string
        (u_query s) (u_fragment s)).
Proof.
  intros ip s W R NE. destruct (relational_facts _ _ W R) as (R1 & R2 & R3 & _).
  destruct (first_seg_facts _ _ W) as (F1 & F2 & F3 & F4).
  destruct (resplit ip (u_scheme s) (u_netloc s) (first_seg (u_path s)) (u_query s) (u_fragment s))
    as (p' & E & P); auto; try apply W.
  - rewrite NE. discriminate.
  - unfold fix_slashes in E. rewrite NE in E. unfold conn_url. rewrite E, (ws_brackets _ _ W).
    cbn [rbind]. rewrite <- slashless_abs by auto. destruct P as [->|[X _]]; auto.
    rewrite X in NE. discriminate.
Qed.

Lemma seg_truthy : forall path x, In x (segments path) -> truthy (PStr x) = true.
Proof.
  intros path x H. apply filter_In in H as [_ H]. destruct x; [discriminate|reflexivity].
Qed.

Definition pad2 (l : list string) : list pyval :=
  match l with [] => [PNone; PNone] | [a] => [PStr a; PNone] | a :: b :: _ => [PStr a; PStr b] end.

Lemma unparse_plain : forall s p url d, plain_dict None s p url d ->
  unparse (u_scheme s) (first_seg (u_path s)) d = Ok (conn_url s).
Proof.
  intros s p url d D. unfold unparse, text.
  rewrite (pd_netloc _ _ _ _ _ D), (pd_params _ _ _ _ _ D), (pd_query _ _ _ _ _ D), (pd_fragment _ _ _ _ _ D).
  reflexivity.
Qed.

Theorem dbapi_parse_plain : forall s p url d method, plain_dict None s p url d ->
  dbapi_parse method d =
  let segs := segments (u_path s) in
  if String.eqb method "ls" && Nat.leb (List.length segs) 2 then Ok (conn_url s, pad2 segs)
  else if String.eqb method "schema" && Nat.leb 3 (List.length segs)
  then Ok (conn_url s, map PStr (firstn 3 segs))
  else Err ValueError.
Proof.
  intros s p url d method D. unfold dbapi_parse, paths_of, text.
  rewrite (pd_paths _ _ _ _ _ D), (pd_scheme _ _ _ _ _ D). cbn [rbind]. unfold seg_vals.
  pose proof (unparse_plain _ _ _ _ D) as UP. unfold first_seg in UP.
  pose proof (seg_truthy (u_path s)) as T.
  destruct (segments (u_path s)) as [|a [|b [|c l]]]; cbn [map nth_error or_none List.length Nat.leb andb].
  - unfold or_empty. cbn [truthy rbind]. rewrite UP. cbn [rbind]. rewrite !andb_true_r, !andb_false_r.
    destruct (String.eqb method "ls"); reflexivity.
  - unfold or_empty. rewrite (T a) by (cbn; auto). cbn [rbind]. rewrite UP. cbn [rbind truthy negb].
    rewrite !andb_true_r, !andb_false_r. destruct (String.eqb method "ls"); reflexivity.
  - unfold or_empty. rewrite (T a) by (cbn; auto). cbn [rbind]. rewrite UP. cbn [rbind truthy negb].
    rewrite !andb_true_r, !andb_false_r. destruct (String.eqb method "ls"); reflexivity.
  - unfold or_empty. rewrite (T a) by (cbn; auto). cbn [rbind]. rewrite UP. cbn [rbind].
    rewrite (T b), (T c) by (cbn; auto). cbn [negb]. rewrite !andb_true_r, !andb_false_r.
    destruct (String.eqb method "schema"); reflexivity.
Qed.

Theorem mysql_parse_plain : forall s p url d method, plain_dict None s p url d ->
  mysql_parse method d =
  let segs := segments (u_path s) in
  if String.eqb method "ls" then Ok (conn_url s, firstn 1 (pad2 segs))
  else if String.eqb method "schema" && Nat.leb 2 (List.length segs)
  then Ok (conn_url s, map PStr (firstn 2 segs))
  else Err ValueError.
Proof.
  intros s p url d method D. unfold mysql_parse, paths_of, text.
  rewrite (pd_paths _ _ _ _ _ D), (pd_scheme _ _ _ _ _ D). cbn [rbind]. unfold seg_vals.
  pose proof (unparse_plain _ _ _ _ D) as UP. unfold first_seg in UP.
  pose proof (seg_truthy (u_path s)) as T.
  destruct (segments (u_path s)) as [|a [|b l]]; cbn [map nth_error or_none List.length Nat.leb andb].
  - unfold or_empty. cbn [truthy rbind]. rewrite UP. cbn [rbind]. rewrite !andb_false_r.
    destruct (String.eqb method "ls"); reflexivity.
  - unfold or_empty. rewrite (T a) by (cbn; auto). cbn [rbind]. rewrite UP. cbn [rbind truthy negb].
    rewrite !andb_false_r. destruct (String.eqb method "ls"); reflexivity.
  - unfold or_empty. rewrite (T a) by (cbn; auto). cbn [rbind]. rewrite UP. cbn [rbind].
    rewrite (T b) by (cbn; auto). rewrite !andb_true_r.
    destruct (String.eqb method "ls"); reflexivity.
Qed.

(** What parse hands out for a relational URL. *)
Definition relational_parse (method : string) (s : split_url) : res (string * list pyval) :=
  let segs := segments (u_path s) in
  if String.eqb (u_scheme s) "mysql" then
    if String.eqb method "ls" then Ok (conn_url s, firstn 1 (pad2 segs))
    else if String.eqb method "schema" && Nat.leb 2 (List.length segs)
    then Ok (conn_url s, map PStr (firstn 2 segs)) else Err ValueError
  else
    if String.eqb method "ls" && Nat.leb (List.length segs) 2 then Ok (conn_url s, pad2 segs)
    else if String.eqb method "schema" && Nat.leb 3 (List.length segs)
    then Ok (conn_url s, map PStr (firstn 3 segs)) else Err ValueError.

Theorem parse_url_relational : forall ip urls method url strict s p,
  urlsplit ip url = Ok s -> port (u_netloc s) = Ok p -> plain_query (u_query s) -> relational s ->
  parse_url ip urls method url strict =
  rbind (relational_parse method s) (fun ua =>
    rbind (unsafe_url ip urls (fst ua) strict) (fun u => Ok (u, snd ua))).
Proof.
  intros ip urls method url strict s p E P Q R. unfold parse_url.
  pose proof (urlsplit_well _ _ _ E) as W.
  destruct (relational_facts _ _ W R) as (R1 & R2 & R3 & R4 & R5).
  destruct (url_to_dict_plain ip url s p E P Q R4 R5) as (d & -> & D). cbn [rbind].
  unfold client_of, text. rewrite (pd_scheme _ _ _ _ _ D). cbn [rbind]. unfold relational_parse.
  assert (DM : dmem "method" d = false) by (unfold dmem; rewrite (pd_method _ _ _ _ _ D); reflexivity).
  destruct R as [X|[X|[X|[]]]]; rewrite <- X; cbn [dget clients String.eqb Ascii.eqb Bool.eqb rbind];
    unfold client_parse; rewrite DM.
  - rewrite (dbapi_parse_plain _ _ _ _ _ D). reflexivity.
  - rewrite (mysql_parse_plain _ _ _ _ _ D). reflexivity.
  - rewrite (dbapi_parse_plain _ _ _ _ _ D). reflexivity.
Qed.

(** *** C31: the connection arguments *)
Lemma dget_first_path : forall k key d, k <> key -> k <> "paths" ->
  dget k (first_path key d) = dget k d.
Proof.
  intros k key d N1 N2. unfold first_path.
  assert (X : dget k (ddel "paths" d) = dget k d).
  { rewrite dget_ddel. destruct (String.eqb_spec k "paths"); congruence. }
  destruct (dget "paths" d) as [[| | | |[|c r]|[|x l]|]|]; auto;
    rewrite dget_dset; destruct (String.eqb_spec k key); congruence.
Qed.

Definition client_scheme (c : client) : string :=
  match c with Mysql => "mysql" | _ => "postgresql" end.

Theorem relational_target : forall ip my urls method url s c kw args,
  urlsplit ip url = Ok s -> nonempty (u_netloc s) = true ->
  In (u_scheme s) ["postgresql"; "mysql"] ->
  plain_query (u_query s) ->
  (forall x t, In x urls -> urlsplit ip x = Ok t -> plain_query (u_query t)) ->
  request ip my urls method url true = Ok (c, kw, args) ->
  exists x conf p, In x urls /\ urlsplit ip x = Ok conf /\ port (u_netloc conf) = Ok p
    /\ u_scheme conf = client_scheme c
    /\ (forall v, dget "host" kw = Some v -> option_map PStr (hostname (u_netloc conf)) = Some v)
    /\ (forall v, dget "port" kw = Some v -> v = opt_int p)
    /\ (forall k, In k ["hostaddr"; "service"; "unix_socket"; "dsn"] -> dget k kw = None)
    /\ (c = Postgresql -> dget "host" kw = option_map PStr (hostname (u_netloc conf))
                          /\ dget "port" kw = Some (opt_int p)).
Proof.
  intros ip my urls method url s c kw args E NE R2 Q QC H.
  assert (R : relational s) by (unfold relational; cbn in *; tauto).
  pose proof (urlsplit_well _ _ _ E) as W.
  unfold request in H.
  destruct (port (u_netloc s)) as [ps|] eqn:P.
  2:{ exfalso. unfold parse_url, url_to_dict in H. rewrite E in H. cbn [rbind] in H.
      destruct (relational_facts _ _ W R) as (_ & _ & _ & R4 & _). rewrite R4 in H. cbn [andb] in H.
      rewrite P in H. discriminate. }
  rewrite (parse_url_relational _ _ _ _ _ _ _ E P Q R) in H.
  assert (RP : exists a, relational_parse method s = Ok (conn_url s, a) \/ exists e, relational_parse method s = Err e).
  { unfold relational_parse. destruct (String.eqb (u_scheme s) "mysql");
      repeat match goal with |- context [if ?b then _ else _] => destruct b end;
      first [exists []; right; eexists; reflexivity | eexists; left; reflexivity]. }
  destruct RP as [a [RP|[e RP]]]; rewrite RP in H; cbn [rbind fst snd] in H; [|discriminate].
  destruct (unsafe_url ip urls (conn_url s) true) as [u|] eqn:UU; cbn [rbind fst snd] in H; [|discriminate].
  pose proof (conn_url_split ip s W R NE) as CS.
  destruct (unsafe_url_inv _ _ _ _ UU) as (inp & x & conf & E' & I & Ec & M & ->).
  rewrite CS in E'. injection E'; intros; subst inp.
  set (inp := mkSplit (u_scheme s) (u_netloc s) _ (u_query s) (u_fragment s)) in *.
  apply url_matches_true in M as (M1 & M2 & (p & M3 & M4) & M5).
  assert (Ab : u_path inp = "" \/ starts_slash (u_path inp) = true).
  { unfold inp; cbn. destruct (nonempty (first_seg (u_path s))); auto. }
  destruct (relational_facts _ _ W R) as (R1 & _).
  destruct (merged_resplit ip conf inp (urlsplit_well _ _ _ Ec) (urlsplit_well _ _ _ CS) M1) as (p' & RS & _).
  { rewrite M1. unfold inp; cbn. exact R1. }
  { right. exact Ab. }
  set (fin := mkSplit (u_scheme conf) (u_netloc conf) p' _ _) in RS.
  unfold create_client in H.
  destruct (url_to_dict_plain ip (merge_urls conf inp (input_path inp)) fin p RS) as (d & DE & D).
  { exact M3. }
  { unfold fin; cbn. apply plain_merge; [exact (QC _ _ I Ec)|]. unfold inp; cbn. exact Q. }
  { unfold fin; cbn. rewrite M1. unfold inp; cbn. apply (relational_facts _ _ W R). }
  { unfold fin; cbn. rewrite M1. unfold inp; cbn. apply (relational_facts _ _ W R). }
  rewrite DE in H. cbn [rbind] in H. unfold client_of, text in H.
  rewrite (pd_scheme _ _ _ _ _ D) in H. cbn [rbind] in H.
  assert (SC : u_scheme fin = u_scheme s) by (unfold fin; cbn; rewrite M1; reflexivity).
  rewrite SC in H.
  assert (DH : dget "host" d = option_map PStr (hostname (u_netloc conf))) by exact (pd_host _ _ _ _ _ D).
  assert (DP : dget "port" d = Some (opt_int p)) by exact (pd_port _ _ _ _ _ D).
  assert (KK : exists key allowed, (key = "dbname" \/ key = "database") /\ kw = keep allowed (first_path key d)
               /\ client_scheme c = u_scheme s /\ (c = Postgresql -> allowed = psycopg2_args)).
  { destruct R2 as [X|[X|[]]]; rewrite <- X in H; cbn [dget clients String.eqb Ascii.eqb Bool.eqb rbind create_args] in H;
      destruct (arity _ method) as [lo hi]; destruct (Nat.leb lo _ && Nat.leb _ hi); try discriminate;
      injection H; intros; subst c kw args.
    - exists "dbname", psycopg2_args. cbn. auto.
    - exists "database", my. cbn. repeat split; auto. discriminate. }
  destruct KK as (key & allowed & K1 & -> & K3 & K4).
  assert (HK : forall k, In k ["host"; "port"; "hostaddr"; "service"; "unix_socket"; "dsn"] ->
               k <> key /\ k <> "paths").
  { intros k Hk. cbn in Hk. destruct K1 as [-> | ->]; intuition subst; discriminate. }
  exists x, conf, p. split; [exact I|]. split; [exact Ec|]. split; [exact M3|].
  split; [rewrite M1; unfold inp; cbn; auto|].
  split.
  { intros v Hv. rewrite dget_keep in Hv. destruct (str_in "host" allowed); [|discriminate].
    rewrite dget_first_path in Hv by (apply HK; cbn; tauto). congruence. }
  split.
  { intros v Hv. rewrite dget_keep in Hv. destruct (str_in "port" allowed); [|discriminate].
    rewrite dget_first_path in Hv by (apply HK; cbn; tauto). congruence. }
  split.
  { intros k Hk. rewrite dget_keep. destruct (str_in k allowed); auto.
    assert (H6 : In k ["host"; "port"; "hostaddr"; "service"; "unix_socket"; "dsn"])
      by (clear -Hk; cbn in Hk |- *; tauto).
    rewrite dget_first_path by (apply (HK k H6)).
    apply (pd_other _ _ _ _ _ D). clear -Hk; cbn in Hk |- *; tauto. }
  intros CP. rewrite !dget_keep, (K4 CP). cbn [str_in existsb psycopg2_args String.eqb Ascii.eqb Bool.eqb orb].
  rewrite !dget_first_path by (apply HK; cbn; tauto). auto.
Qed.
