(** Lemmas about the query parameters of requests. *)
From Coq Require Import String Ascii List NArith ZArith Bool Lia.
From Verif Require Import PyVal PyValFacts RegistryFacts Quote QuoteFacts Url Settings Clients SpecUrl UrlFacts
  SettingsFacts SettingsMore ClientsFacts ClientsMore Dbapi Browse SpecBrowse BrowseRequest CommandsFacts BrowseFacts SpecDriver.
Import ListNotations.
Open Scope nat_scope.
Open Scope string_scope.
Open Scope list_scope.

Lemma join_amp l : join "&" l = String.concat "&" l.
Proof. induction l as [|x [|y l] IH]; cbn in *; auto; try now rewrite IH. Qed.

Lemma qsl_text ps : parse_qsl (query_text ps) = filter (fun kv => nonempty (snd kv)) ps.
Proof.
  unfold query_text, parse_qsl. rewrite <- join_amp. destruct ps as [|p ps]; [reflexivity|].
  rewrite split_join; [|discriminate|].
  - generalize (p :: ps). clear. induction l as [|[k v] l IH]; [reflexivity|]. cbn [map flat_map filter fst snd].
    fold (pair_text k v). rewrite parse_pair_text, IH. destruct (nonempty v); reflexivity.
  - apply Forall_forall. intros y Y. apply in_map_iff in Y as ([k v] & <- & _). apply pair_amp.
Qed.

Lemma given_filter k ps : given k ps = map snd (filter (fun kv => String.eqb (fst kv) k) (filter (fun kv => nonempty (snd kv)) ps)).
Proof.
  unfold given. induction ps as [|[k' v] ps IH]; [reflexivity|]. cbn [filter map fst snd].
  destruct (String.eqb k' k) eqn:E; cbn [map filter snd]; destruct (nonempty v) eqn:V; cbn [filter map fst snd]; rewrite ?E; cbn [map snd];
    rewrite ?IH; auto.
Qed.

Definition some_list (l : list string) : option (list string) := match l with [] => None | _ => Some l end.
Definition got (k : string) (d : list (string * list string)) : list string :=
  match dget k d with Some l => l | None => [] end.

Lemma fold_qs k l : forall d, got k (fold_left qs_add l d) = got k d ++ map snd (filter (fun kv => String.eqb (fst kv) k) l).
Proof.
  induction l as [|[k' v] l IH]; intros d; cbn [fold_left filter map]; [now rewrite app_nil_r|].
  rewrite IH. cbn [fst]. unfold qs_add. cbn [fst snd].
  destruct (String.eqb_spec k' k) as [->|N].
  - cbn [map snd]. replace (got k (match dget k d with Some vs => dset k (vs ++ [v]) d | None => d ++ [(k, [v])] end))
      with (got k d ++ [v]); [now rewrite <- app_assoc|].
    unfold got. destruct (dget k d) as [vs|] eqn:E; [now rewrite dget_dset, String.eqb_refl|].
    rewrite dget_app, E. cbn. now rewrite String.eqb_refl.
  - f_equal. unfold got. destruct (dget k' d) as [vs|] eqn:E.
    + rewrite dget_dset. destruct (String.eqb_spec k k'); [congruence|reflexivity].
    + rewrite dget_app. cbn. destruct (String.eqb_spec k k'); [congruence|]. now destruct (dget k d).
Qed.
Lemma qs_ok l : forall d, NoDup (dkeys d) -> (forall k vs, In (k, vs) d -> vs <> [] /\ Forall (fun v => nonempty v = true) vs) ->
  Forall (fun kv => nonempty (snd kv) = true) l ->
  NoDup (dkeys (fold_left qs_add l d))
  /\ (forall k vs, In (k, vs) (fold_left qs_add l d) -> vs <> [] /\ Forall (fun v => nonempty v = true) vs).
Proof.
  induction l as [|[k v] l IH]; cbn [fold_left]; intros d ND V F; [auto|]. inversion F as [|? ? NV F']; subst. apply IH; auto.
  - unfold qs_add. cbn [fst snd]. destruct (dget k d) eqn:E; [now apply dset_NoDup|]. rewrite dkeys_app.
    apply NoDup_app'; auto; cbn.
    + repeat constructor. intros [].
    + intros x [<-|[]]. now apply dget_None in E.
  - unfold qs_add. cbn [fst snd] in *. intros k0 vs I. destruct (dget k d) as [ws|] eqn:E.
    + assert (X : In (k0, vs) d \/ vs = ws ++ [v]).
      { clear - I. induction d as [|[a b] d IH]; cbn in *; [destruct I as [I|[]]; injection I; auto|].
        destruct (String.eqb k a); cbn in I; destruct I as [I|I]; try (injection I; intros; subst); auto.
        destruct (IH I); auto. }
      destruct X as [X| ->]; [eauto|]. apply dget_In in E. destruct (V _ _ E) as [V1 V2].
      split; [destruct ws; discriminate|]. apply Forall_app. auto.
    + apply in_app_iff in I as [I|[I|[]]]; [eauto|]. injection I; intros; subst. split; [discriminate|auto].
Qed.
Definition neat (d : list (string * list string)) : Prop :=
  NoDup (dkeys d) /\ forall k vs, In (k, vs) d -> vs <> [] /\ Forall (fun v => nonempty v = true) vs.
Lemma parse_qs_neat q : neat (parse_qs q).
Proof.
  unfold parse_qs. apply qs_ok; [constructor|intros k vs []|]. unfold parse_qsl. apply Forall_forall. intros kv I.
  apply in_flat_map in I as (t & _ & I). unfold parse_pair in I. destruct (partition "=" t) as [[a b] c].
  destruct (nonempty c) eqn:E; [|destruct I]. destruct I as [<-|[]]. cbn [snd].
  unfold unquote_plus. destruct c as [|x c]; [discriminate|]. cbn [plus_to_space].
  assert (G : forall r x, nonempty (unquote (String x r)) = true).
  { clear. intros r x. cbn [unquote]. destruct (Ascii.eqb x "%"); [|reflexivity]. destruct r as [|y [|z r]]; try reflexivity.
    destruct (hex_value y), (hex_value z); reflexivity. }
  destruct (Ascii.eqb x "+"); apply G.
Qed.

Lemma encode_text m : urlencode m = query_text (flat_map (fun kv => map (fun v => (fst kv, v)) (snd kv)) m).
Proof.
  unfold urlencode, query_text. rewrite join_amp. f_equal. induction m as [|[k vs] m IH]; [reflexivity|].
  cbn [flat_map fst snd]. rewrite map_app, map_map, IH. reflexivity.
Qed.
Lemma got_encode k m : neat m -> got k (parse_qs (urlencode m)) = got k m.
Proof.
  intros [ND V]. unfold parse_qs. rewrite fold_qs. rewrite encode_text, qsl_text. cbn [got dget app].
  unfold got at 1. cbn [dget app]. induction m as [|[k' vs] m IH]; [reflexivity|]. cbn [flat_map fst snd].
  rewrite !filter_app, map_app.
  inversion ND as [|? ? NI ND']; subst.
  rewrite IH; auto; [|intros a b I; apply (V a b); now right].
  destruct (V k' vs (or_introl eq_refl)) as [_ F]. unfold got. cbn [dget].
  assert (X : map snd (filter (fun kv : string * string => String.eqb (fst kv) k)
                (filter (fun kv => nonempty (snd kv)) (map (fun v => (k', v)) vs))) = if String.eqb k k' then vs else []).
  { clear - F. rewrite String.eqb_sym. induction F as [|v vs N F IH]; [now destruct (String.eqb k' k)|].
    cbn [map filter snd]. rewrite N. cbn [filter fst]. destruct (String.eqb k' k); cbn [map snd]; congruence. }
  rewrite X. destruct (String.eqb_spec k k') as [->|]; [|reflexivity].
  assert (E : dget k' m = None) by (now apply dget_None). rewrite E. apply app_nil_r.
Qed.
Lemma neat_dupd a b : neat a -> neat b -> neat (dupd a b).
Proof.
  intros [A1 A2] [B1 B2]. split; [now apply dupd_NoDup|]. unfold dupd. revert a A1 A2. clear B1.
  induction b as [|[k vs] b IH]; cbn [fold_left]; intros a A1 A2; [auto|]. apply IH.
  - intros; apply B2 with k0; now right.
  - now apply dset_NoDup.
  - intros k0 ws I. cbn [fst snd] in I.
    assert (X : In (k0, ws) a \/ ws = vs).
    { clear - I. induction a as [|[x y] a IH]; cbn in *; [destruct I as [I|[]]; injection I; auto|].
      destruct (String.eqb k x); cbn in I; destruct I as [I|I]; try (injection I; intros; subst); auto.
      destruct (IH I); auto. }
    destruct X as [X| ->]; [eauto|]. apply (B2 k). now left.
Qed.
Lemma dget_dupd V k (e d : list (string * V)) : NoDup (dkeys e) ->
  dget k (dupd d e) = match dget k e with Some v => Some v | None => dget k d end.
Proof.
  unfold dupd. revert d. induction e as [|[k' v] e IH]; intros d ND; [reflexivity|]. cbn [fold_left dget fst snd].
  inversion ND as [|? ? NI ND']; subst. rewrite IH by auto. rewrite dget_dset.
  destruct (String.eqb_spec k k') as [->|]; [|reflexivity].
  assert (E : dget k' e = None) by (now apply dget_None). now rewrite E.
Qed.

(** The parameters of a merged URL: the request's come first. *)
Lemma got_merged k q r : got k (parse_qs (urlencode (dupd (parse_qs q) (parse_qs r))))
  = match got k (parse_qs r) with [] => got k (parse_qs q) | l => l end.
Proof.
  rewrite got_encode by (apply neat_dupd; apply parse_qs_neat).
  unfold got at 1. rewrite dget_dupd by (apply parse_qs_neat).
  unfold got. destruct (dget k (parse_qs r)) as [l|] eqn:E; [|reflexivity].
  apply dget_In in E. destruct (proj2 (parse_qs_neat r) _ _ E) as [N _]. destruct l; [congruence|reflexivity].
Qed.
Lemma got_text k ps : got k (parse_qs (query_text ps)) = given k ps.
Proof. unfold parse_qs. rewrite fold_qs, qsl_text. unfold got. cbn [dget app]. symmetry. apply given_filter. Qed.

Lemma modest_plain ps : modest ps -> plain_query (query_text ps).
Proof.
  intros M k I H. rewrite qsl_text in H. apply (M k I). apply in_map_iff in H as (kv & <- & H). apply filter_In in H as [H _].
  now apply in_map.
Qed.

(** *** The dictionary of a URL *)
Definition dict_keys : list string :=
  ["scheme"; "netloc"; "path"; "params"; "query"; "fragment"; "username"; "password"; "hostname"; "port";
   "user"; "host"; "paths"; "url"; "dialect"; "driver"].
Lemma dict_query ip url s d k : urlsplit ip url = Ok s -> url_to_dict ip url = Ok d ->
  (got k (parse_qs (u_query s)) <> [] -> dget k d = Some (unwrap (got k (parse_qs (u_query s)))))
  /\ (got k (parse_qs (u_query s)) = [] -> ~ In k dict_keys -> dget k d = None).
Proof.
  intros U H. unfold url_to_dict in H. rewrite U in H. cbn [rbind] in H.
  destruct (if (str_in (u_scheme s) uses_params && has ";" (u_path s))%bool then split_params (u_path s) else (u_path s, "")) as [path params].
  destruct (port (u_netloc s)); [|discriminate]. cbn [rbind] in H.
  match type of H with rbind ?a _ = _ => destruct a as [[d1 url1]|] eqn:DD; cbn [rbind] in H; [|discriminate] end.
  injection H as <-.
  assert (NQ : NoDup (dkeys (query_dict (u_query s)))) by (rewrite query_dict_keys; apply parse_qs_neat).
  assert (DQ : dget k (query_dict (u_query s)) = option_map unwrap (dget k (parse_qs (u_query s)))).
  { unfold query_dict. clear. generalize (parse_qs (u_query s)). induction l as [|[a b] l IH]; [reflexivity|]. cbn.
    destruct (String.eqb k a); auto. }
  split.
  - intros G. rewrite dget_dupd, DQ by auto. unfold got in *. destruct (dget k (parse_qs (u_query s))); [reflexivity|congruence].
  - intros G N. rewrite dget_dupd, DQ by auto. unfold got in *.
    destruct (dget k (parse_qs (u_query s))) as [l|] eqn:E.
    { apply dget_In in E. destruct (proj2 (parse_qs_neat _) _ _ E) as [N' _]. congruence. }
    cbn [option_map].
    assert (NN : forall x, In x dict_keys -> String.eqb k x = false).
    { intros x I. destruct (String.eqb_spec k x); congruence. }
    assert (D1 : dget k d1 = None).
    { destruct (has "+" (u_scheme s)).
      - destruct (split "+" (u_scheme s)) as [|dial [|drv [|? ?]]]; try discriminate. injection DD as <- <-.
        cbn [dget]. now rewrite !NN by (cbn; tauto).
      - injection DD as <- <-. cbn [dget]. now rewrite !NN by (cbn; tauto). }
    rewrite !dget_dset, !NN by (cbn; tauto).
    destruct (username (u_netloc s)) as [[|? ?]|], (hostname (u_netloc s)) as [[|? ?]|];
      cbn [nonempty]; rewrite ?dget_dset, ?NN by (cbn; tauto); exact D1.
Qed.

Lemma unwrap_passed l : l <> [] -> passed l (unwrap l).
Proof. destruct l as [|v [|w l]]; intros N; [congruence|apply passed_one|apply passed_many]. Qed.

(** *** Requests *)
Theorem driver_query ip my urls method url s c kw args strict k ps :
  db_client c -> urlsplit ip url = Ok s -> u_scheme s = db_scheme c -> hostname (u_netloc s) <> None ->
  u_query s = query_text ps -> modest ps -> configured_queries ip urls ->
  first_seg (u_path s) <> "." ->
  request ip my urls method url strict = Ok (c, kw, args) ->
  (~ In k (driver_args my c) -> dget k kw = None)
  /\ (In k (driver_args my c) -> k <> "dbname" -> k <> "database" ->
      (given k ps <> [] -> exists v, dget k kw = Some v /\ passed (given k ps) v)
      /\ (given k ps = [] -> ~ In k url_args ->
          dget k kw = None
          \/ exists x t qs v, In x urls /\ urlsplit ip x = Ok t /\ same_place s t /\ u_query t = query_text qs
             /\ dget k kw = Some v /\ passed (given k qs) v)).
Proof.
  intros C E SC HN Q M QC ND H.
  assert (PQ : plain_query (u_query s)) by (rewrite Q; now apply modest_plain).
  assert (PC : forall x t, In x urls -> urlsplit ip x = Ok t -> plain_query (u_query t)).
  { intros x t I X. destruct (QC x t I X) as (qs & -> & G). now apply modest_plain. }
  pose proof (db_scheme_rel _ _ C SC) as R.
  pose proof (urlsplit_well _ _ _ E) as W.
  assert (NE : nonempty (u_netloc s) = true) by (destruct (u_netloc s); [now cbn in HN|reflexivity]).
  unfold request in H. destruct (parse_url ip urls method url strict) as [[u a]|] eqn:PU; cbn [rbind fst snd] in H; [|discriminate].
  assert (PP : exists p, port (u_netloc s) = Ok p).
  { unfold parse_url in PU. destruct (url_to_dict ip url) as [d0|] eqn:D0; cbn [rbind] in PU; [|discriminate].
    exact (url_dict_port _ _ _ _ E D0). }
  destruct PP as [p P]. rewrite (parse_url_relational _ _ _ _ _ _ _ E P PQ R) in PU.
  destruct (relational_parse method s) as [[conn a']|] eqn:RP; cbn [rbind fst snd] in PU; [|discriminate].
  destruct (unsafe_url ip urls conn strict) as [u'|] eqn:UU; cbn [rbind] in PU; [|discriminate].
  injection PU; intros; subst u' a'. clear PU.
  apply relational_first in RP. subst conn.
  pose proof (conn_url_split ip s W R NE) as CS.
  set (inp := mkSplit (u_scheme s) (u_netloc s) _ (u_query s) (u_fragment s)) in CS.
  assert (X : exists f, urlsplit ip u = Ok f /\ u_scheme f = u_scheme s
    /\ (u_query f = u_query s
        \/ exists x conf, In x urls /\ urlsplit ip x = Ok conf /\ same_place s conf /\ u_query f = urlencode (dupd (parse_qs (u_query conf)) (parse_qs (u_query s))))).
  { assert (X : u = conn_url s \/ exists x conf, In x urls /\ urlsplit ip x = Ok conf
      /\ url_matches conf inp (input_path inp) = Ok true /\ u = merge_urls conf inp (input_path inp)).
    { destruct strict.
      - destruct (unsafe_url_inv _ _ _ _ UU) as (i & x & conf & E' & I & Ec & MA & U).
        rewrite CS in E'. injection E'; intros; subst i. eauto 10.
      - unfold unsafe_url in UU. rewrite CS in UU. cbn [rbind] in UU. apply unsafe_loop_loose in UU. exact UU. }
    destruct X as [->|(x & conf & I & Ec & MA & ->)]; [exists inp; auto|].
    apply url_matches_true in MA as (M1 & M2 & (p0 & M3 & M4) & _).
    destruct (merged_resplit ip conf inp (urlsplit_well _ _ _ Ec) (urlsplit_well _ _ _ CS) M1) as (p' & RS & _).
    { rewrite M1. unfold inp; cbn. apply (relational_facts _ _ W R). }
    { right. unfold inp; cbn. destruct (nonempty (first_seg (u_path s))); auto. }
    eexists. split; [exact RS|]. cbn [u_scheme u_query]. split; [exact M1|]. right. exists x, conf.
    split; [exact I|]. split; [exact Ec|]. split; [|reflexivity]. split; [exact M1|]. split; [exact M2|].
    rewrite M3. symmetry. exact M4. }
  destruct X as (f & Ef & Sf & Qf).
  destruct (create_client ip my u) as [[c' kw']|] eqn:CC; cbn [rbind] in H; [|discriminate].
  destruct (arity c' method) as [lo hi].
  destruct (Nat.leb lo (Datatypes.length a) && Nat.leb (Datatypes.length a) hi)%bool; [|discriminate].
  injection H; intros; subst c' kw' a. clear H.
  unfold create_client in CC. destruct (url_to_dict ip u) as [d|] eqn:DU; cbn [rbind] in CC; [|discriminate].
  destruct (relational_facts _ _ W R) as (_ & _ & _ & _ & R5).
  assert (PF : has "+" (u_scheme f) = false) by (rewrite Sf; exact R5).
  destruct (client_of d) as [c'|]; cbn [rbind] in CC; [|discriminate].
  destruct (create_args my c' d) as [kw'|] eqn:CA; cbn [rbind] in CC; [|discriminate].
  injection CC; intros; subst c' kw'. clear CC.
  assert (KW : kw = keep (driver_args my c) (first_path (db_key c) d)).
  { destruct C as [-> | ->]; cbn [create_args] in CA; injection CA as <-; reflexivity. }
  subst kw. rewrite dget_keep. split.
  { intros NI. destruct (str_in k (driver_args my c)) eqn:SI; [|reflexivity]. apply CommandsFacts.str_in_In in SI. contradiction. }
  intros IK N1 N2. apply CommandsFacts.str_in_In in IK. rewrite IK.
  destruct (dict_query ip u f d k Ef DU) as [D1 D2].
  assert (GS : got k (parse_qs (u_query s)) = given k ps) by (rewrite Q; apply got_text).
  split.
  - intros G.
    assert (NP : k <> "paths").
    { intros ->. apply G. rewrite given_filter. destruct (filter (fun kv => String.eqb (fst kv) "paths") _) as [|[a b] l] eqn:FE; [reflexivity|].
      exfalso. assert (I : In (a, b) (filter (fun kv => String.eqb (fst kv) "paths") (filter (fun kv => nonempty (snd kv)) ps)))
        by (rewrite FE; now left).
      apply filter_In in I as [I Z]. apply filter_In in I as [I _]. cbn in Z. apply String.eqb_eq in Z. subst a.
      apply (M "paths"); [cbn; tauto|]. apply in_map_iff. now exists ("paths", b). }
    assert (KD : k <> db_key c) by (destruct C as [-> | ->]; assumption).
    rewrite dget_first_path by auto.
    assert (GF : got k (parse_qs (u_query f)) = given k ps).
    { destruct Qf as [-> |(x & conf & _ & _ & _ & ->)]; [exact GS|]. rewrite got_merged, GS. destruct (given k ps); [congruence|reflexivity]. }
    rewrite D1 by (now rewrite GF). rewrite GF. eexists. split; [reflexivity|]. now apply unwrap_passed.
  - intros G NU.
    assert (NP : k <> "paths") by (intros ->; apply NU; cbn; tauto).
    assert (KD : k <> db_key c) by (destruct C as [-> | ->]; assumption).
    rewrite dget_first_path by auto.
    assert (NU' : ~ In k dict_keys) by (intros I; apply NU; unfold dict_keys in I; cbn in I |- *; tauto).
    destruct Qf as [QE|(x & conf & I & Ec & SP & QE)].
    + left. apply D2; auto. now rewrite QE, GS.
    + destruct (QC x conf I Ec) as (qs & QQ & _).
      assert (GF : got k (parse_qs (u_query f)) = given k qs).
      { rewrite QE, got_merged, GS, G, QQ. apply got_text. }
      destruct (given k qs) as [|v l] eqn:GQ; [left; apply D2; auto; now rewrite GF|].
      right. exists x, conf, qs. rewrite D1 by (now rewrite GF). eexists. split; [auto|]. split; [auto|]. split; [auto|]. split; [auto|].
      split; [reflexivity|]. rewrite GF, GQ. apply unwrap_passed. discriminate.
Qed.

(** *** Other clients *)
Lemma text_encode ps : query_text ps = urlencode (map (fun kv => (fst kv, [snd kv])) ps).
Proof. rewrite encode_text. f_equal. induction ps as [|[k v] ps IH]; [reflexivity|]. cbn. congruence. Qed.
Lemma text_nonempty ps : nonempty (query_text ps) = match ps with [] => false | _ => true end.
Proof.
  destruct ps as [|[k v] ps]; [reflexivity|]. unfold query_text. cbn [map fst snd].
  assert (G : forall a b l, nonempty (String.concat "&" ((a ++ String "=" b)%string :: l)) = true).
  { intros a b l. destruct l; cbn [String.concat]; destruct a; reflexivity. }
  apply G.
Qed.
Lemma asked_split ip sch loc names ps : scheme_ok sch = true -> lower sch = sch -> location ip loc -> Forall plain_name names ->
  urlsplit ip (asked sch loc names ps) = Ok (mkSplit sch loc (below_url names) (query_text ps) "").
Proof.
  intros S L (L1 & L2 & L3 & L4 & _) F. unfold asked.
  pose proof (urlsplit_build ip sch loc (below_url names) (query_text ps) "") as U.
  assert (T : tail (query_text ps) "" = match ps with [] => "" | _ => ("?" ++ query_text ps)%string end).
  { unfold tail. rewrite text_nonempty. cbn [nonempty]. rewrite app_nil_r'. now destruct ps. }
  rewrite T in U. rewrite U; auto.
  - rewrite L4. reflexivity.
  - apply below_start.
  - apply below_has; [discriminate|]. apply Forall_impl with (2 := F). intros n N. apply N.
  - apply below_has; [discriminate|]. apply Forall_impl with (2 := F). intros n N. apply N.
  - apply below_clean. apply Forall_impl with (2 := F). intros n N. apply N.
  - rewrite text_encode. eapply all_has; [apply urlencode_query|reflexivity].
  - rewrite text_encode. apply query_char_clean, urlencode_query.
Qed.
Lemma loose_self ip u s : urlsplit ip u = Ok s -> unsafe_url ip [] u false = Ok u.
Proof. intros E. unfold unsafe_url. now rewrite E. Qed.

Section Others.
  Variables (ip : string -> bool) (loc : string) (names : list string) (ps : parameters).
  Hypotheses (L : location ip loc) (F : Forall plain_name names) (M : modest ps).

  Theorem bigquery_positions method : In method ["ls"; "schema"] ->
    parse_url ip [] method (asked "bigquery" loc names ps) false = Ok ("bigquery://", pad 3 names).
  Proof.
    intros I. pose proof (asked_split ip "bigquery" loc names ps eq_refl eq_refl L F) as E.
    destruct L as (_ & _ & _ & _ & p & P). unfold parse_url.
    destruct (url_to_dict_plain ip _ _ p E P (modest_plain _ M) eq_refl eq_refl) as (d & -> & D). cbn [rbind].
    unfold client_of, text. rewrite (pd_scheme _ _ _ _ _ D). cbn [rbind u_scheme dget clients String.eqb Ascii.eqb Bool.eqb].
    unfold client_parse, dmem. rewrite (pd_method _ _ _ _ _ D). unfold bigquery_parse. rewrite (pd_paths _ _ _ _ _ D).
    cbn [u_path]. unfold seg_vals. rewrite segs_below by auto.
    replace ((String.eqb method "ls" || String.eqb method "schema")%bool) with true
      by (destruct I as [<-|[<-|[]]]; reflexivity). cbn [rbind fst snd].
    change (unsafe_url ip [] "bigquery://" false) with (@Ok string "bigquery://"). reflexivity.
  Qed.

  Theorem hive_positions h p : hostname loc = Some h -> port loc = Ok p -> location ip (place h p) ->
    parse_url ip [] "ls" (asked "thrift+hms" loc names ps) false = Ok (("thrift://" ++ place h p)%string, map PStr names)
    /\ parse_url ip [] "schema" (asked "thrift+hms" loc names ps) false
       = if Nat.leb 2 (List.length names)
         then Ok (("thrift://" ++ place h p)%string,
                  map PStr names ++ [PBool (match given "include_stats" ps with [] => false | _ => true end)])
         else Err ValueError.
  Proof.
    intros H P LP. pose proof (asked_split ip "thrift+hms" loc names ps eq_refl eq_refl L F) as E.
    destruct (url_to_dict_driver ip _ _ p "thrift" "hms" E P (modest_plain _ M) eq_refl eq_refl eq_refl) as (d & DE & D).
    pose proof (asked_split ip "thrift" (place h p) [] [] eq_refl eq_refl LP (Forall_nil _)) as U.
    unfold asked in U. change (below_url [] ++ "")%string with "" in U. rewrite app_nil_r' in U.
    apply loose_self in U. change ("thrift" ++ "://" ++ place h p)%string with ("thrift://" ++ place h p)%string in U.
    assert (IS : dmem "include_stats" d = match given "include_stats" ps with [] => false | _ => true end).
    { destruct (dict_query ip _ _ d "include_stats" E DE) as [D1 D2]. cbn [u_query] in *. rewrite got_text in *. unfold dmem.
      destruct (given "include_stats" ps) as [|v l]; [rewrite D2; auto|rewrite D1 by discriminate; reflexivity].
      unfold dict_keys. cbn. intros I. repeat destruct I as [I|I]; try discriminate; contradiction. }
    assert (SUF : forall T (f : string -> res T), rbind (if truthy (opt_int p) then rbind (show (opt_int p)) (fun t => Ok (":" ++ t)%string) else Ok "")
      (fun suffix => f ("thrift://" ++ h ++ suffix)%string) = f ("thrift://" ++ place h p)%string).
    { intros T f. unfold place, opt_int. destruct p as [n|]; [|reflexivity]. cbn [truthy].
      destruct n as [|n]; [reflexivity|]. reflexivity. }
    split; unfold parse_url; rewrite DE; cbn [rbind]; unfold client_of, text; rewrite (pd_scheme _ _ _ _ _ D);
      cbn [rbind u_scheme dget clients String.eqb Ascii.eqb Bool.eqb];
      unfold client_parse; replace (dmem "method" d) with false by (unfold dmem; now rewrite (pd_method _ _ _ _ _ D));
      unfold hive_parse; rewrite (pd_paths _ _ _ _ _ D), (pd_host _ _ _ _ _ D), (pd_port _ _ _ _ _ D);
      cbn [u_netloc u_path]; rewrite H; cbn [option_map show rbind or_none];
      unfold seg_vals; rewrite segs_below by auto; cbn [String.eqb Ascii.eqb Bool.eqb].
    - rewrite (SUF _ (fun u => Ok (u, map PStr names))). cbn [rbind fst snd]. now rewrite U.
    - rewrite map_length. cbn [andb].
      rewrite (SUF _ (fun u => if Nat.leb 2 (List.length names) then Ok (u, map PStr names ++ [PBool (dmem "include_stats" d)]) else Err ValueError)).
      destruct (Nat.leb 2 (List.length names)); [|reflexivity]. cbn [rbind fst snd]. rewrite U, IS. reflexivity.
  Qed.
End Others.

Section Confluent.
  Variables (ip : string -> bool) (dial loc : string).
  Hypotheses (ID : In dial ["http"; "https"]) (L : location ip loc) (NE : nonempty loc = true) (NP : has "+" loc = false).

  Lemma csr_dict names : Forall plain_name names -> Forall (fun n => has "+" n = false) names ->
    exists d p, url_to_dict ip (asked (dial ++ "+csr") loc names []) = Ok d
      /\ plain_dict (Some dial) (mkSplit (dial ++ "+csr") loc (below_url names) "" "") p (asked dial loc names []) d
      /\ client_of d = Ok Confluent.
  Proof.
    intros F P.
    assert (E : urlsplit ip (asked (dial ++ "+csr") loc names []) = Ok (mkSplit (dial ++ "+csr") loc (below_url names) "" "")).
    { rewrite (asked_split ip (dial ++ "+csr") loc names []); auto; destruct ID as [<-|[<-|[]]]; reflexivity. }
    destruct L as (_ & _ & _ & _ & p & Po).
    destruct (url_to_dict_driver ip _ _ p dial "csr" E Po) as (d & DE & D); try (destruct ID as [<-|[<-|[]]]; reflexivity).
    { intros k _ []. }
    exists d, p. split; [exact DE|].
    assert (O : has "+" (loc ++ below_url names ++ "") = false).
    { rewrite !has_app, NP. rewrite below_has; auto. discriminate. }
    assert (RU : replace_all (dial ++ "+" ++ "csr" ++ "://") (dial ++ "://") (asked (dial ++ "+csr") loc names []) = asked dial loc names []).
    { unfold asked.
      replace ((dial ++ "+csr") ++ "://" ++ loc ++ below_url names ++ "")%string
        with ((dial ++ "+" ++ "csr" ++ "://") ++ loc ++ below_url names ++ "")%string by (destruct ID as [<-|[<-|[]]]; reflexivity).
      rewrite replace_head; auto; destruct ID as [<-|[<-|[]]]; reflexivity. }
    rewrite RU in D. split; [exact D|].
    unfold client_of, text. rewrite (pd_scheme _ _ _ _ _ D). destruct ID as [<-|[<-|[]]]; reflexivity.
  Qed.

  Theorem confluent_ls names : Forall plain_name names -> Forall (fun n => has "+" n = false) names ->
    parse_url ip [] "ls" (asked (dial ++ "+csr") loc names []) false = Ok (asked dial loc names [], []).
  Proof.
    intros F P. destruct (csr_dict names F P) as (d & p & DE & D & CL). unfold parse_url. rewrite DE. cbn [rbind]. rewrite CL. cbn [rbind].
    unfold client_parse, dmem. rewrite (pd_method _ _ _ _ _ D). unfold confluent_parse, text. cbn [String.eqb Ascii.eqb Bool.eqb].
    rewrite (pd_url _ _ _ _ _ D). cbn [rbind fst snd].
    assert (O : has "+" (asked dial loc names []) = false).
    { unfold asked. rewrite !has_app, NP. rewrite below_has; [|discriminate|auto]. destruct ID as [<-|[<-|[]]]; reflexivity. }
    unfold replace_all. rewrite !replace_none; auto; [|now rewrite replace_none]. cbn [rbind].
    rewrite (loose_self _ _ _ (asked_split ip dial loc names [] ltac:(destruct ID as [<-|[<-|[]]]; reflexivity) ltac:(destruct ID as [<-|[<-|[]]]; reflexivity) L F)).
    reflexivity.
  Qed.

  Theorem confluent_schema names subject : Forall plain_name (names ++ [subject]) -> Forall (fun n => has "+" n = false) (names ++ [subject]) ->
    parse_url ip [] "schema" (asked (dial ++ "+csr") loc (names ++ [subject]) []) false = Ok (asked dial loc names [], [PStr subject]).
  Proof.
    intros F P. destruct (csr_dict _ F P) as (d & p & DE & D & CL). unfold parse_url. rewrite DE. cbn [rbind]. rewrite CL. cbn [rbind].
    unfold client_parse, dmem. rewrite (pd_method _ _ _ _ _ D). unfold confluent_parse. cbn [String.eqb Ascii.eqb Bool.eqb].
    unfold paths_of. rewrite (pd_paths _ _ _ _ _ D). cbn [rbind u_path]. unfold seg_vals. rewrite segs_below by auto.
    unfold pop_last. rewrite map_app, rev_app_distr. cbn [map rev app rbind]. rewrite rev_involutive.
    unfold dialect_or_scheme, text. rewrite (pd_dialect _ _ _ _ _ D). cbn [option_map].
    replace (truthy (PStr dial)) with true by (destruct ID as [<-|[<-|[]]]; reflexivity). cbn [as_text rbind].
    rewrite rmap_text. cbn [rbind]. unfold unparse, text.
    rewrite (pd_netloc _ _ _ _ _ D), (pd_params _ _ _ _ _ D), (pd_query _ _ _ _ _ D), (pd_fragment _ _ _ _ _ D).
    cbn [rbind u_netloc u_query u_fragment nonempty].
    assert (U : urlunsplit (mkSplit dial loc (join "/" names) "" "") = asked dial loc names []).
    { apply Forall_app in F as [F _]. unfold urlunsplit, asked. cbn [u_netloc u_scheme u_path u_query u_fragment nonempty].
      rewrite NE. rewrite join_concat. destruct names as [|n r].
      - destruct ID as [<-|[<-|[]]]; reflexivity.
      - assert (SS : starts_slash (relative (n :: r)) = false /\ nonempty (relative (n :: r)) = true).
        { inversion F as [|? ? X _]; subst. destruct X as (X1 & _ & X3 & _). destruct n as [|c n]; [congruence|].
          cbn in X3. apply orb_false_elim in X3 as [X3 _].
          assert (G : exists z, relative (String c n :: r) = String c z) by (unfold relative; destruct r; cbn; eauto).
          destruct G as [z ->]. split; [|reflexivity].
          destruct c as [[] [] [] [] [] [] [] []]; reflexivity || discriminate. }
        destruct SS as [SS SN]. rewrite SS, SN. cbn [orb andb negb]. rewrite below_relative, app_nil_r' by discriminate.
        destruct ID as [<-|[<-|[]]]; reflexivity. }
    rewrite U. cbn [rbind fst snd]. apply Forall_app in F as [F _].
    rewrite (loose_self _ _ _ (asked_split ip dial loc names [] ltac:(destruct ID as [<-|[<-|[]]]; reflexivity) ltac:(destruct ID as [<-|[<-|[]]]; reflexivity) L F)).
    reflexivity.
  Qed.
End Confluent.
