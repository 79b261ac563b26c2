(** Requests end to end: which supported URLs can be opened through recap/commands.py. *)
From Coq Require Import String Ascii List NArith ZArith Bool Lia.
From Verif Require Import PyVal PyValFacts Quote QuoteFacts Url Settings Clients SpecUrl UrlFacts
  SettingsFacts SettingsMore ClientsFacts.
Import ListNotations.
Open Scope nat_scope.
Open Scope string_scope.
Open Scope list_scope.

(** *** C32 in the words of the specification *)
Theorem relational_positions : forall ip url s p,
  urlsplit ip url = Ok s -> port (u_netloc s) = Ok p -> nonempty (u_netloc s) = true ->
  plain_query (u_query s) -> In (u_scheme s) ["postgresql"; "snowflake"] ->
  exists conn r, urlsplit ip conn = Ok r
    /\ u_scheme r = u_scheme s /\ u_netloc r = u_netloc s /\ u_query r = u_query s
    /\ segs (u_path r) = firstn 1 (segs (u_path s))
    /\ parse_url ip [] "ls" url false =
         (if Nat.leb (List.length (segs (u_path s))) 2
          then Ok (conn, pad 2 (segs (u_path s))) else Err ValueError)
    /\ parse_url ip [] "schema" url false =
         (if Nat.leb 3 (List.length (segs (u_path s)))
          then Ok (conn, pad 3 (segs (u_path s))) else Err ValueError).
Proof.
  intros ip url s p E P NE Q R0.
  assert (R : relational s) by (unfold relational; cbn in *; tauto).
  pose proof (urlsplit_well _ _ _ E) as W.
  pose proof (conn_url_split ip s W R NE) as CS.
  eexists (conn_url s), _. split; [exact CS|]. cbn [u_scheme u_netloc u_query u_path].
  split; [reflexivity|]. split; [reflexivity|]. split; [reflexivity|]. split.
  { destruct (first_seg_facts _ _ W) as (_ & _ & _ & F4). unfold first_seg in *.
    change (segs (u_path s)) with (segments (u_path s)).
    destruct (segments (u_path s)) as [|x l] eqn:ES; [reflexivity|].
    assert (NX : nonempty x = true).
    { assert (I : In x (segments (u_path s))) by (rewrite ES; left; reflexivity).
      apply filter_In in I as [_ I]. exact I. }
    rewrite NX. cbn [append firstn]. unfold segs. rewrite split_cons_sep. cbn [filter nonempty].
    rewrite split_plain by auto. cbn [filter]. rewrite NX. reflexivity. }
  assert (UU : unsafe_url ip [] (conn_url s) false = Ok (conn_url s)).
  { unfold unsafe_url. rewrite CS. reflexivity. }
  rewrite !(parse_url_relational _ _ _ _ _ _ _ E P Q R). unfold relational_parse.
  change (segs (u_path s)) with (segments (u_path s)).
  assert (NM : String.eqb (u_scheme s) "mysql" = false).
  { destruct R0 as [X|[X|[]]]; rewrite <- X; reflexivity. }
  rewrite NM. cbn [String.eqb Ascii.eqb Bool.eqb andb].
  destruct (segments (u_path s)) as [|a [|b [|c l]]]; cbn [List.length Nat.leb rbind fst snd];
    rewrite ?UU; cbn [rbind]; split; reflexivity.
Qed.

Theorem mysql_positions : forall ip url s p,
  urlsplit ip url = Ok s -> port (u_netloc s) = Ok p -> nonempty (u_netloc s) = true ->
  plain_query (u_query s) -> u_scheme s = "mysql" ->
  exists conn r, urlsplit ip conn = Ok r
    /\ u_scheme r = u_scheme s /\ u_netloc r = u_netloc s /\ u_query r = u_query s
    /\ segs (u_path r) = firstn 1 (segs (u_path s))
    /\ parse_url ip [] "ls" url false = Ok (conn, pad 1 (segs (u_path s)))
    /\ parse_url ip [] "schema" url false =
         (if Nat.leb 2 (List.length (segs (u_path s)))
          then Ok (conn, pad 2 (segs (u_path s))) else Err ValueError).
Proof.
  intros ip url s p E P NE Q R0.
  assert (R : relational s) by (unfold relational; cbn; auto).
  pose proof (urlsplit_well _ _ _ E) as W.
  pose proof (conn_url_split ip s W R NE) as CS.
  eexists (conn_url s), _. split; [exact CS|]. cbn [u_scheme u_netloc u_query u_path].
  split; [reflexivity|]. split; [reflexivity|]. split; [reflexivity|]. split.
  { destruct (first_seg_facts _ _ W) as (_ & _ & _ & F4). unfold first_seg in *.
    change (segs (u_path s)) with (segments (u_path s)).
    destruct (segments (u_path s)) as [|x l] eqn:ES; [reflexivity|].
    assert (NX : nonempty x = true).
    { assert (I : In x (segments (u_path s))) by (rewrite ES; left; reflexivity).
      apply filter_In in I as [_ I]. exact I. }
    rewrite NX. cbn [append firstn]. unfold segs. rewrite split_cons_sep. cbn [filter nonempty].
    rewrite split_plain by auto. cbn [filter]. rewrite NX. reflexivity. }
  assert (UU : unsafe_url ip [] (conn_url s) false = Ok (conn_url s)).
  { unfold unsafe_url. rewrite CS. reflexivity. }
  rewrite !(parse_url_relational _ _ _ _ _ _ _ E P Q R). unfold relational_parse.
  change (segs (u_path s)) with (segments (u_path s)). rewrite R0.
  cbn [String.eqb Ascii.eqb Bool.eqb andb].
  destruct (segments (u_path s)) as [|a [|b l]]; cbn [List.length Nat.leb rbind fst snd];
    rewrite ?UU; cbn [rbind]; split; reflexivity.
Qed.

(** *** the URL that create_client gets *)
Lemma unsafe_loop_loose : forall ip urls inp path url out,
  unsafe_loop ip urls inp path url false = Ok out ->
  out = url \/ exists c conf, In c urls /\ urlsplit ip c = Ok conf
    /\ url_matches conf inp path = Ok true /\ out = merge_urls conf inp path.
Proof.
  induction urls as [|c cs IH]; intros inp path url out H; cbn in H.
  - injection H; auto.
  - destruct (urlsplit ip c) as [conf|] eqn:E; cbn in H; [|discriminate].
    destruct (url_matches conf inp path) as [[]|] eqn:M; cbn in H; try discriminate.
    + injection H; intros; subst. right. exists c, conf. cbn. auto.
    + destruct (IH _ _ _ _ H) as [X|(c' & conf' & I & R)]; auto.
      right. exists c', conf'. cbn. tauto.
Qed.

Theorem final_scheme : forall ip urls conn inp strict u,
  urlsplit ip conn = Ok inp -> u_scheme inp <> "" ->
  u_path inp = "" \/ starts_slash (u_path inp) = true ->
  plain_query (u_query inp) ->
  (forall x t, In x urls -> urlsplit ip x = Ok t -> plain_query (u_query t)) ->
  unsafe_url ip urls conn strict = Ok u ->
  exists f, urlsplit ip u = Ok f /\ u_scheme f = u_scheme inp /\ plain_query (u_query f)
    /\ hostname (u_netloc f) = hostname (u_netloc inp)
    /\ (port (u_netloc f) = port (u_netloc inp)).
Proof.
  intros ip urls conn inp strict u E NS Ab Q QC H.
  assert (X : u = conn \/ exists c conf, In c urls /\ urlsplit ip c = Ok conf
    /\ url_matches conf inp (input_path inp) = Ok true /\ u = merge_urls conf inp (input_path inp)).
  { destruct strict.
    - destruct (unsafe_url_inv _ _ _ _ H) as (i & c & conf & E' & I & Ec & M & U).
      rewrite E in E'. injection E'; intros; subst i. eauto 10.
    - unfold unsafe_url in H. rewrite E in H. cbn [rbind] in H.
      apply unsafe_loop_loose in H. exact H. }
  destruct X as [->|(c & conf & I & Ec & M & ->)].
  - exists inp. auto.
  - apply url_matches_true in M as (M1 & M2 & (p & M3 & M4) & M5).
    destruct (merged_resplit ip conf inp (urlsplit_well _ _ _ Ec) (urlsplit_well _ _ _ E) M1) as (p' & RS & _).
    { congruence. }
    { auto. }
    eexists. split; [exact RS|]. cbn. split; [exact M1|]. split; [|split; congruence].
    apply plain_merge; [exact (QC _ _ I Ec)|exact Q].
Qed.

Lemma create_unsupported : forall ip my u f,
  urlsplit ip u = Ok f -> plain_query (u_query f) ->
  In (u_scheme f) ["http"; "https"; "thrift"] -> exists e, create_client ip my u = Err e.
Proof.
  intros ip my u f E Q I. unfold create_client.
  destruct (url_to_dict ip u) as [d|e] eqn:D; cbn [rbind]; [|eauto].
  assert (T : dget "scheme" d = Some (PStr (u_scheme f))).
  { unfold url_to_dict in D. rewrite E in D. cbn [rbind] in D.
    assert (NP : has "+" (u_scheme f) = false).
    { destruct I as [X|[X|[X|[]]]]; rewrite <- X; reflexivity. }
    destruct (if str_in (u_scheme f) uses_params && has ";" (u_path f) then _ else _) as [pa pr].
    destruct (port (u_netloc f)); cbn [rbind] in D; [|discriminate]. rewrite NP in D. cbn [rbind] in D.
    injection D; intros; subst d.
    rewrite dget_dupd_notin by (apply plain_keys; [exact Q|cbn; tauto]).
    destruct (username (u_netloc f)) as [[|]|]; destruct (hostname (u_netloc f)) as [[|]|]; reflexivity. }
  unfold client_of, text. rewrite T. cbn [rbind].
  destruct I as [X|[X|[X|[]]]]; rewrite <- X; cbn; eauto.
Qed.

(** *** C58: registry and metastore URLs *)
Lemma request_err : forall ip my urls method url strict,
  (forall u a, parse_url ip urls method url strict = Ok (u, a) -> exists e, create_client ip my u = Err e) ->
  exists e, request ip my urls method url strict = Err e.
Proof.
  intros ip my urls method url strict H. unfold request.
  destruct (parse_url ip urls method url strict) as [[u a]|e] eqn:P; cbn [rbind fst]; [|eauto].
  destruct (H u a eq_refl) as [e ->]. cbn [rbind]. eauto.
Qed.

Lemma url_dict_port : forall ip url s d, urlsplit ip url = Ok s ->
  url_to_dict ip url = Ok d -> exists p, port (u_netloc s) = Ok p.
Proof.
  intros ip url s d E D. unfold url_to_dict in D. rewrite E in D. cbn [rbind] in D.
  destruct (if str_in (u_scheme s) uses_params && has ";" (u_path s) then _ else _) as [pa pr].
  destruct (port (u_netloc s)); cbn [rbind] in D; [eauto|discriminate].
Qed.

Lemma urlsplit_after_slashes : forall ip sch rest s, scheme_ok sch = true -> lower sch = sch ->
  urlsplit ip (sch ++ "://" ++ rest) = Ok s ->
  u_scheme s = sch /\ (u_path s = "" \/ starts_slash (u_path s) = true).
Proof.
  intros ip sch rest s S L H. unfold urlsplit in H.
  rewrite lstrip_scheme in H by auto.
  assert (DA : forall a b, drop_unsafe (a ++ b)%string = (drop_unsafe a ++ drop_unsafe b)%string).
  { induction a as [|c a IH]; cbn; intros; auto. destruct (unsafe_byte c); cbn; rewrite IH; auto. }
  rewrite DA, (drop_clean sch (scheme_clean _ S)) in H.
  change (drop_unsafe ("://" ++ rest)) with (String ":" (String "/" (String "/" (drop_unsafe rest)))) in H.
  rewrite partition_hit in H by (apply scheme_no; auto). rewrite S in H. cbn [andb] in H.
  destruct (split_netloc (drop_unsafe rest)) as [n u] eqn:SN.
  destruct (check_brackets ip n) as [[]|]; cbn [rbind] in H; [|discriminate].
  destruct (partition "#" u) as [[mid f1] fr] eqn:P1.
  destruct (partition "?" mid) as [[pa f2] q] eqn:P2.
  destruct (is_ascii n); [|discriminate]. injection H; intros; subst s. cbn. split; auto.
  apply split_netloc_spec in SN as (_ & _ & AE).
  pose proof (partition_spec _ _ _ _ _ P1) as [Hm Eu].
  pose proof (partition_spec _ _ _ _ _ P2) as [Hp Em].
  destruct (partition_has _ _ _ _ _ _ P2 Hm) as [Hp' _].
  destruct pa as [|c pa]; [left; reflexivity|right].
  assert (X : exists t, u = String c t).
  { destruct f1, f2; cbn in Em, Eu.
    - subst mid. cbn in Eu. eauto.
    - destruct Em as [-> _]. cbn in Eu. eauto.
    - destruct Eu as [-> _]. subst mid. cbn. eauto.
    - destruct Eu as [-> _]. destruct Em as [-> _]. eauto. }
  destruct X as [t ->]. cbn [at_end] in AE. rewrite starts_slash_cons. unfold netloc_end in AE.
  cbn [has] in Hp, Hp'. apply orb_false_elim in Hp as [Hp _]. apply orb_false_elim in Hp' as [Hp' _].
  rewrite Hp, Hp', !orb_false_r in AE. exact AE.
Qed.

Theorem hive_unreachable : forall ip my urls method url strict s,
  urlsplit ip url = Ok s -> u_scheme s = "thrift+hms" -> plain_query (u_query s) ->
  (forall x t, In x urls -> urlsplit ip x = Ok t -> plain_query (u_query t)) ->
  exists e, request ip my urls method url strict = Err e.
Proof.
  intros ip my urls method url strict s E S Q QC. apply request_err. intros u a P.
  unfold parse_url in P.
  destruct (url_to_dict ip url) as [d0|] eqn:D0; cbn [rbind] in P; [|discriminate].
  destruct (url_dict_port _ _ _ _ E D0) as [p Pp].
  destruct (url_to_dict_driver ip url s p "thrift" "hms" E Pp Q) as (d & D1 & D);
    try (rewrite S; reflexivity).
  rewrite D0 in D1. injection D1; intros; subst d0. clear D1.
  unfold client_of, text in P. rewrite (pd_scheme _ _ _ _ _ D), S in P. cbn in P.
  unfold dmem in P. rewrite (pd_method _ _ _ _ _ D) in P. unfold hive_parse in P.
  rewrite (pd_paths _ _ _ _ _ D), (pd_host _ _ _ _ _ D), (pd_port _ _ _ _ _ D) in P.
  destruct (hostname (u_netloc s)) as [h|] eqn:H; cbn [option_map show rbind] in P; [|discriminate].
  destruct (if truthy (or_none (Some (opt_int p))) then _ else _) as [suf|] eqn:SF; cbn [rbind] in P; [|discriminate].
  assert (X : unsafe_url ip urls ("thrift://" ++ h ++ suf)%string strict = Ok u).
  { destruct (String.eqb method "ls").
    - cbn [rbind fst snd] in P. destruct (unsafe_url ip urls _ strict) as [u'|]; cbn [rbind] in P;
        [|discriminate]. injection P; intros; subst; reflexivity.
    - destruct (String.eqb method "schema" && _); cbn [rbind fst snd] in P; [|discriminate].
      destruct (unsafe_url ip urls _ strict) as [u'|]; cbn [rbind] in P;
        [|discriminate]. injection P; intros; subst; reflexivity. }
  assert (XX := X). unfold unsafe_url in XX.
  destruct (urlsplit ip ("thrift://" ++ h ++ suf)%string) as [inp|] eqn:EI; cbn [rbind] in XX; [|discriminate].
  clear XX.
  change ("thrift://" ++ h ++ suf)%string with ("thrift" ++ "://" ++ (h ++ suf))%string in EI.
  destruct (urlsplit_after_slashes ip "thrift" _ inp eq_refl eq_refl EI) as [SI AI].
  assert (QI : plain_query (u_query inp)).
  { (* the connection URL has no query: the host has no '?' *)
    assert (W := urlsplit_well _ _ _ E).
    assert (NQ : has "?" (h ++ suf)%string = false /\ has "#" (h ++ suf)%string = false).
    { assert (A : all_chars (fun c => negb (netloc_end c)) h = true).
      { unfold hostname in H. destruct (hostinfo (u_netloc s)) as [g t] eqn:HI.
        destruct (nonempty g); [|discriminate]. injection H; intros; subst h.
        apply lower_host_all; [exact no_end_lower|]. eapply hostinfo_all; [exact HI|].
        apply hostpart_all. exact (ws_netloc _ _ W). }
      assert (B : all_chars (fun c => negb (netloc_end c)) suf = true).
      { destruct (truthy (or_none (Some (opt_int p)))); [|injection SF; intros; subst; reflexivity].
        destruct p as [k|]; cbn [opt_int or_none show] in SF; [|discriminate].
        assert (Z : (0 <=? Z.of_N k)%Z = true) by (apply Z.leb_le; lia). rewrite Z in SF.
        cbn [rbind] in SF. injection SF; intros; subst suf. cbn [append all_chars].
        rewrite N2Z.id. change (negb (netloc_end ":")) with true. cbn [andb].
        eapply all_weaken; [|apply dec_N_spec]. intros c Dc. apply (digit_facts c Dc). }
      split; (eapply all_has; [rewrite all_app, A, B; reflexivity|reflexivity]). }
    destruct NQ as [N1 N2].
    destruct (urlsplit_inv _ _ _ EI) as (rest & u0 & mid & f1 & f2 & C & Sc & N & P1 & P2 & _).
    assert (Hq : has "?" ("thrift" ++ "://" ++ (h ++ suf))%string = false).
    { rewrite !has_app. rewrite has_app in N1. rewrite N1. reflexivity. }
    assert (U : u_query inp = "").
    { clear -EI Hq. unfold urlsplit in EI.
      assert (L : forall t, has "?" t = false -> has "?" (lstrip_controls t) = false).
      { induction t as [|c t IH]; cbn [lstrip_controls]; auto. intros X.
        destruct (N.leb _ _); auto. apply IH. cbn [has] in X. apply orb_false_elim in X. tauto. }
      assert (Dr : forall t, has "?" t = false -> has "?" (drop_unsafe t) = false).
      { induction t as [|c t IH]; cbn [drop_unsafe]; auto. cbn [has]. intros X.
        apply orb_false_elim in X as [X1 X2].
        destruct (unsafe_byte c); auto. cbn [has]. rewrite X1, IH; auto. }
      specialize (Dr _ (L _ Hq)). set (w := drop_unsafe _) in *. clearbody w.
      destruct (partition ":" w) as [[b f] x] eqn:P.
      destruct (partition_has _ _ _ _ _ _ P Dr) as [_ Px].
      assert (NP : forall y n u, has "?" y = false -> net_path ip y = Ok (n, u) -> has "?" u = false).
      { intros y n u Hy Hn. apply net_path_inv in Hn as [(R & _)|[R _]].
        - subst y. rewrite !has_app in Hy. apply orb_false_elim in Hy as [_ Hy].
          apply orb_false_elim in Hy as [_ Hy]. exact Hy.
        - congruence. }
      destruct (f && scheme_ok b); cbv beta iota zeta in EI; rewrite net_path_eq in EI.
      - destruct (net_path ip x) as [[n u]|] eqn:Nx; cbn [rbind] in EI; [|discriminate].
        specialize (NP _ _ _ Px Nx).
        destruct (partition "#" u) as [[mid f1] fr] eqn:P1.
        destruct (partition_has _ _ _ _ _ _ P1 NP) as [Hm _].
        rewrite (partition_miss _ _ Hm) in EI.
        destruct (is_ascii n); [|discriminate]. injection EI; intros; subst inp. reflexivity.
      - destruct (net_path ip w) as [[n u]|] eqn:Nx; cbn [rbind] in EI; [|discriminate].
        specialize (NP _ _ _ Dr Nx).
        destruct (partition "#" u) as [[mid f1] fr] eqn:P1.
        destruct (partition_has _ _ _ _ _ _ P1 NP) as [Hm _].
        rewrite (partition_miss _ _ Hm) in EI.
        destruct (is_ascii n); [|discriminate]. injection EI; intros; subst inp. reflexivity. }
    rewrite U. intros k _ []. }
  destruct (final_scheme ip urls _ inp strict u EI) as (f & Ef & Sf & Qf & _); auto.
  { rewrite SI. discriminate. }
  apply (create_unsupported ip my u f Ef Qf). rewrite Sf, SI. cbn. auto.
Qed.

(** replace_all leaves a text without the plus sign of the pattern alone. *)
Lemma strip_prefix_spec : forall p s r, strip_prefix p s = Some r -> s = (p ++ r)%string.
Proof.
  induction p as [|a p IH]; intros s r H; cbn in H; [injection H; auto|].
  destruct s as [|b s]; [discriminate|]. destruct (Ascii.eqb_spec a b); [|discriminate].
  subst. cbn. f_equal. auto.
Qed.
Lemma replace_none : forall n old new s, has "+" old = true -> has "+" s = false ->
  replace_fuel n old new s = s.
Proof.
  induction n as [|n IH]; intros old new s O H; [reflexivity|]. cbn [replace_fuel].
  destruct (strip_prefix old s) as [r|] eqn:E.
  - apply strip_prefix_spec in E. subst s. rewrite has_app, O in H. discriminate.
  - destruct s as [|c s]; auto. f_equal. apply IH; auto. cbn [has] in H.
    apply orb_false_elim in H. tauto.
Qed.

Lemma strip_prefix_app : forall p r, strip_prefix p (p ++ r) = Some r.
Proof. induction p as [|a p IH]; intros; cbn; auto. rewrite Ascii.eqb_refl. auto. Qed.
Lemma replace_head : forall old new r, has "+" old = true -> has "+" r = false ->
  replace_all old new (old ++ r) = (new ++ r)%string.
Proof.
  intros old new r O H. unfold replace_all. cbn [replace_fuel]. rewrite strip_prefix_app.
  f_equal. apply replace_none; auto.
Qed.
Lemma str_app_assoc' : forall a b c : string, (a ++ b ++ c = (a ++ b) ++ c)%string.
Proof. induction a as [|x a IH]; intros; cbn; auto. rewrite IH. reflexivity. Qed.

(** Both listing a Confluent registry and reading a subject fail under every configuration. *)
Theorem confluent_unreachable : forall ip my urls method dial rest strict s,
  In dial ["http"; "https"] -> has "+" rest = false ->
  urlsplit ip (dial ++ "+csr://" ++ rest) = Ok s -> nonempty (u_netloc s) = true ->
  plain_query (u_query s) ->
  (forall x t, In x urls -> urlsplit ip x = Ok t -> plain_query (u_query t)) ->
  exists e, request ip my urls method (dial ++ "+csr://" ++ rest) strict = Err e.
Proof.
  intros ip my urls method dial rest strict s ID NP E NE Q QC.
  set (url := (dial ++ "+csr://" ++ rest)%string) in *.
  assert (SO : scheme_ok (dial ++ "+csr") = true /\ lower (dial ++ "+csr") = (dial ++ "+csr")%string
               /\ url = ((dial ++ "+csr") ++ "://" ++ rest)%string
               /\ scheme_ok dial = true /\ lower dial = dial).
  { unfold url. destruct ID as [<-|[<-|[]]]; repeat split. }
  destruct SO as (SO1 & SO2 & SO3 & SO4 & SO5).
  assert (W := urlsplit_well _ _ _ E).
  assert (SC : u_scheme s = (dial ++ "+csr")%string /\ (u_path s = "" \/ starts_slash (u_path s) = true)).
  { rewrite SO3 in E. apply (urlsplit_after_slashes ip (dial ++ "+csr") rest s SO1 SO2 E). }
  destruct SC as [SC _].
  apply request_err. intros u a P. unfold parse_url in P.
  destruct (url_to_dict ip url) as [d0|] eqn:D0; cbn [rbind] in P; [|discriminate].
  destruct (url_dict_port _ _ _ _ E D0) as [p Pp].
  destruct (url_to_dict_driver ip url s p dial "csr" E Pp Q) as (d & D1 & D).
  { rewrite SC. destruct ID as [<-|[<-|[]]]; reflexivity. }
  { rewrite SC. destruct ID as [<-|[<-|[]]]; reflexivity. }
  { rewrite SC. destruct ID as [<-|[<-|[]]]; reflexivity. }
  rewrite D0 in D1. injection D1; intros; subst d0. clear D1.
  assert (CL : client_of d = Ok Confluent).
  { unfold client_of, text. rewrite (pd_scheme _ _ _ _ _ D), SC.
    destruct ID as [<-|[<-|[]]]; reflexivity. }
  rewrite CL in P. cbn [rbind] in P. unfold client_parse in P. unfold dmem in P.
  rewrite (pd_method _ _ _ _ _ D) in P. unfold confluent_parse in P.
  assert (CU : forall conn inp, urlsplit ip conn = Ok inp -> u_scheme inp = dial ->
     (u_path inp = "" \/ starts_slash (u_path inp) = true) -> plain_query (u_query inp) ->
     unsafe_url ip urls conn strict = Ok u -> exists e, create_client ip my u = Err e).
  { intros conn inp EI SI AI QI X.
    destruct (final_scheme ip urls conn inp strict u EI) as (f & Ef & Sf & Qf & _); auto.
    { rewrite SI. destruct ID as [<-|[<-|[]]]; discriminate. }
    apply (create_unsupported ip my u f Ef Qf). rewrite Sf, SI.
    destruct ID as [<-|[<-|[]]]; cbn; auto. }
  destruct (String.eqb method "ls").
  - unfold text in P. rewrite (pd_url _ _ _ _ _ D) in P. cbn [rbind fst snd] in P.
    assert (RU : replace_all "https+csr://" "https://" (replace_all "http+csr://" "http://"
             (replace_all (dial ++ "+" ++ "csr" ++ "://") (dial ++ "://") url)) = (dial ++ "://" ++ rest)%string).
    { assert (O : has "+" (dial ++ "://" ++ rest) = false).
      { destruct ID as [<-|[<-|[]]]; cbn [has append]; exact NP. }
      assert (U : url = ((dial ++ "+" ++ "csr" ++ "://") ++ rest)%string).
      { unfold url. destruct ID as [<-|[<-|[]]]; reflexivity. }
      rewrite U, replace_head; auto.
      - replace ((dial ++ "://") ++ rest)%string with (dial ++ "://" ++ rest)%string by apply str_app_assoc'.
        unfold replace_all. rewrite !replace_none; auto. rewrite replace_none; auto.
      - destruct ID as [<-|[<-|[]]]; reflexivity. }
    rewrite RU in P.
    destruct (unsafe_url ip urls (dial ++ "://" ++ rest)%string strict) as [u'|] eqn:UU; cbn [rbind] in P;
      [|discriminate]. injection P; intros; subst u'.
    assert (XX := UU). unfold unsafe_url in XX.
    destruct (urlsplit ip (dial ++ "://" ++ rest)) as [inp|] eqn:EI; cbn [rbind] in XX; [|discriminate].
    clear XX. destruct (urlsplit_after_slashes ip dial rest inp SO4 SO5 EI) as [SI AI].
    apply (CU _ inp EI SI AI); auto.
    (* the query text is that of the request *)
    assert (QE : u_query inp = u_query s).
    { rewrite SO3 in E. clear -E EI SO1 SO4.
      assert (G : forall sch t, scheme_ok sch = true -> urlsplit ip (sch ++ "://" ++ rest) = Ok t ->
        exists n uu mid f1 f2, split_netloc (drop_unsafe rest) = (n, uu)
          /\ partition "#" uu = (mid, f1, u_fragment t) /\ partition "?" mid = (u_path t, f2, u_query t)).
      { intros sch t S H. unfold urlsplit in H. rewrite lstrip_scheme in H by auto.
        assert (DA : forall a b, drop_unsafe (a ++ b)%string = (drop_unsafe a ++ drop_unsafe b)%string).
        { induction a as [|c a IH]; cbn; intros; auto. destruct (unsafe_byte c); cbn; rewrite IH; auto. }
        rewrite DA, (drop_clean sch (scheme_clean _ S)) in H.
        change (drop_unsafe ("://" ++ rest)) with (String ":" (String "/" (String "/" (drop_unsafe rest)))) in H.
        rewrite partition_hit in H by (apply scheme_no; auto). rewrite S in H. cbn [andb] in H.
        destruct (split_netloc (drop_unsafe rest)) as [n uu] eqn:SN.
        destruct (check_brackets ip n) as [[]|]; cbn [rbind] in H; [|discriminate].
        destruct (partition "#" uu) as [[mid f1] fr] eqn:P1.
        destruct (partition "?" mid) as [[pa f2] q] eqn:P2.
        destruct (is_ascii n); [|discriminate]. injection H; intros; subst t. cbn. eauto 10. }
      destruct (G _ _ SO1 E) as (n & uu & mid & f1 & f2 & G1 & G2 & G3).
      destruct (G _ _ SO4 EI) as (n' & uu' & mid' & f1' & f2' & G1' & G2' & G3').
      congruence. }
    rewrite QE. exact Q.
  - destruct (String.eqb method "schema"); [|discriminate].
    unfold paths_of in P. rewrite (pd_paths _ _ _ _ _ D) in P. cbn [rbind] in P.
    destruct (pop_last (seg_vals (u_path s))) as [[rst subj]|] eqn:PL; cbn [rbind] in P; [|discriminate].
    assert (DS : dialect_or_scheme d = Ok dial).
    { unfold dialect_or_scheme. rewrite (pd_dialect _ _ _ _ _ D). destruct ID as [<-|[<-|[]]]; reflexivity. }
    rewrite DS in P. cbn [rbind] in P.
    destruct (rmap as_text rst) as [rs|] eqn:RM; cbn [rbind] in P; [|discriminate].
    unfold unparse, text in P.
    rewrite (pd_netloc _ _ _ _ _ D), (pd_params _ _ _ _ _ D), (pd_query _ _ _ _ _ D), (pd_fragment _ _ _ _ _ D) in P.
    cbn [rbind nonempty fst snd] in P.
    match type of P with context [unsafe_url ip urls ?X strict] => set (conn := X) in * end.
    destruct (unsafe_url ip urls conn strict) as [u'|] eqn:UU; cbn [rbind] in P; [|discriminate].
    injection P; intros; subst u'.
    (* the remaining segments are texts of the path *)
    assert (RS : Forall (fun x => In x (segments (u_path s))) rs).
    { unfold pop_last in PL. destruct (rev (seg_vals (u_path s))) as [|y r] eqn:RV; [discriminate|].
      injection PL; intros; subst rst subj.
      assert (IN : forall v, In v (rev r) -> exists t, v = PStr t /\ In t (segments (u_path s))).
      { intros v Hv. assert (Hv' : In v (seg_vals (u_path s))).
        { apply in_rev. rewrite RV. right. apply in_rev. exact Hv. }
        unfold seg_vals in Hv'. apply in_map_iff in Hv' as (t & <- & Ht). eauto. }
      clear -RM IN. revert rs RM. induction (rev r) as [|v vs IH]; intros rs RM; cbn in RM.
      - injection RM; intros; subst. constructor.
      - destruct (IN v (or_introl eq_refl)) as (t & -> & It). cbn in RM.
        destruct (rmap as_text vs) as [ys|] eqn:R2; [|discriminate]. injection RM; intros; subst rs.
        constructor; auto. apply IH; auto. intros w Hw. apply IN. right. exact Hw. }
    assert (JA : forall q : ascii -> bool, q "/"%char = true -> all_chars q (u_path s) = true ->
                 all_chars q (join "/" rs) = true).
    { intros q Hq A. apply join_all; [cbn; rewrite Hq; reflexivity|].
      eapply Forall_impl; [|exact RS]. intros x Hx. apply (segments_in q _ _ Hx A). }
    destruct (resplit ip dial (u_netloc s) (join "/" rs) (u_query s) (u_fragment s)) as (p' & RE & PE); auto;
      try apply W.
    + rewrite NE. discriminate.
    + apply has_no, JA; [reflexivity|]. apply has_all, (ws_path_hash _ _ W).
    + apply has_no, JA; [reflexivity|]. apply has_all, (ws_path_quest _ _ W).
    + apply JA; [reflexivity|]. apply (ws_path_clean _ _ W).
    + unfold fix_slashes in RE. rewrite NE, (ws_brackets _ _ W) in RE. cbn [rbind] in RE.
      apply (CU conn _ RE eq_refl).
      * cbn. destruct PE as [->|[X _]]; [|rewrite X in NE; discriminate].
        unfold abs_path. destruct (join "/" rs) as [|c j]; [left; reflexivity|right].
        cbn [nonempty andb]. destruct (starts_slash (String c j)) eqn:SS; auto.
      * exact Q.
      * exact UU.
Qed.

(** *** C59: BigQuery ls *)
Theorem bigquery_ls_fails : forall ip my urls url strict s,
  urlsplit ip url = Ok s -> u_scheme s = "bigquery" -> plain_query (u_query s) ->
  (forall x t, In x urls -> urlsplit ip x = Ok t -> plain_query (u_query t)) ->
  exists e, request ip my urls "ls" url strict = Err e.
Proof.
  intros ip my urls url strict s E S Q QC. unfold request, parse_url.
  destruct (url_to_dict ip url) as [d0|e] eqn:D0; cbn [rbind]; [|eauto].
  destruct (url_dict_port _ _ _ _ E D0) as [p Pp].
  destruct (url_to_dict_plain ip url s p E Pp Q) as (d & D1 & D); try (rewrite S; reflexivity).
  rewrite D0 in D1. injection D1; intros; subst d0. clear D1.
  unfold client_of at 1, text. rewrite (pd_scheme _ _ _ _ _ D), S.
  cbn [rbind dget clients String.eqb Ascii.eqb Bool.eqb].
  unfold client_parse, dmem. rewrite (pd_method _ _ _ _ _ D). unfold bigquery_parse.
  rewrite (pd_paths _ _ _ _ _ D). cbn [String.eqb Ascii.eqb Bool.eqb orb rbind fst snd].
  destruct (unsafe_url ip urls "bigquery://" strict) as [u|e] eqn:U; cbn [rbind fst snd]; [|eauto].
  destruct (final_scheme ip urls "bigquery://" (mkSplit "bigquery" "" "" "" "") strict u) as (f & Ef & Sf & Qf & _ & Pf); auto.
  { discriminate. }
  { intros k _ []. }
  unfold create_client.
  destruct (url_to_dict ip u) as [df|e] eqn:Df; cbn [rbind]; [|eauto].
  destruct (url_to_dict_plain ip u f None Ef Pf Qf) as (d2 & D2 & D2'); try (rewrite Sf; reflexivity).
  rewrite Df in D2. injection D2; intros; subst df.
  unfold client_of, text. rewrite (pd_scheme _ _ _ _ _ D2'), Sf.
  cbn [rbind dget clients String.eqb Ascii.eqb Bool.eqb create_args arity u_scheme].
  destruct (seg_vals (u_path s)) as [|x [|y [|z l]]]; cbn; eauto.
Qed.

(** *** requests for relational URLs reach the connector *)
Theorem relational_opens : forall ip my urls method url s u args,
  urlsplit ip url = Ok s -> nonempty (u_netloc s) = true -> hostname (u_netloc s) <> None ->
  In (u_scheme s) ["postgresql"; "mysql"; "snowflake"] ->
  plain_query (u_query s) ->
  (forall x t, In x urls -> urlsplit ip x = Ok t -> plain_query (u_query t)) ->
  parse_url ip urls method url true = Ok (u, args) ->
  exists c kw, request ip my urls method url true = Ok (c, kw, args)
    /\ dget (u_scheme s) clients = Some c.
Proof.
  intros ip my urls method url s u args E NE HN R Q QC H.
  pose proof (urlsplit_well _ _ _ E) as W.
  unfold request. rewrite H. cbn [rbind fst snd].
  assert (PP : exists p, port (u_netloc s) = Ok p).
  { unfold parse_url in H. destruct (url_to_dict ip url) as [d0|] eqn:D0; cbn [rbind] in H; [|discriminate].
    exact (url_dict_port _ _ _ _ E D0). }
  destruct PP as [p P]. rewrite (parse_url_relational _ _ _ _ _ _ _ E P Q R) in H.
  destruct (relational_parse method s) as [[conn a]|] eqn:RP; cbn [rbind fst snd] in H; [|discriminate].
  destruct (unsafe_url ip urls conn true) as [u'|] eqn:UU; cbn [rbind] in H; [|discriminate].
  injection H; intros; subst u' a. clear H.
  assert (CA : conn = conn_url s /\
     (u_scheme s = "mysql" -> method = "ls" /\ List.length args = 1 \/ method = "schema" /\ List.length args = 2) /\
     (u_scheme s <> "mysql" -> method = "ls" /\ List.length args = 2 \/ method = "schema" /\ List.length args = 3)).
  { unfold relational_parse in RP. destruct (String.eqb_spec (u_scheme s) "mysql") as [Em|Em].
    - destruct (String.eqb_spec method "ls").
      + injection RP; intros; subst. repeat split; try congruence. left. split; auto.
        destruct (segments (u_path s)) as [|x1 [|x2 l]]; reflexivity.
      + destruct (String.eqb_spec method "schema"); cbn [andb] in RP; [|discriminate].
        destruct (segments (u_path s)) as [|x1 [|x2 l]]; cbn in RP; try discriminate.
        injection RP; intros; subst. repeat split; try congruence. right. auto.
    - destruct (String.eqb_spec method "ls"); cbn [andb] in RP.
      + subst method. destruct (segments (u_path s)) as [|x1 [|x2 [|x3 l]]]; cbn in RP; try discriminate;
          injection RP; intros; subst; repeat split; try congruence; left; auto.
      + destruct (String.eqb_spec method "schema"); cbn [andb] in RP; [|discriminate].
        destruct (segments (u_path s)) as [|x1 [|x2 [|x3 l]]]; cbn in RP; try discriminate.
        injection RP; intros; subst. repeat split; try congruence. right. auto. }
  destruct CA as (-> & CA1 & CA2).
  pose proof (conn_url_split ip s W R NE) as CS.
  destruct (final_scheme ip urls _ _ true u CS) as (f & Ef & Sf & Qf & Hf & Pf); auto.
  { cbn. apply (relational_facts _ _ W R). }
  { cbn. destruct (nonempty (first_seg (u_path s))); auto. }
  cbn [u_scheme u_netloc] in *.
  destruct (relational_facts _ _ W R) as (_ & _ & _ & R4 & R5).
  destruct (url_to_dict_plain ip u f p Ef) as (d & DE & D); auto; try (rewrite Sf; auto).
  { congruence. }
  unfold create_client. rewrite DE. cbn [rbind]. unfold client_of, text.
  rewrite (pd_scheme _ _ _ _ _ D), Sf. cbn [rbind].
  destruct R as [X|[X|[X|[]]]]; rewrite <- X in *; cbn [dget clients String.eqb Ascii.eqb Bool.eqb rbind create_args arity].
  - eexists _, _. split; [|reflexivity].
    destruct (CA2 ltac:(discriminate)) as [[-> L]|[-> L]]; rewrite L; reflexivity.
  - eexists _, _. split; [|reflexivity].
    destruct (CA1 eq_refl) as [[-> L]|[-> L]]; rewrite L; reflexivity.
  - rewrite (pd_host _ _ _ _ _ D), Hf. destruct (hostname (u_netloc s)); [|congruence].
    cbn [option_map rbind].
    eexists _, _. split; [|reflexivity].
    destruct (CA2 ltac:(discriminate)) as [[-> L]|[-> L]]; rewrite L; reflexivity.
Qed.
