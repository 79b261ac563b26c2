(** The settings properties: sanitised URLs, strict matching, and the round trip between them. *)
From Coq Require Import String Ascii List NArith ZArith Bool Lia.
From Verif Require Import PyVal PyValFacts Quote QuoteFacts Url Settings SpecUrl UrlFacts
  SettingsFacts.
Import ListNotations.
Open Scope nat_scope.
Open Scope string_scope.
Open Scope list_scope.

Lemma partition_all : forall p c s b f a, partition c s = (b, f, a) -> all_chars p s = true ->
  all_chars p b = true /\ all_chars p a = true.
Proof.
  intros p c s b f a P C. apply partition_spec in P as [_ P]. destruct f.
  - subst. rewrite all_app in C. cbn in C. apply andb_prop in C as [C1 C].
    apply andb_prop in C as [_ C]. auto.
  - destruct P as [-> ->]. auto.
Qed.
Lemma hostpart_all : forall p n, all_chars p n = true -> all_chars p (hostpart n) = true.
Proof.
  intros p n H. unfold hostpart. destruct (rpartition "@" n) as [[x y] z] eqn:R.
  apply rpartition_spec in R as [_ R]. destruct y.
  - subst n. rewrite all_app in H. cbn in H. apply andb_prop in H as [_ H].
    apply andb_prop in H as [_ H]. exact H.
  - destruct R as [-> _]. exact H.
Qed.
Lemma hostpart_at : forall n, has "@" (hostpart n) = false.
Proof.
  intros n. unfold hostpart. destruct (rpartition "@" n) as [[x y] z] eqn:R.
  apply rpartition_spec in R as [R _]. exact R.
Qed.
Lemma hostinfo_all : forall p n h t, hostinfo n = (h, t) -> all_chars p (hostpart n) = true ->
  all_chars p h = true.
Proof.
  intros p n h t H A. unfold hostinfo in H.
  destruct (partition "[" (hostpart n)) as [[x o] br] eqn:P.
  destruct (partition_all _ _ _ _ _ _ P A) as [_ Abr]. destruct o.
  - destruct (partition "]" br) as [[h' b] r] eqn:Q.
    destruct (partition ":" r) as [[y b'] z] eqn:R.
    injection H; intros; subst. apply (partition_all _ _ _ _ _ _ Q Abr).
  - destruct (partition ":" (hostpart n)) as [[h' b] r] eqn:R.
    injection H; intros; subst. apply (partition_all _ _ _ _ _ _ R A).
Qed.

(** Characters of the sanitised network location. *)
Lemma safe_netloc_all : forall (p : ascii -> bool) n n',
  (forall c, p c = true -> p (lower_char c) = true) -> p ":"%char = true ->
  (forall c, is_digit c = true -> p c = true) ->
  has_credentials n = true -> hostname n <> None -> safe_netloc n = Ok n' ->
  all_chars p (hostpart n) = true -> all_chars p n' = true.
Proof.
  intros p n n' L C D HC HN E A. unfold safe_netloc in E. rewrite HC in E.
  destruct (hostname n) as [g|] eqn:HG; [|congruence].
  destruct (port n) as [q|]; cbn [rbind] in E; [|discriminate].
  assert (G : all_chars p g = true).
  { unfold hostname in HG. destruct (hostinfo n) as [h t] eqn:HI.
    destruct (nonempty h); [|discriminate]. injection HG; intros; subst g.
    apply lower_host_all; auto. eapply hostinfo_all; eauto. }
  destruct q as [k|]; injection E; intros; subst n'; auto.
  rewrite all_app, G. change (":" ++ dec_N k)%string with (String ":" (dec_N k)).
  cbn [all_chars andb]. rewrite C. cbn [andb].
  eapply all_weaken; [exact D|apply dec_N_spec].
Qed.
Lemma safe_netloc_nonempty : forall n n', has_credentials n = true -> hostname n <> None ->
  safe_netloc n = Ok n' -> nonempty n' = true.
Proof.
  intros n n' HC HN E. unfold safe_netloc in E. rewrite HC in E.
  destruct (hostname n) as [g|] eqn:HG; [|congruence].
  destruct (port n) as [q|]; cbn [rbind] in E; [|discriminate].
  assert (G : nonempty g = true).
  { unfold hostname in HG. destruct (hostinfo n) as [h t]. destruct (nonempty h) eqn:NE; [|discriminate].
    injection HG; intros; subst g. rewrite lower_host_nonempty. exact NE. }
  destruct q as [k|]; injection E; intros; subst n'; auto.
  destruct g; [discriminate|reflexivity].
Qed.

Lemma no_at : forall c, negb (Ascii.eqb c "@") = true -> negb (Ascii.eqb (lower_char c) "@") = true.
Proof. intros c H. rewrite eqb_lower_at. exact H. Qed.
Lemma no_end_lower : forall c, negb (netloc_end c) = true -> negb (netloc_end (lower_char c)) = true.
Proof. intros [[] [] [] [] [] [] [] []]; cbv; auto. Qed.
Lemma ascii_lower : forall c, (N_of_ascii c <? 128)%N = true -> (N_of_ascii (lower_char c) <? 128)%N = true.
Proof. intros [[] [] [] [] [] [] [] []]; cbv; auto. Qed.
Lemma clean_lower : forall c, negb (unsafe_byte c) = true -> negb (unsafe_byte (lower_char c)) = true.
Proof. intros [[] [] [] [] [] [] [] []]; cbv; auto. Qed.
Lemma digit_facts : forall c, is_digit c = true ->
  negb (Ascii.eqb c "@") = true /\ negb (netloc_end c) = true /\ (N_of_ascii c <? 128)%N = true
  /\ negb (unsafe_byte c) = true.
Proof. intros [[] [] [] [] [] [] [] []]; cbv; auto; discriminate. Qed.

Lemma well_safe_netloc : forall ip s n', well_split ip s ->
  has_credentials (u_netloc s) = true -> hostname (u_netloc s) <> None ->
  safe_netloc (u_netloc s) = Ok n' ->
  has "@" n' = false /\ no_end n' = true /\ is_ascii n' = true /\ clean n' = true.
Proof.
  intros ip s n' W HC HN E. repeat split.
  - eapply all_has with (p := fun c => negb (Ascii.eqb c "@")).
    + eapply safe_netloc_all; eauto using no_at.
      * intros c D. apply (digit_facts c D).
      * apply has_all, hostpart_at.
    + reflexivity.
  - eapply safe_netloc_all; eauto using no_end_lower.
    + intros c D. apply (digit_facts c D).
    + apply hostpart_all, (ws_netloc _ _ W).
  - eapply safe_netloc_all; eauto using ascii_lower.
    + intros c D. apply (digit_facts c D).
    + apply hostpart_all, (ws_ascii _ _ W).
  - eapply safe_netloc_all; eauto using clean_lower.
    + intros c D. apply (digit_facts c D).
    + apply hostpart_all, (ws_netloc_clean _ _ W).
Qed.

(** *** C27 *)
Theorem safe_no_credentials : forall ip url s out r,
  urlsplit ip url = Ok s -> u_scheme s <> "" -> hostname (u_netloc s) <> None ->
  safe_url ip url = Ok out -> urlsplit ip out = Ok r ->
  opt_text (username (u_netloc r)) = "" /\ opt_text (password (u_netloc r)) = "".
Proof.
  intros ip url s out r E NS HN SU R. unfold safe_url in SU. rewrite E in SU. cbn [rbind] in SU.
  destruct (safe_netloc (u_netloc s)) as [n'|] eqn:SN; cbn [rbind] in SU; [|discriminate].
  injection SU; intros; subst out. clear SU.
  pose proof (urlsplit_well _ _ _ E) as W.
  destruct (ws_scheme _ _ W) as [X|[S1 S2]]; [congruence|].
  assert (NN : nonempty n' = true /\ no_end n' = true /\ is_ascii n' = true /\ clean n' = true
               /\ opt_text (username n') = "" /\ opt_text (password n') = "").
  { destruct (has_credentials (u_netloc s)) eqn:HC.
    - destruct (well_safe_netloc _ _ _ W HC HN SN) as (A & B & C & D).
      split; [eapply safe_netloc_nonempty; eauto|]. repeat split; auto;
        unfold username, password, userinfo; rewrite rpartition_miss by auto; reflexivity.
    - unfold safe_netloc in SN. rewrite HC in SN. injection SN; intros; subst n'.
      split.
      { destruct (u_netloc s); [exfalso; apply HN; reflexivity|reflexivity]. }
      split; [apply (ws_netloc _ _ W)|]. split; [apply (ws_ascii _ _ W)|].
      split; [apply (ws_netloc_clean _ _ W)|].
      unfold has_credentials in HC. apply orb_false_elim in HC as [H1 H2].
      destruct (opt_text (username (u_netloc s))); [|discriminate].
      destruct (opt_text (password (u_netloc s))); [auto|discriminate]. }
  destruct NN as (NE & N1 & N2 & N3 & N4 & N5).
  destruct (resplit ip (u_scheme s) n' (rstrip_slash (u_path s)) (u_query s) (u_fragment s))
    as (p' & RE & _); auto.
  - rewrite NE; discriminate.
  - apply rstrip_has, (ws_path_hash _ _ W).
  - apply rstrip_has, (ws_path_quest _ _ W).
  - apply rstrip_all, (ws_path_clean _ _ W).
  - apply (ws_query_hash _ _ W).
  - apply (ws_query_clean _ _ W).
  - apply (ws_fragment_clean _ _ W).
  - rewrite RE in R. destruct (check_brackets ip n'); cbn [rbind] in R; [|discriminate].
    injection R; intros; subst r. cbn. auto.
Qed.

(** Noninterference: the sanitised URL is the same whatever the credentials are. *)
Lemma has_no : forall c s, all_chars (fun d => negb (Ascii.eqb d c)) s = true -> has c s = false.
Proof.
  intros c s H. apply (all_has _ c s H). cbv beta. rewrite Ascii.eqb_refl. reflexivity.
Qed.

Lemma creds_hostpart : forall a h, has "@" h = false -> hostpart (a ++ "@" ++ h) = h.
Proof. intros a h H. unfold hostpart. cbn [append]. rewrite rpartition_hit; auto. Qed.

Lemma urlsplit_creds : forall ip sch a h rest,
  scheme_ok sch = true -> secret_ok a -> no_end h = true -> clean h = true ->
  at_end rest = true -> clean rest = true ->
  urlsplit ip (sch ++ "://" ++ a ++ "@" ++ h ++ rest) =
  rbind (check_brackets ip h) (fun _ =>
    let '(url, _, fragment) := partition "#" rest in
    let '(path, _, query) := partition "?" url in
    if is_ascii h then Ok (mkSplit (lower sch) (a ++ "@" ++ h) path query fragment)
    else Err Unmodelled).
Proof.
  intros ip sch a h rest S (A1 & A2 & A3 & A4 & A5) H1 H2 R1 R2. unfold urlsplit.
  rewrite lstrip_scheme by auto. rewrite drop_clean.
  2:{ rewrite clean_app, (scheme_clean _ S). cbn [andb append].
      rewrite !clean_cons, clean_app, clean_cons, clean_app, A4, H2, R2. reflexivity. }
  change ("://" ++ a ++ "@" ++ h ++ rest)%string with (String ":" ("//" ++ a ++ "@" ++ h ++ rest)).
  rewrite partition_hit by (apply scheme_no; auto). rewrite S. cbn [andb append].
  replace (a ++ String "@" (h ++ rest))%string with ((a ++ "@" ++ h) ++ rest)%string
    by (rewrite !app_assoc'; cbn [append]; rewrite ?app_assoc'; reflexivity).
  rewrite split_netloc_app; auto.
  2:{ unfold no_end in *. rewrite !all_app, A1, H1. reflexivity. }
  assert (B : check_brackets ip (a ++ "@" ++ h) = check_brackets ip h).
  { unfold check_brackets. cbn [append]. rewrite !has_app, A2, A3. cbn [has orb].
    change (Ascii.eqb "@" "[") with false. change (Ascii.eqb "@" "]") with false. cbn [orb].
    assert (BR : bracketed (a ++ String "@" h) = bracketed h).
    { unfold bracketed.
      assert (PA : forall t, has "[" t = false ->
        (let '(_, _, x) := partition "[" (t ++ h) in x) = (let '(_, _, x) := partition "[" h in x)).
      { induction t as [|c t IH]; cbn [append partition has]; intros Ht; [reflexivity|].
        apply orb_false_elim in Ht as [Ht1 Ht2]. rewrite Ht1. specialize (IH Ht2).
        destruct (partition "[" (t ++ h)) as [[x1 x2] x3]. exact IH. }
      specialize (PA (a ++ "@")%string). rewrite has_app, A2 in PA. specialize (PA eq_refl).
      rewrite app_assoc' in PA. cbn [append] in PA.
      destruct (partition "[" (a ++ String "@" h)) as [[x1 x2] x3].
      destruct (partition "[" h) as [[y1 y2] y3]. subst. reflexivity. }
    rewrite BR. reflexivity. }
  rewrite B. destruct (check_brackets ip h); cbn [rbind]; auto.
  destruct (partition "#" rest) as [[u f1] fr]. destruct (partition "?" u) as [[p f2] q].
  assert (IA : is_ascii (a ++ "@" ++ h) = is_ascii h).
  { unfold is_ascii in *. rewrite !all_app, A5. reflexivity. }
  rewrite IA. reflexivity.
Qed.

Theorem safe_noninterference : forall ip sch a b h rest,
  scheme_ok sch = true -> secret_ok a -> secret_ok b ->
  a <> "" -> a <> ":" -> b <> "" -> b <> ":" ->
  no_end h = true -> clean h = true -> has "@" h = false -> hostname h <> None ->
  at_end rest = true -> clean rest = true ->
  safe_url ip (sch ++ "://" ++ a ++ "@" ++ h ++ rest) =
  safe_url ip (sch ++ "://" ++ b ++ "@" ++ h ++ rest).
Proof.
  intros ip sch a b h rest S A B A1 A2 B1 B2 H1 H2 H3 H4 R1 R2. unfold safe_url.
  rewrite !urlsplit_creds by auto.
  destruct (check_brackets ip h); cbn [rbind]; auto.
  destruct (partition "#" rest) as [[u f1] fr]. destruct (partition "?" u) as [[p f2] q].
  destruct (is_ascii h); cbn [rbind u_netloc u_scheme u_path u_query u_fragment]; auto.
  assert (HC : forall x, x <> "" -> x <> ":" -> has_credentials (x ++ "@" ++ h) = true).
  { intros x X1 X2. unfold has_credentials, username, password, userinfo. cbn [append].
    rewrite rpartition_hit by auto. destruct (partition ":" x) as [[us f] pw] eqn:P.
    apply partition_spec in P as [_ P]. cbn [fst snd opt_text].
    destruct us; [|reflexivity]. destruct f; cbn in P.
    - destruct pw; [congruence|reflexivity].
    - destruct P; congruence. }
  assert (HI : forall x, hostinfo (x ++ "@" ++ h) = hostinfo h).
  { intros x. unfold hostinfo. rewrite creds_hostpart by auto.
    assert (HH : hostpart h = h) by (unfold hostpart; rewrite rpartition_miss; auto).
    rewrite HH. reflexivity. }
  assert (SN : forall x, x <> "" -> x <> ":" -> safe_netloc (x ++ "@" ++ h) =
    rbind (port h) (fun p => Ok (match p with
      | Some k => (opt_text (hostname h) ++ ":" ++ dec_N k)%string
      | None => opt_text (hostname h) end))).
  { intros x X1 X2. unfold safe_netloc. rewrite HC by auto. unfold hostname, port in *.
    rewrite HI. destruct (hostinfo h) as [g t]. destruct (nonempty g); [reflexivity|congruence]. }
  rewrite !SN by auto. reflexivity.
Qed.

(** *** C28 *)
Theorem strict_configured : forall ip urls url inp out,
  (forall c s, In c urls -> urlsplit ip c = Ok s -> u_scheme s <> "") ->
  urlsplit ip url = Ok inp ->
  u_path inp = "" \/ starts_slash (u_path inp) = true ->
  unsafe_url ip urls url true = Ok out ->
  exists c conf res, In c urls /\ urlsplit ip c = Ok conf /\ urlsplit ip out = Ok res
    /\ u_scheme res = u_scheme conf /\ u_netloc res = u_netloc conf
    /\ u_scheme inp = u_scheme conf
    /\ hostname (u_netloc inp) = hostname (u_netloc conf)
    /\ port (u_netloc inp) = port (u_netloc conf).
Proof.
  intros ip urls url inp out HS E Ab H.
  destruct (unsafe_url_inv _ _ _ _ H) as (inp' & c & conf & E' & I & Ec & M & ->).
  rewrite E in E'. injection E'; intros; subst inp'.
  apply url_matches_true in M as (M1 & M2 & (p & M3 & M4) & M5).
  destruct (merged_resplit ip conf inp (urlsplit_well _ _ _ Ec) (urlsplit_well _ _ _ E) M1
              (HS _ _ I Ec) (or_intror Ab)) as (p' & R & _).
  eexists c, conf, _. split; [exact I|]. split; [exact Ec|]. split; [exact R|]. cbn.
  repeat split; congruence.
Qed.

(** *** C29 *)
Lemma split_join : forall c l, l <> [] -> Forall (fun x => has c x = false) l ->
  split c (join (String c "") l) = l.
Proof.
  induction l as [|x l IH]; intros NE H; [congruence|]. inversion H; subst. rewrite join_cons.
  destruct l as [|y l].
  - rewrite app_nil_r'. apply split_plain. auto.
  - change (String c "" ++ join (String c "") (y :: l))%string with (String c (join (String c "") (y :: l))).
    rewrite split_app_sep, IH by (auto; discriminate). rewrite split_plain by auto. reflexivity.
Qed.

Lemma filter_idem : forall A (f : A -> bool) l, filter f (filter f l) = filter f l.
Proof.
  intros A f l. induction l as [|x l IH]; cbn; auto. destruct (f x) eqn:E; auto.
  cbn. rewrite E, IH. reflexivity.
Qed.
Lemma parts_join : forall s, path_parts (join "/" (path_parts s)) = path_parts s.
Proof.
  intros s. pose proof (parts_components s) as C.
  assert (F : filter path_part (path_parts s) = path_parts s) by apply filter_idem.
  destruct (path_parts s) as [|x l] eqn:E; [reflexivity|].
  unfold path_parts at 1. rewrite split_join; auto; [discriminate|].
  eapply Forall_impl; [|exact C]. intros a [_ A]. exact A.
Qed.
Lemma parts_posix : forall s, path_parts (as_posix s) = path_parts s.
Proof.
  intros s. destruct (starts_slash s) eqn:E.
  - rewrite posix_abs by auto. destruct (root_slash s E) as [R|R]; rewrite R; cbn [append];
      rewrite !parts_slash; apply parts_join.
  - unfold as_posix. rewrite (root_relative _ E). cbn [append].
    destruct (nonempty (join "/" (path_parts s))) eqn:N; [apply parts_join|].
    rewrite <- (parts_join s). destruct (join "/" (path_parts s)); [reflexivity|discriminate].
Qed.

Theorem strict_below : forall ip urls url inp out,
  (forall c s, In c urls -> urlsplit ip c = Ok s ->
     u_scheme s <> "" /\ starts_slash (u_path s) = true) ->
  urlsplit ip url = Ok inp -> u_path inp = "" \/ starts_slash (u_path inp) = true ->
  unsafe_url ip urls url true = Ok out ->
  exists c conf res, In c urls /\ urlsplit ip c = Ok conf /\ urlsplit ip out = Ok res
    /\ u_netloc res = u_netloc conf
    /\ path_parts (u_path res) = path_parts (u_path inp)
    /\ forall init last, path_parts (u_path conf) = init ++ [last] ->
       exists x rest, path_parts (u_path inp) = init ++ x :: rest /\ String.prefix last x = true.
Proof.
  intros ip urls url inp out HS E Ab H.
  destruct (unsafe_url_inv _ _ _ _ H) as (inp' & c & conf & E' & I & Ec & M & ->).
  rewrite E in E'. injection E'; intros; subst inp'.
  apply url_matches_true in M as (M1 & M2 & _ & M5). destruct (HS _ _ I Ec) as [HS1 HS2].
  destruct (merged_resplit ip conf inp (urlsplit_well _ _ _ Ec) (urlsplit_well _ _ _ E) M1
              HS1 (or_intror Ab)) as (p' & R & P).
  eexists c, conf, _. split; [exact I|]. split; [exact Ec|]. split; [exact R|].
  split; [reflexivity|]. cbn [u_path]. split.
  - assert (X : path_parts (input_path inp) = path_parts (u_path inp)).
    { unfold input_path. rewrite parts_posix. destruct (nonempty (u_path inp)) eqn:N; auto.
      destruct (u_path inp); [reflexivity|discriminate]. }
    destruct P as [->|[_ ->]].
    + unfold abs_path. destruct (_ && _).
      * cbn [append]. rewrite parts_slash, parts_rstrip. exact X.
      * rewrite parts_rstrip. exact X.
    + cbn [append]. rewrite !parts_slash, parts_rstrip. exact X.
  - intros init last P'. unfold input_path in M5.
    destruct (posix_prefix _ _ init last HS2 P' M5) as (x & rest & Q & R').
    exists x, rest. split; auto. destruct (nonempty (u_path inp)) eqn:NE; auto.
    cbn in Q. destruct init; discriminate.
Qed.

(** *** C30 *)
Lemma path_accepted : forall p p', starts_slash p = true -> starts_slashes p = false ->
  p' = abs_path (rstrip_slash p) \/ p' = ("//" ++ rstrip_slash p)%string ->
  String.prefix (as_posix p) (as_posix (if nonempty p' then p' else "/")) = true.
Proof.
  intros p p' A N P.
  rewrite (posix_abs p A), (root_one p A N). apply prefix_spec.
  destruct (rstrip_abs p A) as [E|E].
  - assert (PP : path_parts p = []) by (rewrite <- (parts_rstrip p), E; reflexivity).
    rewrite PP. rewrite E in P. cbn [join]. destruct P as [->| ->]; cbn.
    + exists "". reflexivity.
    + exists "/". reflexivity.
  - destruct (rstrip_split p) as (t & Ep & _). destruct (starts_slash_inv _ E) as [w Ew].
    rewrite Ew in *.
    assert (PP : path_parts (String "/" w) = path_parts p) by (rewrite <- Ew; apply parts_rstrip).
    assert (Nw : starts_slash w = false).
    { destruct (starts_slash w) eqn:X; auto. destruct (starts_slash_inv _ X) as [v ->].
      rewrite Ep in N. discriminate. }
    exists "". rewrite app_nil_r'. destruct P as [->| ->].
    + unfold abs_path. cbn [nonempty starts_slash negb andb].
      rewrite posix_abs by reflexivity. rewrite PP. rewrite root_one; auto.
    + cbn [append nonempty]. rewrite posix_abs by reflexivity.
      rewrite !parts_slash. rewrite parts_slash in PP. rewrite PP. reflexivity.
Qed.

Theorem listed_accepted : forall ip urls c conf out,
  In c urls ->
  (forall d, In d urls -> exists s p, urlsplit ip d = Ok s /\ port (u_netloc s) = Ok p) ->
  urlsplit ip c = Ok conf -> u_scheme conf <> "" ->
  starts_slash (u_path conf) = true -> starts_slashes (u_path conf) = false ->
  (has_credentials (u_netloc conf) = true ->
     hostname (u_netloc conf) <> None /\ has "[" (hostpart (u_netloc conf)) = false
     /\ has "]" (hostpart (u_netloc conf)) = false) ->
  safe_url ip c = Ok out ->
  exists r, unsafe_url ip urls out true = Ok r.
Proof.
  intros ip urls c conf out I AllOk E NS A1 A2 HC SU.
  unfold safe_url in SU. rewrite E in SU. cbn [rbind] in SU.
  destruct (safe_netloc (u_netloc conf)) as [n'|] eqn:SN; cbn [rbind] in SU; [|discriminate].
  injection SU; intros; subst out. clear SU.
  pose proof (urlsplit_well _ _ _ E) as W.
  destruct (ws_scheme _ _ W) as [X|[S1 S2]]; [congruence|].
  destruct (AllOk _ I) as (s0 & pc & E0 & Pc). rewrite E in E0. injection E0; intros; subst s0.
  assert (NN : hostname n' = hostname (u_netloc conf) /\ port n' = port (u_netloc conf)
     /\ no_end n' = true /\ is_ascii n' = true /\ clean n' = true /\ check_brackets ip n' = Ok tt).
  { destruct (has_credentials (u_netloc conf)) eqn:C.
    - destruct (HC eq_refl) as (H1 & H2 & H3).
      destruct (safe_netloc_host _ _ H2 H1 C SN) as (G1 & G2 & G3 & G4 & G5 & _).
      destruct (well_safe_netloc _ _ _ W C H1 SN) as (_ & B1 & B2 & B3).
      repeat split; auto. unfold check_brackets. rewrite G3, <- G4, H3. reflexivity.
    - unfold safe_netloc in SN. rewrite C in SN. injection SN; intros; subst n'.
      repeat split; auto; apply W. }
  destruct NN as (N1 & N2 & N3 & N4 & N5 & N6).
  destruct (resplit ip (u_scheme conf) n' (rstrip_slash (u_path conf)) (u_query conf) (u_fragment conf))
    as (p' & RE & PE); auto.
  - intros _. apply rstrip_abs. exact A1.
  - apply rstrip_has, (ws_path_hash _ _ W).
  - apply rstrip_has, (ws_path_quest _ _ W).
  - apply rstrip_all, (ws_path_clean _ _ W).
  - apply (ws_query_hash _ _ W).
  - apply (ws_query_clean _ _ W).
  - apply (ws_fragment_clean _ _ W).
  - rewrite N6 in RE. cbn [rbind] in RE. unfold unsafe_url. rewrite RE. cbn [rbind u_path].
    set (inp := mkSplit (u_scheme conf) n' p' (u_query conf) (u_fragment conf)) in *.
    set (path := as_posix (if nonempty p' then p' else "/")).
    assert (M : url_matches conf inp path = Ok true).
    { apply url_matches_true. unfold inp; cbn. rewrite N1, N2. repeat split; auto.
      - exists pc. auto.
      - apply path_accepted; auto. destruct PE as [PE|[_ PE]]; auto. }
    clearbody path. clearbody inp.
    revert I AllOk. induction urls as [|d ds IH]; intros I AllOk; [destruct I|]. cbn [unsafe_loop].
    destruct (AllOk d (or_introl eq_refl)) as (sd & pd & Ed & Pd). rewrite Ed. cbn [rbind].
    destruct (url_matches sd inp path) as [[]|] eqn:Md; cbn [rbind].
    + eauto.
    + destruct I as [->|I].
      * rewrite E in Ed. injection Ed; intros; subst. congruence.
      * apply IH; auto. intros x Hx. apply AllOk. right. exact Hx.
    + exfalso. unfold url_matches in Md.
      destruct (negb _) in Md; [discriminate|]. destruct (negb _) in Md; [discriminate|].
      rewrite Pd in Md. cbn [rbind] in Md.
      apply url_matches_true in M as (_ & _ & (pi & _ & M4) & _). rewrite M4 in Md. discriminate.
Qed.
