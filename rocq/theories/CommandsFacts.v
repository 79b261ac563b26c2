(** Files, registry subjects and media types (proofs only). *)
From Coq Require Import String Ascii List NArith ZArith Bool Lia.
From Verif Require Import PyVal PyValFacts Regex Quote Url SpecUrl UrlFacts Settings Clients Commands SpecCommands.
Import ListNotations.
Open Scope nat_scope.
Open Scope string_scope.
Open Scope list_scope.

(** *** Kinds *)
Lemma ext_no_dot : forall k e, In e (extensions k) -> has "." e = false /\ e <> "".
Proof.
  intros k e I.
  assert (F : forallb (fun e => negb (has "." e) && nonempty e)%bool (extensions k) = true) by (destruct k; reflexivity).
  rewrite forallb_forall in F. apply F in I. apply andb_prop in I as [A B].
  apply negb_true_iff in A. split; auto. intros ->. discriminate.
Qed.

Lemma lower_dot e : has "." (lower e) = has "." e.
Proof. apply lower_has. intros [[] [] [] [] [] [] [] []]; reflexivity. Qed.

Lemma lstrip_no_dot s : has "." s = false -> lstrip_dots s = s.
Proof.
  destruct s as [|c s]; auto. intros H. cbn in H. apply orb_false_elim in H as [H _].
  destruct c as [[] [] [] [] [] [] [] []]; try reflexivity. discriminate.
Qed.
Lemma rstrip_no_dot s : has "." s = false -> rstrip_dots s = s.
Proof.
  induction s as [|c s IH]; auto. intros H. cbn in *. apply orb_false_elim in H as [H1 H2].
  rewrite IH by auto. destruct s; auto. now rewrite H1.
Qed.

Lemma file_kind_ext p stem ext : path_name p = (stem ++ "." ++ ext)%string -> stem <> "" -> ext <> "" -> has "." ext = false ->
  file_kind p = if str_in (lower ext) (extensions KAvro) then Ok KAvro
                else if str_in (lower ext) (extensions KJson) then Ok KJson
                else if str_in (lower ext) (extensions KProtobuf) then Ok KProtobuf else Err ValueError.
Proof.
  intros E S X D. unfold file_kind, path_suffix. rewrite E.
  change ("." ++ ext)%string with (String "." ext). rewrite rpartition_hit by auto.
  destruct stem; [congruence|]. destruct ext as [|c e]; [congruence|]. cbn [nonempty andb].
  change (lower ("." ++ String c e)) with (String "." (lower (String c e))).
  change (lstrip_dots (String "." (lower (String c e)))) with (lstrip_dots (lower (String c e))).
  rewrite lstrip_no_dot by (now rewrite lower_dot). rewrite rstrip_no_dot by (now rewrite lower_dot). reflexivity.
Qed.

Lemma str_in_In s l : str_in s l = true <-> In s l.
Proof.
  unfold str_in. rewrite existsb_exists. split.
  - intros (x & I & E). apply String.eqb_eq in E. now subst.
  - intros I. exists s. split; auto. apply String.eqb_refl.
Qed.

Theorem file_kind_iff p k : file_kind p = Ok k <-> file_of_kind k p.
Proof.
  split.
  - intros H. assert (H' := H). unfold file_kind, path_suffix in H'.
    destruct (rpartition "." (path_name p)) as [[b f] a] eqn:R.
    pose proof (rpartition_spec _ _ _ _ _ R) as [D E].
    destruct f; [|discriminate H']. destruct b as [|c b]; [discriminate H'|]. destruct a as [|x a]; [discriminate H'|].
    assert (P : path_name p = (String c b ++ "." ++ String x a)%string) by exact E.
    clear H' R E. exists (String c b), (String x a). split; auto. split; [discriminate|].
    rewrite (file_kind_ext _ _ _ P) in H by (auto; discriminate).
    destruct (str_in (lower (String x a)) (extensions KAvro)) eqn:E1;
      [injection H as <-; now apply str_in_In|].
    destruct (str_in (lower (String x a)) (extensions KJson)) eqn:E2;
      [injection H as <-; now apply str_in_In|].
    destruct (str_in (lower (String x a)) (extensions KProtobuf)) eqn:E3; [|discriminate].
    injection H as <-. now apply str_in_In.
  - intros (stem & ext & P & S & I). destruct (ext_no_dot _ _ I) as [D N].
    rewrite lower_dot in D. assert (X : ext <> "") by (intros ->; now apply N).
    rewrite (file_kind_ext _ _ _ P S X D).
    assert (U : forall k', str_in (lower ext) (extensions k') = true -> k' = k).
    { intros k' I'. apply str_in_In in I'.
      destruct k, k'; auto; exfalso; cbn in I, I';
        repeat match goal with H : _ \/ _ |- _ => destruct H end; try contradiction; congruence. }
    destruct (str_in (lower ext) (extensions KAvro)) eqn:E1; [now rewrite (U KAvro E1)|].
    destruct (str_in (lower ext) (extensions KJson)) eqn:E2; [now rewrite (U KJson E2)|].
    destruct (str_in (lower ext) (extensions KProtobuf)) eqn:E3; [now rewrite (U KProtobuf E3)|].
    apply str_in_In in I. destruct k; congruence.
Qed.

Theorem file_kind_other p : (forall k, ~ file_of_kind k p) -> file_kind p = Err ValueError.
Proof.
  intros N. destruct (file_kind p) as [k|e] eqn:E.
  - apply file_kind_iff in E. now apply N in E.
  - unfold file_kind in E.
    repeat match type of E with (if ?b then _ else _) = _ => destruct b; [discriminate|] end. congruence.
Qed.

(** *** Paths *)
Lemma split_snoc c s : split c (s ++ String c "") = split c s ++ [""].
Proof.
  induction s as [|d s IH]; cbn.
  - now rewrite Ascii.eqb_refl.
  - destruct (Ascii.eqb d c); rewrite IH; [reflexivity|].
    destruct (split c s) as [|x xs] eqn:E; [|reflexivity].
    exfalso. clear IH. destruct s; cbn in E; [discriminate|].
    destruct (Ascii.eqb a c); [discriminate|]. destruct (split c s); discriminate.
Qed.
Lemma parts_slash p : path_parts (p ++ "/") = path_parts p.
Proof. unfold path_parts. change "/"%string with (String "/" ""). rewrite split_snoc, filter_app. cbn. apply app_nil_r. Qed.
Lemma kind_slash p : file_kind (p ++ "/") = file_kind p.
Proof. unfold file_kind, path_suffix, path_name. now rewrite parts_slash. Qed.

Lemma posix_slash p : starts_slash p = true -> starts_slashes p = false -> p <> "/" -> as_posix (p ++ "/") = as_posix p.
Proof.
  intros A B N. unfold as_posix. rewrite parts_slash.
  replace (path_root (p ++ "/")) with (path_root p); auto.
  apply starts_slash_inv in A as [r ->]. destruct r as [|c r]; [congruence|].
  change (starts_slashes (String "/" (String c r))) with (starts_slash (String c r)) in B.
  rewrite starts_slash_cons in B.
  destruct c as [[] [] [] [] [] [] [] []]; reflexivity || discriminate.
Qed.

Lemma urlsplit_path ip p : plain_path p -> urlsplit ip p = Ok (mkSplit "" "" p "" "").
Proof.
  intros (A & B & H & Q & C).
  assert (S : forall b f a, partition ":" p = (b, f, a) -> (f && scheme_ok b)%bool = false).
  { apply starts_slash_inv in A as [r ->]. cbn. intros b f a P.
    destruct (partition ":" r) as [[b' f'] a']. injection P as <- <- <-. cbn. now rewrite andb_false_r. }
  assert (L : lstrip_controls p = p) by (apply starts_slash_inv in A as [r ->]; reflexivity).
  unfold urlsplit. rewrite L, drop_clean by auto.
  destruct (partition ":" p) as [[b f] a]. rewrite (S b f a eq_refl).
  rewrite net_path_eq. unfold net_path. rewrite B. cbn [rbind].
  rewrite partition_miss by auto. rewrite partition_miss by auto. reflexivity.
Qed.
Lemma urlsplit_file ip p : plain_path p -> urlsplit ip ("file://" ++ p) = Ok (mkSplit "file" "" p "" "").
Proof.
  intros (A & B & H & Q & C).
  pose proof (urlsplit_build ip "file" "" p "" "" eq_refl eq_refl eq_refl eq_refl eq_refl (or_intror A) H Q C eq_refl eq_refl eq_refl) as E.
  change (tail "" "") with "" in E. rewrite app_nil_r' in E. exact E.
Qed.

(** *** Requests *)
Section R.
  Variables (ip : string -> bool) (margs : list string).

  Lemma connection urls strict : In (urls, strict) files_allowed -> exists u, unsafe_url ip urls "file://" strict = Ok u
    /\ create_client ip margs u = Ok (Filesystem, [("scheme", PStr "file")]).
  Proof.
    intros I. cbn in I. repeat destruct I as [I|I]; try contradiction; injection I as <- <-; eexists; split; reflexivity.
  Qed.

  Lemma dict_entries url s d : url_to_dict ip url = Ok d -> urlsplit ip url = Ok s -> has "+" (u_scheme s) = false -> u_query s = "" ->
    dget "url" d = Some (PStr url) /\ dget "scheme" d = Some (PStr (u_scheme s)) /\ dget "_" d = None.
  Proof.
    intros H U P Q. unfold url_to_dict in H. rewrite U in H. cbn [rbind] in H. rewrite Q in H.
    destruct (if (str_in (u_scheme s) uses_params && has ";" (u_path s))%bool then split_params (u_path s) else (u_path s, "")) as [path params].
    destruct (port (u_netloc s)); [|discriminate]. cbn [rbind] in H. rewrite P in H. cbn [rbind] in H.
    destruct (username (u_netloc s)) as [[|? ?]|], (hostname (u_netloc s)) as [[|? ?]|]; injection H; intros <-; repeat split.
  Qed.

  Theorem file_request p u urls strict method : plain_path p -> u = p \/ u = ("file://" ++ p)%string ->
    In (urls, strict) files_allowed ->
    request ip margs urls method u strict = Ok (Filesystem, [("scheme", PStr "file")], [PStr (p ++ "/")]).
  Proof.
    intros P U I. destruct (connection urls strict I) as (c & C1 & C2).
    assert (K : exists s, urlsplit ip u = Ok s /\ u_netloc s = "" /\ u_path s = p /\ u_query s = ""
      /\ (u_scheme s = "" \/ u_scheme s = "file")).
    { destruct U as [-> | ->]; [rewrite urlsplit_path by auto|rewrite urlsplit_file by auto]; eexists; split; try reflexivity; cbn; auto. }
    destruct K as (s & K & N & Pa & Q & S).
    assert (D : exists d, url_to_dict ip u = Ok d).
    { unfold url_to_dict. rewrite K. cbn [rbind]. rewrite Pa, N, Q.
      destruct (if (str_in (u_scheme s) uses_params && has ";" p)%bool then split_params p else (p, "")) as [path params].
      destruct S as [-> | ->]; cbn; eauto. }
    destruct D as [d D].
    destruct (dict_entries _ _ _ D K) as (D1 & D2 & D3); auto.
    { destruct S as [-> | ->]; reflexivity. }
    unfold request, parse_url. rewrite D. cbn [rbind].
    assert (CO : client_of d = Ok Filesystem).
    { unfold client_of, text. rewrite D2. destruct S as [-> | ->]; reflexivity. }
    rewrite CO. cbn [rbind client_parse]. unfold dmem. rewrite D3. unfold fs_parse, text. rewrite D1. cbn [rbind].
    rewrite K. cbn [rbind]. rewrite N, Pa. cbn [nonempty].
    destruct P as (A & _). apply starts_slash_inv in A as [r ->].
    assert (R : ((if nonempty (u_scheme s) then u_scheme s else "file") ++ "://")%string = "file://").
    { destruct S as [-> | ->]; reflexivity. }
    rewrite R. cbn [fst snd]. rewrite C1. cbn [rbind fst snd]. rewrite C2. reflexivity.
  Qed.
  (** A host in the URL becomes the first directory of the path. *)
  Theorem file_host_request loc p urls strict method : plain_path p ->
    no_end loc = true -> is_ascii loc = true -> clean loc = true -> check_brackets ip loc = Ok tt ->
    (exists n, port loc = Ok n) -> nonempty loc = true ->
    In (urls, strict) files_allowed ->
    request ip margs urls method ("file://" ++ loc ++ p) strict
      = Ok (Filesystem, [("scheme", PStr "file")], [PStr ("/" ++ loc ++ p ++ "/")]).
  Proof.
    intros (A & B & H & Q & C) N1 N2 N3 N4 [n Pn] NE I. destruct (connection urls strict I) as (c & C1 & C2).
    set (u := ("file://" ++ loc ++ p)%string).
    assert (K : urlsplit ip u = Ok (mkSplit "file" loc p "" "")).
    { pose proof (urlsplit_build ip "file" loc p "" "" eq_refl eq_refl N1 N2 N3 (or_intror A) H Q C eq_refl eq_refl eq_refl) as E.
      change (tail "" "") with "" in E. rewrite app_nil_r' in E. rewrite N4 in E. exact E. }
    assert (D : exists d, url_to_dict ip u = Ok d).
    { unfold url_to_dict. rewrite K. cbn [rbind u_scheme u_path u_netloc u_query].
      destruct (if (str_in "file" uses_params && has ";" p)%bool then split_params p else (p, "")) as [path params].
      rewrite Pn. cbn. destruct (username loc) as [[|? ?]|], (hostname loc) as [[|? ?]|]; cbn; eauto. }
    destruct D as [d D].
    destruct (dict_entries _ _ _ D K) as (D1 & D2 & D3); auto.
    unfold request, parse_url. rewrite D. cbn [rbind].
    assert (CO : client_of d = Ok Filesystem).
    { unfold client_of, text. rewrite D2. reflexivity. }
    rewrite CO. cbn [rbind client_parse]. unfold dmem. rewrite D3. unfold fs_parse, text. rewrite D1. cbn [rbind].
    rewrite K. cbn [rbind u_netloc u_path u_scheme]. rewrite NE.
    apply starts_slash_inv in A as [r ->].
    change (nonempty "file") with true. cbv iota. change ("file" ++ "://")%string with "file://".
    cbn [fst snd]. rewrite C1. cbn [rbind fst snd]. rewrite C2. cbn [rbind fst snd nonempty].
    cbn. rewrite ?app_assoc'. reflexivity.
  Qed.
End R.

(** *** Subjects *)
Lemma ends_iff p s : ends_with p s = true <-> exists a, s = (a ++ p)%string.
Proof.
  induction s as [|c s IH].
  - change (ends_with p "") with (String.eqb "" p || false)%bool. rewrite orb_false_r, String.eqb_eq.
    split; [intros <-; now exists ""|]. intros [[|? ?] E]; [exact E|discriminate].
  - change (ends_with p (String c s)) with (String.eqb (String c s) p || ends_with p s)%bool.
    rewrite orb_true_iff, String.eqb_eq, IH. split.
    + intros [<-|[a ->]]; [now exists ""|now exists (String c a)].
    + intros [[|d a] E]; [left; exact E|]. injection E as -> ->. right. now exists a.
Qed.

Lemma subject_named s : kv_subject s -> subject_name s = s.
Proof.
  intros [a H]. unfold subject_name.
  assert (E : (ends_with "-key" s || ends_with "-value" s)%bool = true).
  { apply orb_true_iff. destruct H as [H|H]; [left|right]; apply ends_iff; eauto. }
  now rewrite E.
Qed.
Lemma subject_topic s : ~ kv_subject s -> subject_name s = (s ++ "-value")%string.
Proof.
  intros N. unfold subject_name.
  destruct (ends_with "-key" s) eqn:E1; [exfalso; apply N; apply ends_iff in E1 as [a E]; exists a; auto|].
  destruct (ends_with "-value" s) eqn:E2; [exfalso; apply N; apply ends_iff in E2 as [a E]; exists a; auto|]. reflexivity.
Qed.
Lemma app_self (s t : string) : (s ++ t)%string = s -> t = "".
Proof. induction s; cbn; auto. intros H. injection H; auto. Qed.

Lemma registry_kind S s k text : dget (subject_name s) S = Some (schema_type k, text) -> registry_schema S s = Ok (k, text).
Proof. intros H. unfold registry_schema. rewrite H. destruct k; reflexivity. Qed.
Lemma registry_unknown S s : dget (subject_name s) S = None -> registry_schema S s = Err KeyError.
Proof. intros H. unfold registry_schema. now rewrite H. Qed.
Lemma registry_type S s k text : registry_schema S s = Ok (k, text) -> dget (subject_name s) S = Some (schema_type k, text).
Proof.
  unfold registry_schema. destruct (dget (subject_name s) S) as [[ty v]|]; [|discriminate].
  destruct (String.eqb_spec ty "AVRO"); [intros H; injection H as <- <-; now subst|].
  destruct (String.eqb_spec ty "JSON"); [intros H; injection H as <- <-; now subst|].
  destruct (String.eqb_spec ty "PROTOBUF"); [intros H; injection H as <- <-; now subst|]. discriminate.
Qed.

(** *** Media types *)
Lemma format_known ct f : In (ct, f) media_types -> requested_format (Some ct) = Ok f.
Proof. intros I. cbn in I. repeat destruct I as [I|I]; try contradiction; injection I as <- <-; reflexivity. Qed.
Lemma format_other ct : ct <> "" -> (forall f, ~ In (ct, f) media_types) -> requested_format (Some ct) = Err (HTTPError 415).
Proof.
  intros N H. unfold requested_format. destruct ct as [|c r]; [congruence|].
  destruct (dget (String c r) format_map) as [f|] eqn:E; auto. exfalso. apply (H f).
  unfold format_map in E. cbn [dget] in E.
  repeat match type of E with (if String.eqb ?a ?b then _ else _) = _ => destruct (String.eqb_spec a b) as [->|]; [injection E as <-; cbn; auto|] end.
  discriminate.
Qed.
