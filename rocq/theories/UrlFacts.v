(** Facts about the urllib model: what urlsplit returns, and urlsplit after urlunsplit. *)
From Coq Require Import String Ascii List NArith ZArith Bool Lia.
From Verif Require Import PyVal PyValFacts Quote QuoteFacts Url Settings SpecUrl.
Import ListNotations.
Open Scope nat_scope.
Open Scope string_scope.
Open Scope list_scope.

Lemma app_nil_r' : forall s : string, (s ++ "")%string = s.
Proof. induction s; cbn; congruence. Qed.
Lemma app_assoc' : forall a b c : string, ((a ++ b) ++ c = a ++ b ++ c)%string.
Proof. induction a; cbn; congruence. Qed.

Lemma has_app : forall c a b, has c (a ++ b)%string = has c a || has c b.
Proof. induction a; cbn; intros; auto. rewrite IHa. apply orb_assoc. Qed.
Lemma all_app : forall p a b, all_chars p (a ++ b)%string = all_chars p a && all_chars p b.
Proof. induction a; cbn; intros; auto. rewrite IHa. apply andb_assoc. Qed.

Lemma all_has : forall p c s, all_chars p s = true -> p c = false -> has c s = false.
Proof.
  induction s as [|d s IH]; cbn; auto. intros A B. apply andb_prop in A as [A1 A2].
  rewrite (IH A2 B), orb_false_r. destruct (Ascii.eqb_spec d c); auto. congruence.
Qed.
Lemma has_all : forall c s, has c s = false -> all_chars (fun d => negb (Ascii.eqb d c)) s = true.
Proof.
  induction s; cbn; auto. intros H. apply orb_false_elim in H as [H1 H2]. rewrite H1, IHs; auto.
Qed.
Lemma all_weaken : forall (p q : ascii -> bool) s,
  (forall c, p c = true -> q c = true) -> all_chars p s = true -> all_chars q s = true.
Proof.
  induction s; cbn; auto. intros W H. apply andb_prop in H as [H1 H2].
  rewrite (W _ H1), IHs; auto.
Qed.

Lemma clean_app : forall a b, clean (a ++ b)%string = clean a && clean b.
Proof. intros; apply all_app. Qed.
Lemma clean_cons : forall c s, clean (String c s) = negb (unsafe_byte c) && clean s.
Proof. reflexivity. Qed.

Lemma drop_clean : forall s, clean s = true -> drop_unsafe s = s.
Proof.
  induction s as [|c s IH]; cbn; auto. intros H. apply andb_prop in H as [H1 H2].
  destruct (unsafe_byte c); [discriminate|]. rewrite IH; auto.
Qed.
Lemma clean_drop : forall s, clean (drop_unsafe s) = true.
Proof.
  induction s as [|c s IH]; cbn; auto. destruct (unsafe_byte c) eqn:E; auto.
  cbn. rewrite E. exact IH.
Qed.

(** *** partition *)
Lemma partition_hit : forall c a b, has c a = false ->
  partition c (a ++ String c b) = (a, true, b).
Proof.
  induction a as [|d a IH]; cbn; intros b H.
  - rewrite Ascii.eqb_refl. reflexivity.
  - apply orb_false_elim in H as [H1 H2]. rewrite H1, IH; auto.
Qed.
Lemma partition_miss : forall c a, has c a = false -> partition c a = (a, false, "").
Proof.
  induction a as [|d a IH]; cbn; auto. intros H. apply orb_false_elim in H as [H1 H2].
  rewrite H1, IH; auto.
Qed.
Lemma partition_spec : forall c s b f a, partition c s = (b, f, a) ->
  has c b = false /\ (if f then s = (b ++ String c a)%string else s = b /\ a = "").
Proof.
  induction s as [|d s IH]; cbn; intros b f a H.
  - injection H; intros; subst; auto.
  - destruct (Ascii.eqb_spec d c).
    + injection H; intros; subst; auto.
    + destruct (partition c s) as [[b' f'] a'] eqn:E.
      injection H; intros; subst. destruct (IH _ _ _ eq_refl) as [I1 I2]. split.
      * cbn. rewrite I1. destruct (Ascii.eqb_spec d c); auto; congruence.
      * destruct f; cbn; [congruence|]. destruct I2; split; congruence.
Qed.

Lemma rpartition_spec : forall c s b f a, rpartition c s = (b, f, a) ->
  has c a = false /\ (if f then s = (b ++ String c a)%string else s = a /\ b = "").
Proof.
  induction s as [|d s IH]; cbn; intros b f a H.
  - injection H; intros; subst; auto.
  - destruct (rpartition c s) as [[b' f'] a'] eqn:E. destruct (IH _ _ _ eq_refl) as [I1 I2].
    destruct f'.
    + injection H; intros; subst. cbn. split; auto.
    + destruct I2 as [-> ->]. destruct (Ascii.eqb_spec d c).
      * injection H; intros; subst; auto.
      * injection H; intros; subst. cbn. split; auto.
        rewrite I1. destruct (Ascii.eqb_spec d c); auto; congruence.
Qed.
Lemma rpartition_miss : forall c a, has c a = false -> rpartition c a = ("", false, a).
Proof.
  induction a as [|d a IH]; cbn; auto. intros H. apply orb_false_elim in H as [H1 H2].
  rewrite IH, H1; auto.
Qed.
Lemma rpartition_hit : forall c b a, has c a = false ->
  rpartition c (b ++ String c a) = (b, true, a).
Proof.
  induction b as [|d b IH]; cbn; intros a H.
  - rewrite rpartition_miss, Ascii.eqb_refl; auto.
  - rewrite IH; auto.
Qed.

(** *** split_netloc *)
Lemma split_netloc_app : forall n r, no_end n = true -> at_end r = true ->
  split_netloc (n ++ r) = (n, r).
Proof.
  induction n as [|c n IH]; cbn; intros r H A.
  - destruct r; cbn in *; auto. rewrite A. reflexivity.
  - apply andb_prop in H as [H1 H2]. destruct (netloc_end c); [discriminate|].
    rewrite IH; auto.
Qed.
Lemma split_netloc_spec : forall s n u, split_netloc s = (n, u) ->
  s = (n ++ u)%string /\ no_end n = true /\ at_end u = true.
Proof.
  induction s as [|c s IH]; cbn; intros n u H.
  - injection H; intros; subst; auto.
  - destruct (netloc_end c) eqn:E.
    + injection H; intros; subst. cbn. auto.
    + destruct (split_netloc s) as [n' u'] eqn:F. injection H; intros; subst.
      destruct (IH _ _ eq_refl) as (I1 & I2 & I3). repeat split; auto.
      * cbn. congruence.
      * cbn. rewrite E. exact I2.
Qed.

(** *** letter case *)
Lemma lower_char_idem : forall c, lower_char (lower_char c) = lower_char c.
Proof. intros [[] [] [] [] [] [] [] []]; reflexivity. Qed.
Lemma lower_idem : forall s, lower (lower s) = lower s.
Proof. induction s; cbn; auto. rewrite lower_char_idem, IHs. reflexivity. Qed.
Lemma lower_app : forall a b, lower (a ++ b)%string = (lower a ++ lower b)%string.
Proof. induction a; cbn; intros; congruence. Qed.
Lemma scheme_char_lower : forall c, scheme_char c = true -> scheme_char (lower_char c) = true.
Proof. intros [[] [] [] [] [] [] [] []]; cbv; auto. Qed.
Lemma alpha_lower : forall c, is_alpha c = true -> is_alpha (lower_char c) = true.
Proof. intros [[] [] [] [] [] [] [] []]; cbv; auto. Qed.
Lemma scheme_ok_lower : forall s, scheme_ok s = true -> scheme_ok (lower s) = true.
Proof.
  intros [|c s]; cbn; auto. intros H. apply andb_prop in H as [H1 H2].
  rewrite alpha_lower by auto. apply andb_prop in H2 as [H2 H3]. cbn.
  rewrite scheme_char_lower by auto. cbn. clear -H3. induction s; cbn in *; auto.
  apply andb_prop in H3 as [A B]. rewrite scheme_char_lower, IHs; auto.
Qed.
Lemma scheme_all : forall s, scheme_ok s = true -> all_chars scheme_char s = true.
Proof. intros [|c s]; cbn; [discriminate|]. intros H. apply andb_prop in H as [_ H]. exact H. Qed.
Lemma scheme_clean : forall s, scheme_ok s = true -> clean s = true.
Proof.
  intros s H. eapply all_weaken; [|exact (scheme_all s H)].
  intros [[] [] [] [] [] [] [] []]; cbv; auto.
Qed.
Lemma scheme_no : forall c s, scheme_ok s = true -> scheme_char c = false -> has c s = false.
Proof. intros. eapply all_has; eauto using scheme_all. Qed.

Lemma lower_has : forall c s, (forall d, Ascii.eqb (lower_char d) c = Ascii.eqb d c) ->
  has c (lower s) = has c s.
Proof. intros c s L. induction s as [|d s IH]; cbn; auto. rewrite IH, L. reflexivity. Qed.
Lemma lower_nonempty : forall s, nonempty (lower s) = nonempty s.
Proof. destruct s; reflexivity. Qed.

(** *** What urlsplit returns *)
Record well_split (ip_ok : string -> bool) (s : split_url) : Prop := {
  ws_scheme : u_scheme s = "" \/ (scheme_ok (u_scheme s) = true /\ lower (u_scheme s) = u_scheme s);
  ws_netloc : no_end (u_netloc s) = true;
  ws_brackets : check_brackets ip_ok (u_netloc s) = Ok tt;
  ws_ascii : is_ascii (u_netloc s) = true;
  ws_netloc_clean : clean (u_netloc s) = true;
  ws_path_hash : has "#" (u_path s) = false;
  ws_path_quest : has "?" (u_path s) = false;
  ws_path_clean : clean (u_path s) = true;
  ws_query_hash : has "#" (u_query s) = false;
  ws_query_clean : clean (u_query s) = true;
  ws_fragment_clean : clean (u_fragment s) = true;
  ws_abs : nonempty (u_netloc s) = true -> u_path s = "" \/ starts_slash (u_path s) = true
}.

Lemma check_brackets_unit : forall ip n u, check_brackets ip n = Ok u -> check_brackets ip n = Ok tt.
Proof. intros ip n []; auto. Qed.

Lemma starts_slashes_inv : forall s, starts_slashes s = true ->
  exists r, s = String "/" (String "/" r).
Proof.
  intros [|c [|d s]]; cbn; try discriminate.
  - destruct c as [[] [] [] [] [] [] [] []]; discriminate.
  - destruct c as [[] [] [] [] [] [] [] []]; try discriminate;
      destruct d as [[] [] [] [] [] [] [] []]; try discriminate. eauto.
Qed.
Lemma starts_slash_inv : forall s, starts_slash s = true -> exists r, s = String "/" r.
Proof.
  intros [|c s]; cbn; try discriminate.
  destruct c as [[] [] [] [] [] [] [] []]; try discriminate. eauto.
Qed.
Lemma starts_slash_cons : forall c s, starts_slash (String c s) = Ascii.eqb c "/".
Proof. intros [[] [] [] [] [] [] [] []] s; reflexivity. Qed.

(** The part of urlsplit after the scheme, by cases on a leading "//". *)
Definition net_path (ip : string -> bool) (url : string) : res (string * string) :=
  if starts_slashes url then
    let '(n, u) := split_netloc (String.substring 2 (String.length url) url) in
    rbind (check_brackets ip n) (fun _ => Ok (n, u))
  else Ok ("", url).

Lemma substring_all : forall n s, String.length s <= n -> String.substring 0 n s = s.
Proof.
  induction n; intros [|c s] H; cbn in *; auto; try lia. rewrite IHn; auto. lia.
Qed.
Lemma net_path_eq : forall ip url,
  (match url with
   | String "/" (String "/" r) =>
       let '(n, u) := split_netloc r in rbind (check_brackets ip n) (fun _ => Ok (n, u))
   | _ => Ok ("", url)
   end) = net_path ip url.
Proof.
  intros ip url. unfold net_path. destruct (starts_slashes url) eqn:E.
  - destruct (starts_slashes_inv _ E) as [r ->]. cbn [String.substring String.length].
    rewrite substring_all by lia. reflexivity.
  - destruct url as [|c [|d s]]; auto.
    + destruct c as [[] [] [] [] [] [] [] []]; reflexivity.
    + destruct c as [[] [] [] [] [] [] [] []]; try reflexivity;
        destruct d as [[] [] [] [] [] [] [] []]; try reflexivity. discriminate.
Qed.

Lemma urlsplit_inv : forall ip url s, urlsplit ip url = Ok s ->
  exists rest u mid f1 f2,
    clean rest = true /\
    (u_scheme s = "" \/ (scheme_ok (u_scheme s) = true /\ lower (u_scheme s) = u_scheme s)) /\
    net_path ip rest = Ok (u_netloc s, u) /\
    partition "#" u = (mid, f1, u_fragment s) /\
    partition "?" mid = (u_path s, f2, u_query s) /\
    is_ascii (u_netloc s) = true.
Proof.
  intros ip url s H. unfold urlsplit in H.
  remember (drop_unsafe (lstrip_controls url)) as w eqn:W.
  assert (Cw : clean w = true) by (subst; apply clean_drop). clear W.
  destruct (partition ":" w) as [[b f] a] eqn:P.
  destruct (f && scheme_ok b) eqn:S; cbv beta iota zeta in H.
  - apply andb_prop in S as [-> Sb]. apply partition_spec in P as [_ P].
    rewrite net_path_eq in H. destruct (net_path ip a) as [[n u]|] eqn:N; cbn [rbind] in H;
      [|discriminate].
    destruct (partition "#" u) as [[mid f1] fr] eqn:P1.
    destruct (partition "?" mid) as [[pa f2] q] eqn:P2.
    destruct (is_ascii n) eqn:A; [|discriminate]. injection H; intros; subst s. cbn.
    exists a, u, mid, f1, f2. repeat split; auto.
    + subst w. rewrite clean_app, clean_cons in Cw. apply andb_prop in Cw as [_ Cw].
      apply andb_prop in Cw as [_ Cw]. exact Cw.
    + right. split; [apply scheme_ok_lower; auto|apply lower_idem].
  - rewrite net_path_eq in H. destruct (net_path ip w) as [[n u]|] eqn:N; cbn [rbind] in H;
      [|discriminate].
    destruct (partition "#" u) as [[mid f1] fr] eqn:P1.
    destruct (partition "?" mid) as [[pa f2] q] eqn:P2.
    destruct (is_ascii n) eqn:A; [|discriminate]. injection H; intros; subst s. cbn.
    exists w, u, mid, f1, f2. repeat split; auto.
Qed.

Lemma net_path_inv : forall ip rest n u, net_path ip rest = Ok (n, u) ->
  (rest = ("//" ++ n ++ u)%string /\ no_end n = true /\ at_end u = true
   /\ check_brackets ip n = Ok tt)
  \/ (rest = u /\ n = "").
Proof.
  intros ip rest n u H. unfold net_path in H. destruct (starts_slashes rest) eqn:E.
  - left. destruct (starts_slashes_inv _ E) as [r ->].
    cbn [String.substring String.length] in H. rewrite substring_all in H by lia.
    destruct (split_netloc r) as [n' u'] eqn:F.
    destruct (check_brackets ip n') as [[]|] eqn:G; cbn in H; [|discriminate].
    injection H; intros; subst. apply split_netloc_spec in F as (-> & F2 & F3). auto.
  - right. injection H; intros; subst; auto.
Qed.

Lemma partition_clean : forall c s b f a, partition c s = (b, f, a) -> clean s = true ->
  clean b = true /\ clean a = true.
Proof.
  intros c s b f a P C. apply partition_spec in P as [_ P]. destruct f.
  - subst. rewrite clean_app, clean_cons in C. apply andb_prop in C as [C1 C].
    apply andb_prop in C as [_ C]. auto.
  - destruct P as [-> ->]. auto.
Qed.
Lemma partition_has : forall c d s b f a, partition c s = (b, f, a) -> has d s = false ->
  has d b = false /\ has d a = false.
Proof.
  intros c d s b f a P C. apply partition_spec in P as [_ P]. destruct f.
  - subst. rewrite has_app in C. cbn in C. apply orb_false_elim in C as [C1 C].
    apply orb_false_elim in C as [_ C]. auto.
  - destruct P as [-> ->]. auto.
Qed.

Theorem urlsplit_well : forall ip url s, urlsplit ip url = Ok s -> well_split ip s.
Proof.
  intros ip url s H. destruct (urlsplit_inv _ _ _ H) as (rest & u & mid & f1 & f2 & C & Sc & N & P1 & P2 & A).
  assert (Cu : clean u = true /\ clean (u_netloc s) = true /\ no_end (u_netloc s) = true
               /\ check_brackets ip (u_netloc s) = Ok tt
               /\ (nonempty (u_netloc s) = true -> at_end u = true)).
  { apply net_path_inv in N as [(R & N1 & N2 & N3)|[R N0]].
    - subst rest. rewrite !clean_app in C. apply andb_prop in C as [_ C].
      apply andb_prop in C as [C1 C2]. auto 10.
    - subst rest. rewrite N0. cbn. repeat split; auto. discriminate. }
  destruct Cu as (C1 & C2 & C3 & C4 & C5).
  destruct (partition_clean _ _ _ _ _ P1 C1) as [Cm Cf].
  destruct (partition_clean _ _ _ _ _ P2 Cm) as [Cp Cq].
  pose proof (partition_spec _ _ _ _ _ P1) as [Hm Eu].
  pose proof (partition_spec _ _ _ _ _ P2) as [Hp Em].
  destruct (partition_has _ _ _ _ _ _ P2 Hm) as [Hp' Hq].
  constructor; auto.
  intros NE. specialize (C5 NE).
  destruct (u_path s) as [|c p] eqn:EP; [left; reflexivity|right].
  assert (exists t, u = String c t).
  { destruct f1, f2; cbn in Em, Eu.
    - subst mid. cbn in Eu. eauto.
    - destruct Em as [-> _]. cbn in Eu. eauto.
    - destruct Eu as [-> _]. subst mid. cbn. eauto.
    - destruct Eu as [-> _]. destruct Em as [-> _]. eauto. }
  destruct H0 as [t ->]. cbn in C5. rewrite starts_slash_cons. unfold netloc_end in C5.
  cbn in Hp, Hp'. apply orb_false_elim in Hp as [Hp _]. apply orb_false_elim in Hp' as [Hp' _].
  rewrite Hp, Hp' in C5. rewrite !orb_false_r in C5. exact C5.
Qed.

(** *** urlsplit of an assembled URL *)
Definition tail (q f : string) : string :=
  ((if nonempty q then "?" ++ q else "") ++ (if nonempty f then "#" ++ f else ""))%string.

Lemma lstrip_scheme : forall s r, scheme_ok s = true ->
  lstrip_controls (s ++ r)%string = (s ++ r)%string.
Proof.
  intros [|c s] r; cbn; [discriminate|]. intros H. apply andb_prop in H as [H _].
  replace (N_of_ascii c <=? 32)%N with false; auto. symmetry. apply N.leb_gt.
  revert H. destruct c as [[] [] [] [] [] [] [] []]; cbv; auto; discriminate.
Qed.

Lemma partition_tail_hash : forall p q f, has "#" p = false -> has "#" q = false ->
  partition "#" (p ++ tail q f) =
  ((p ++ (if nonempty q then "?" ++ q else ""))%string, nonempty f, f).
Proof.
  intros p q f Hp Hq. unfold tail. rewrite <- app_assoc'.
  assert (Hpq : has "#" (p ++ (if nonempty q then "?" ++ q else ""))%string = false).
  { rewrite has_app, Hp. destruct (nonempty q); cbn; auto. }
  destruct (nonempty f) eqn:E.
  - cbn [append]. rewrite partition_hit; auto.
  - destruct f; [|discriminate]. rewrite app_nil_r', partition_miss; auto.
Qed.
Lemma partition_query : forall p q, has "?" p = false ->
  partition "?" (p ++ (if nonempty q then "?" ++ q else "")) = (p, nonempty q, q).
Proof.
  intros p q H. destruct (nonempty q) eqn:E.
  - cbn [append]. rewrite partition_hit; auto.
  - destruct q; [|discriminate]. rewrite app_nil_r', partition_miss; auto.
Qed.

Lemma at_end_tail : forall p q f, p = "" \/ starts_slash p = true ->
  at_end (p ++ tail q f) = true.
Proof.
  intros p q f [->|H].
  - cbn. unfold tail. destruct (nonempty q); cbn; auto. destruct (nonempty f); cbn; auto.
  - destruct (starts_slash_inv _ H) as [r ->]. reflexivity.
Qed.

Lemma clean_tail : forall q f, clean q = true -> clean f = true -> clean (tail q f) = true.
Proof.
  intros q f Hq Hf. unfold tail. rewrite clean_app.
  destruct (nonempty q), (nonempty f); cbn [append]; rewrite ?clean_cons, ?Hq, ?Hf; reflexivity.
Qed.

(** Only the bracket check of the network location can fail. *)
Lemma urlsplit_build : forall ip sch n p q f,
  scheme_ok sch = true -> lower sch = sch ->
  no_end n = true -> is_ascii n = true -> clean n = true ->
  p = "" \/ starts_slash p = true ->
  has "#" p = false -> has "?" p = false -> clean p = true ->
  has "#" q = false -> clean q = true -> clean f = true ->
  urlsplit ip (sch ++ "://" ++ n ++ p ++ tail q f) =
  rbind (check_brackets ip n) (fun _ => Ok (mkSplit sch n p q f)).
Proof.
  intros ip sch n p q f S L N A Cn Ab Hp1 Hp2 Cp Hq Cq Cf. unfold urlsplit.
  rewrite lstrip_scheme by auto.
  rewrite drop_clean.
  2:{ rewrite clean_app, (scheme_clean _ S). cbn [andb].
      change ("://" ++ n ++ p ++ tail q f)%string with (String ":" (String "/" (String "/" (n ++ p ++ tail q f)))).
      rewrite !clean_cons, !clean_app, Cn, Cp, clean_tail; auto. }
  change ("://" ++ n ++ p ++ tail q f)%string with (String ":" ("//" ++ n ++ p ++ tail q f)).
  rewrite partition_hit by (apply scheme_no; auto).
  rewrite S. cbn [andb]. cbn [append].
  rewrite split_netloc_app by (auto using at_end_tail).
  destruct (check_brackets ip n) as [[]|]; cbn [rbind]; auto.
  rewrite partition_tail_hash by auto. rewrite partition_query by auto.
  rewrite A, L. reflexivity.
Qed.

(** *** urlunsplit *)
Lemma append_tail : forall u q f,
  (if nonempty f then (if nonempty q then u ++ "?" ++ q else u) ++ "#" ++ f
   else (if nonempty q then u ++ "?" ++ q else u))%string = (u ++ tail q f)%string.
Proof.
  intros u q f. unfold tail. destruct (nonempty q), (nonempty f); cbn [append];
    rewrite ?app_nil_r', ?app_assoc'; cbn [append]; rewrite ?app_nil_r'; auto.
Qed.

Definition abs_path (p : string) : string :=
  if nonempty p && negb (starts_slash p) then ("/" ++ p)%string else p.

Lemma unsplit_netloc : forall sch n p q f, nonempty sch = true -> nonempty n = true ->
  urlunsplit (mkSplit sch n p q f) = (sch ++ "://" ++ n ++ abs_path p ++ tail q f)%string.
Proof.
  intros sch n p q f S N. unfold urlunsplit. cbn [u_path u_netloc u_scheme u_query u_fragment].
  rewrite N, S. cbn [orb]. fold (abs_path p). rewrite append_tail. cbn [append].
  rewrite !app_assoc'. cbn [append]. rewrite !app_assoc'. reflexivity.
Qed.

Lemma replace_colon_hit : forall new a b, has ":" a = false ->
  replace_colon new (a ++ String ":" b) = (a ++ new ++ b)%string.
Proof.
  induction a as [|c a IH]; cbn; intros b H; auto.
  apply orb_false_elim in H as [H1 H2]. rewrite H1, IH; auto.
Qed.

(** With an empty network location the result is re-assembled with "://"; one or three slashes
    are added in front of the path. *)
Lemma unsplit_empty : forall sch p q f, scheme_ok sch = true ->
  p = "" \/ starts_slash p = true ->
  exists pre, (pre = "" \/ pre = "//") /\
    replace_colon "://" (urlunsplit (mkSplit sch "" p q f)) =
    (sch ++ "://" ++ "" ++ (pre ++ p) ++ tail q f)%string.
Proof.
  intros sch p q f S Ab. unfold urlunsplit. cbn [u_path u_netloc u_scheme u_query u_fragment].
  assert (NS : nonempty sch = true) by (destruct sch; [discriminate|reflexivity]).
  assert (AP : (if nonempty p && negb (starts_slash p) then ("/" ++ p)%string else p) = p).
  { destruct Ab as [->|E]; [reflexivity|]. rewrite E, andb_false_r. reflexivity. }
  rewrite NS, AP. cbn [nonempty orb andb append].
  destruct (str_in sch uses_netloc || starts_slashes p).
  - exists "//". split; auto. rewrite append_tail, app_assoc'. cbn [append].
    rewrite replace_colon_hit by (apply scheme_no; auto). reflexivity.
  - exists "". split; auto. rewrite append_tail, app_assoc'. cbn [append].
    rewrite replace_colon_hit by (apply scheme_no; auto). reflexivity.
Qed.

(** fix_slashes applied to a re-assembled URL splits into the same scheme and network location. *)
Theorem resplit : forall ip sch n p q f,
  scheme_ok sch = true -> lower sch = sch ->
  no_end n = true -> is_ascii n = true -> clean n = true ->
  (nonempty n = false -> p = "" \/ starts_slash p = true) ->
  has "#" p = false -> has "?" p = false -> clean p = true ->
  has "#" q = false -> clean q = true -> clean f = true ->
  exists p',
    urlsplit ip (fix_slashes n (urlunsplit (mkSplit sch n p q f))) =
      rbind (check_brackets ip n) (fun _ => Ok (mkSplit sch n p' q f))
    /\ (p' = abs_path p \/ (n = "" /\ p' = ("//" ++ p)%string)).
Proof.
  intros ip sch n p q f S L N A Cn Ab Hp1 Hp2 Cp Hq Cq Cf. unfold fix_slashes.
  assert (NS : nonempty sch = true) by (destruct sch; [discriminate|reflexivity]).
  destruct (nonempty n) eqn:NE.
  - exists (abs_path p). split; auto. rewrite unsplit_netloc by auto.
    unfold abs_path. destruct (nonempty p && negb (starts_slash p)) eqn:E.
    + apply urlsplit_build; auto.
    + apply urlsplit_build; auto. destruct p; auto. right. cbn [nonempty andb] in E.
      apply negb_false_iff in E. exact E.
  - destruct n; [|discriminate]. specialize (Ab eq_refl).
    destruct (unsplit_empty sch p q f S Ab) as (pre & Pre & ->).
    exists (pre ++ p)%string. split.
    + apply urlsplit_build; auto.
      * destruct Pre as [->| ->]; auto.
      * destruct Pre as [->| ->]; auto.
      * destruct Pre as [->| ->]; auto.
      * destruct Pre as [->| ->]; auto.
    + destruct Pre as [->| ->]; auto. left. unfold abs_path.
      destruct Ab as [->|E]; [reflexivity|]. rewrite E, andb_false_r. reflexivity.
Qed.
