(** Lemmas for the settings properties: paths, host names and ports survive the round trip
    through safe_urls and unsafe_url. *)
From Coq Require Import String Ascii List NArith ZArith Bool Lia.
From Verif Require Import PyVal PyValFacts Quote QuoteFacts Url Settings SpecUrl UrlFacts.
Import ListNotations.
Open Scope nat_scope.
Open Scope string_scope.
Open Scope list_scope.

(** *** split, join and paths *)
Lemma split_nonnil : forall c s, split c s <> [].
Proof.
  intros c [|d s]; cbn; try discriminate. destruct (Ascii.eqb d c); try discriminate.
  destruct (split c s); discriminate.
Qed.

Lemma split_all : forall (p : ascii -> bool) c s, all_chars p s = true ->
  Forall (fun x => all_chars p x = true) (split c s).
Proof.
  induction s as [|d s IH]; cbn; intros H.
  - constructor; auto.
  - apply andb_prop in H as [H1 H2]. specialize (IH H2). destruct (Ascii.eqb d c).
    + constructor; auto.
    + destruct (split c s) as [|x xs]; [repeat constructor; cbn; rewrite H1; auto|].
      inversion IH; subst. constructor; auto. cbn. rewrite H1. auto.
Qed.
Lemma split_no : forall c s, Forall (fun x => has c x = false) (split c s).
Proof.
  induction s as [|d s IH]; cbn.
  - constructor; auto.
  - destruct (Ascii.eqb d c) eqn:E.
    + constructor; auto.
    + destruct (split c s) as [|x xs]; [repeat constructor; cbn; rewrite E; auto|].
      inversion IH; subst. constructor; auto. cbn. rewrite E. auto.
Qed.

Lemma join_all : forall (p : ascii -> bool) sep l, all_chars p sep = true ->
  Forall (fun x => all_chars p x = true) l -> all_chars p (join sep l) = true.
Proof.
  induction l as [|x l IH]; intros Hs H; [reflexivity|]. inversion H; subst.
  destruct l; [exact H2|]. change (join sep (x :: s :: l)) with (x ++ sep ++ join sep (s :: l))%string.
  rewrite !all_app, H2, Hs. cbn [andb]. apply IH; auto.
Qed.

Lemma Forall_filter : forall A (P : A -> Prop) f l, Forall P l -> Forall P (filter f l).
Proof.
  intros A P f l H. induction H; cbn; [constructor|]. destruct (f x); auto.
Qed.

Lemma root_all : forall (p : ascii -> bool) s, p "/"%char = true -> all_chars p (path_root s) = true.
Proof.
  intros p s H. unfold path_root.
  destruct s as [|a s]; [reflexivity|].
  destruct (Ascii.eqb_spec a "/") as [->|N].
  - destruct s as [|b s]; [cbn; rewrite H; auto|].
    destruct (Ascii.eqb_spec b "/") as [->|N].
    + destruct s as [|c s]; [cbn; rewrite H; auto|].
      destruct (Ascii.eqb_spec c "/") as [->|N]; [cbn; rewrite H; auto|].
      destruct c as [[] [] [] [] [] [] [] []]; try congruence; cbn; rewrite H; auto.
    + destruct b as [[] [] [] [] [] [] [] []]; try congruence; cbn; rewrite H; auto.
  - destruct a as [[] [] [] [] [] [] [] []]; try congruence; reflexivity.
Qed.

Lemma posix_all : forall (p : ascii -> bool) s, p "/"%char = true -> p "."%char = true ->
  all_chars p s = true -> all_chars p (as_posix s) = true.
Proof.
  intros p s H1 H2 H. unfold as_posix.
  destruct (nonempty _); [|cbn; rewrite H2; auto].
  rewrite all_app, root_all by auto. cbn [andb]. apply join_all; [cbn; rewrite H1; auto|].
  apply Forall_filter, split_all; auto.
Qed.
Lemma posix_has : forall c s, c <> "/"%char -> c <> "."%char -> has c s = false ->
  has c (as_posix s) = false.
Proof.
  intros c s N1 N2 H. apply all_has with (p := fun d => negb (Ascii.eqb d c)).
  - apply posix_all; [| |apply has_all; auto];
      apply negb_true_iff; apply Ascii.eqb_neq; auto.
  - rewrite Ascii.eqb_refl. reflexivity.
Qed.
Lemma posix_clean : forall s, clean s = true -> clean (as_posix s) = true.
Proof. intros s H. apply posix_all; auto. Qed.

(** The root of a path that starts with a slash. *)
Lemma root_slash : forall s, starts_slash s = true ->
  path_root s = "/" \/ path_root s = "//".
Proof.
  intros s H. destruct (starts_slash_inv _ H) as [r ->]. unfold path_root.
  destruct r as [|b s]; [auto|].
  destruct (Ascii.eqb_spec b "/") as [->|N].
  - destruct s as [|c s]; [auto|].
    destruct (Ascii.eqb_spec c "/") as [->|N]; [auto|].
    destruct c as [[] [] [] [] [] [] [] []]; try congruence; auto.
  - destruct b as [[] [] [] [] [] [] [] []]; try congruence; auto.
Qed.
Lemma root_relative : forall s, starts_slash s = false -> path_root s = "".
Proof.
  intros [|c s] H; [reflexivity|]. rewrite starts_slash_cons in H.
  destruct c as [[] [] [] [] [] [] [] []]; try reflexivity. discriminate.
Qed.
Lemma root_one : forall s, starts_slash s = true -> starts_slashes s = false -> path_root s = "/".
Proof.
  intros s H N. destruct (starts_slash_inv _ H) as [r ->]. cbn in N.
  destruct r as [|b s]; [reflexivity|].
  destruct b as [[] [] [] [] [] [] [] []]; try reflexivity. discriminate.
Qed.

Lemma posix_abs : forall s, starts_slash s = true ->
  as_posix s = (path_root s ++ join "/" (path_parts s))%string.
Proof.
  intros s H. unfold as_posix. destruct (root_slash s H) as [E|E]; rewrite E; reflexivity.
Qed.
Lemma posix_slash : forall s, starts_slash s = true -> starts_slash (as_posix s) = true.
Proof.
  intros s H. rewrite posix_abs by auto. destruct (root_slash s H) as [E|E]; rewrite E; reflexivity.
Qed.

Lemma rstrip_split : forall s, exists t, s = (rstrip_slash s ++ t)%string
  /\ all_chars (Ascii.eqb "/") t = true.
Proof.
  induction s as [|c s IH]; cbn; [exists ""; auto|].
  destruct IH as (t & E & A). destruct (rstrip_slash s) as [|d r].
  - destruct (Ascii.eqb_spec c "/") as [->|N].
    + exists (String "/" s). split; auto. cbn in E. subst s. cbn. exact A.
    + exists s. split; [reflexivity|]. cbn in E. subst s. exact A.
  - exists t. split; auto. cbn. cbn in E. congruence.
Qed.
Lemma rstrip_all : forall p s, all_chars p s = true -> all_chars p (rstrip_slash s) = true.
Proof.
  intros p s H. destruct (rstrip_split s) as (t & E & _). rewrite E, all_app in H.
  apply andb_prop in H as [H _]. exact H.
Qed.
Lemma rstrip_has : forall c s, has c s = false -> has c (rstrip_slash s) = false.
Proof.
  intros c s H. destruct (rstrip_split s) as (t & E & _). rewrite E, has_app in H.
  apply orb_false_elim in H as [H _]. exact H.
Qed.
Lemma rstrip_abs : forall s, starts_slash s = true ->
  rstrip_slash s = "" \/ starts_slash (rstrip_slash s) = true.
Proof.
  intros s H. destruct (rstrip_split s) as (t & E & _).
  destruct (rstrip_slash s) as [|c r]; auto. right. rewrite E in H. cbn [append] in H.
  rewrite starts_slash_cons in *. exact H.
Qed.

(** *** split of a concatenation *)
Lemma split_cons_sep : forall c s, split c (String c s) = "" :: split c s.
Proof. intros. cbn. rewrite Ascii.eqb_refl. reflexivity. Qed.
Lemma split_app_sep : forall c a b, split c (a ++ String c b) = split c a ++ split c b.
Proof.
  induction a as [|d a IH]; cbn [append]; intros b.
  - apply split_cons_sep.
  - cbn. destruct (Ascii.eqb d c); [rewrite IH; reflexivity|]. rewrite IH.
    destruct (split c a) as [|x xs] eqn:E; [destruct (split_nonnil _ _ E)|]. reflexivity.
Qed.
Lemma split_plain : forall c s, has c s = false -> split c s = [s].
Proof.
  induction s as [|d s IH]; cbn; auto. intros H. apply orb_false_elim in H as [H1 H2].
  rewrite H1, IH; auto.
Qed.

Lemma parts_slash : forall s, path_parts (String "/" s) = path_parts s.
Proof. intros. unfold path_parts. rewrite split_cons_sep. reflexivity. Qed.
Lemma parts_slashes : forall t, all_chars (Ascii.eqb "/") t = true -> path_parts t = [].
Proof.
  induction t as [|c t IH]; cbn [all_chars]; auto. intros H. apply andb_prop in H as [H1 H2].
  apply Ascii.eqb_eq in H1. subst c. rewrite parts_slash. auto.
Qed.
Lemma parts_app_slashes : forall a t, all_chars (Ascii.eqb "/") t = true ->
  path_parts (a ++ t) = path_parts a.
Proof.
  intros a [|c t] H; [rewrite app_nil_r'; auto|]. cbn [all_chars] in H.
  apply andb_prop in H as [H1 H2]. apply Ascii.eqb_eq in H1. subst c. unfold path_parts. rewrite split_app_sep, filter_app.
  fold (path_parts t). rewrite (parts_slashes t H2). apply app_nil_r.
Qed.
Lemma parts_rstrip : forall s, path_parts (rstrip_slash s) = path_parts s.
Proof.
  intros s. destruct (rstrip_split s) as (t & E & A). rewrite E at 2.
  symmetry. apply parts_app_slashes. exact A.
Qed.

(** *** prefixes *)
Lemma prefix_spec : forall p s, String.prefix p s = true <-> exists r, s = (p ++ r)%string.
Proof.
  induction p as [|c p IH]; intros s; cbn.
  - split; [eauto|intros _; destruct s; reflexivity].
  - destruct s as [|d s]; cbn.
    + split; [discriminate|]. intros [r E]; discriminate.
    + destruct (ascii_dec c d) as [->|N].
      * rewrite IH. split; intros [r E]; exists r; congruence.
      * split; [discriminate|]. intros [r E]. congruence.
Qed.

Definition component (x : string) : Prop := nonempty x = true /\ has "/" x = false.
Lemma parts_components : forall s, Forall component (path_parts s).
Proof.
  intros s. unfold path_parts. apply Forall_forall. intros x H. apply filter_In in H as [H1 H2].
  split.
  - unfold path_part in H2. apply andb_prop in H2 as [H2 _]. exact H2.
  - pose proof (split_no "/" s) as F. rewrite Forall_forall in F. auto.
Qed.

Lemma sep_inj : forall c a b u v, has c a = false -> has c b = false ->
  (a ++ String c u = b ++ String c v)%string -> a = b /\ u = v.
Proof.
  intros c a b u v Ha Hb E.
  assert (P : partition c (a ++ String c u) = partition c (b ++ String c v)) by congruence.
  rewrite !partition_hit in P by auto. injection P; auto.
Qed.

Lemma join_cons : forall sep x xs,
  join sep (x :: xs) = (x ++ match xs with [] => "" | _ => sep ++ join sep xs end)%string.
Proof. intros sep x [|y xs]; cbn [join]; [rewrite app_nil_r'|]; reflexivity. Qed.

Lemma prefix_component : forall last x r v, has "/" last = false ->
  (x ++ match v with None => "" | Some w => String "/" w end = last ++ r)%string ->
  has "/" x = false -> exists r', x = (last ++ r')%string.
Proof.
  induction last as [|c last IH]; intros x r v H E Hx; [exists x; reflexivity|].
  cbn in H. apply orb_false_elim in H as [H1 H2].
  destruct x as [|d x].
  - destruct v as [w|]; cbn in E; [|discriminate]. injection E; intros; subst c. discriminate.
  - cbn in E. injection E; intros E' ->. cbn in Hx. apply orb_false_elim in Hx as [_ Hx].
    destruct (IH x r v H2 E' Hx) as [r' ->]. exists r'. reflexivity.
Qed.

Lemma join_prefix : forall init last l r,
  Forall component (init ++ [last]) -> Forall component l ->
  join "/" l = (join "/" (init ++ [last]) ++ r)%string ->
  exists x rest, l = init ++ x :: rest /\ String.prefix last x = true.
Proof.
  induction init as [|i init IH]; intros last l r C Cl E.
  - cbn [app] in *. inversion C as [|? ? [Ne Ns]]; subst.
    change (join "/" [last]) with last in E.
    destruct l as [|x rest].
    + destruct last; discriminate.
    + exists x, rest. split; auto. apply prefix_spec. inversion Cl as [|? ? [Xe Xs]]; subst.
      rewrite join_cons in E.
      apply (prefix_component last x r
               (match rest with [] => None | _ => Some (join "/" rest) end)); auto.
      rewrite <- E. destruct rest; reflexivity.
  - cbn [app] in *. inversion C as [|? ? [Ie Is] C']; subst.
    rewrite join_cons in E.
    assert (N : match init ++ [last] with [] => "" | _ => ("/" ++ join "/" (init ++ [last]))%string end
                = String "/" (join "/" (init ++ [last]))).
    { destruct init; reflexivity. }
    rewrite N in E. clear N. rewrite app_assoc' in E. cbn [append] in E.
    destruct l as [|x rest]; [cbn [join] in E; destruct i; discriminate|].
    inversion Cl as [|? ? [Xe Xs] Cr]; subst. rewrite join_cons in E.
    destruct rest as [|y rest].
    + rewrite app_nil_r' in E. subst x. rewrite has_app in Xs. cbn in Xs.
      rewrite orb_true_r in Xs. discriminate.
    + change ("/" ++ join "/" (y :: rest))%string with (String "/" (join "/" (y :: rest))) in E.
      apply sep_inj in E as [-> E]; auto.
      destruct (IH last (y :: rest) r C' Cr E) as (x' & rest' & -> & P).
      exists x', rest'. auto.
Qed.

Lemma join_first : forall l w, Forall component l -> join "/" l = String "/" w -> False.
Proof.
  intros [|x l] w C E; [discriminate|]. inversion C as [|? ? [Xe Xs]]; subst.
  rewrite join_cons in E. destruct x as [|c x]; [discriminate|]. cbn in E, Xs.
  injection E; intros _ ->. discriminate.
Qed.

(** A string prefix of an absolute POSIX path. *)
Theorem posix_prefix : forall conf inp init last,
  starts_slash conf = true ->
  path_parts conf = init ++ [last] ->
  String.prefix (as_posix conf) (as_posix inp) = true ->
  exists x rest, path_parts inp = init ++ x :: rest /\ String.prefix last x = true.
Proof.
  intros conf inp init last A P H. apply prefix_spec in H as [r E].
  pose proof (parts_components conf) as Cc. rewrite P in Cc.
  pose proof (parts_components inp) as Ci.
  rewrite (posix_abs conf A), P in E. unfold as_posix in E.
  set (J := join "/" (init ++ [last])) in *.
  assert (NJ : exists w v, J = String w v /\ w <> "/"%char).
  { unfold J. destruct (join "/" (init ++ [last])) as [|w v] eqn:EJ.
    - destruct init as [|i init]; cbn [app] in EJ; rewrite join_cons in EJ; inversion Cc as [|? ? [Q _]]; subst.
      + destruct last; discriminate.
      + destruct i; discriminate.
    - exists w, v. split; auto. intros ->. exact (join_first _ _ Cc EJ). }
  destruct (starts_slash inp) eqn:SI.
  - destruct (root_slash _ A) as [Rc|Rc], (root_slash _ SI) as [Ri|Ri]; rewrite Rc, Ri in E;
      cbn [append nonempty] in E.
    + injection E; intros E'. apply (join_prefix init last _ r); auto.
    + injection E; intros E'. destruct NJ as (w & v & -> & Nw). cbn in E'. congruence.
    + injection E; intros E'. destruct (join_first _ _ Ci E').
    + injection E; intros E'. apply (join_prefix init last _ r); auto.
  - rewrite (root_relative _ SI) in E. cbn [append] in E.
    destruct (nonempty (join "/" (path_parts inp))) eqn:NE.
    + destruct (root_slash _ A) as [Rc|Rc]; rewrite Rc in E; cbn [append] in E;
        destruct (join_first _ _ Ci E).
    + destruct (root_slash _ A) as [Rc|Rc]; rewrite Rc in E; discriminate.
Qed.

(** *** the query string *)
Definition query_char (c : ascii) : bool :=
  always_safe c || Ascii.eqb c "+" || Ascii.eqb c "%" || Ascii.eqb c "=" || Ascii.eqb c "&".
Lemma quote_query : forall s, all_chars query_char (quote_plus s) = true.
Proof.
  induction s as [|c s IH]; cbn; auto. unfold quote_char.
  destruct (Ascii.eqb c " "); [cbn; auto|]. destruct (always_safe c) eqn:E.
  - cbn [all_chars]. unfold query_char at 1. rewrite E, IH. reflexivity.
  - cbn [all_chars]. rewrite IH.
    assert (H : forall d, query_char (hex_digit (N_of_ascii d / 16)) = true
                          /\ query_char (hex_digit (N_of_ascii d mod 16)) = true)
      by (intros [[] [] [] [] [] [] [] []]; split; reflexivity).
    destruct (H c) as [H1 H2]. rewrite H1, H2. reflexivity.
Qed.
Lemma urlencode_query : forall d, all_chars query_char (urlencode d) = true.
Proof.
  intros d. unfold urlencode. apply join_all; [reflexivity|].
  apply Forall_forall. intros x H. apply in_flat_map in H as ((k & vs) & _ & H).
  apply in_map_iff in H as (v & <- & _). rewrite !all_app, !quote_query. reflexivity.
Qed.
Lemma query_char_clean : forall s, all_chars query_char s = true -> clean s = true.
Proof.
  intros s. apply all_weaken. intros [[] [] [] [] [] [] [] []]; cbv; auto.
Qed.

(** *** the loop of unsafe_url *)
Lemma opt_eqb_eq : forall A (eqb : A -> A -> bool) x y,
  (forall a b, eqb a b = true <-> a = b) -> (opt_eqb eqb x y = true <-> x = y).
Proof.
  intros A eqb [a|] [b|] H; cbn; split; try discriminate; auto.
  - intros E. f_equal. apply H. exact E.
  - intros E. apply H. congruence.
Qed.

Lemma url_matches_true : forall conf inp path, url_matches conf inp path = Ok true <->
  u_scheme conf = u_scheme inp /\ hostname (u_netloc conf) = hostname (u_netloc inp)
  /\ (exists p, port (u_netloc conf) = Ok p /\ port (u_netloc inp) = Ok p)
  /\ String.prefix (as_posix (u_path conf)) path = true.
Proof.
  intros conf inp path. unfold url_matches.
  destruct (String.eqb_spec (u_scheme conf) (u_scheme inp)) as [E|E]; cbn [negb].
  2:{ split; [discriminate|]. intros (X & _); congruence. }
  destruct (opt_eqb String.eqb (hostname (u_netloc conf)) (hostname (u_netloc inp))) eqn:H; cbn [negb].
  2:{ split; [discriminate|]. intros (_ & X & _).
      apply (opt_eqb_eq _ String.eqb _ _ String.eqb_eq) in X. congruence. }
  apply (opt_eqb_eq _ String.eqb _ _ String.eqb_eq) in H.
  destruct (port (u_netloc conf)) as [p|]; cbn [rbind].
  2:{ split; [discriminate|]. intros (_ & _ & (q & X & _) & _). discriminate. }
  destruct (port (u_netloc inp)) as [q|]; cbn [rbind].
  2:{ split; [discriminate|]. intros (_ & _ & (r & _ & X) & _). discriminate. }
  split.
  - intros X. injection X as X. apply andb_prop in X as [X1 X2].
    apply (opt_eqb_eq _ N.eqb _ _ N.eqb_eq) in X1. subst q. eauto 10.
  - intros (_ & _ & (r & P & Q) & Pr). rewrite Pr, andb_true_r. f_equal.
    apply (opt_eqb_eq _ N.eqb _ _ N.eqb_eq). congruence.
Qed.

Lemma unsafe_loop_inv : forall ip urls inp path url out,
  unsafe_loop ip urls inp path url true = Ok out ->
  exists c conf, In c urls /\ urlsplit ip c = Ok conf
    /\ url_matches conf inp path = Ok true /\ out = merge_urls conf inp path.
Proof.
  induction urls as [|c cs IH]; intros inp path url out H; cbn in H; [discriminate|].
  destruct (urlsplit ip c) as [conf|] eqn:E; cbn in H; [|discriminate].
  destruct (url_matches conf inp path) as [[]|] eqn:M; cbn in H; try discriminate.
  - injection H; intros; subst. exists c, conf. cbn. auto.
  - destruct (IH _ _ _ _ H) as (c' & conf' & I & R). exists c', conf'. cbn. tauto.
Qed.

Definition input_path (s : split_url) : string :=
  as_posix (if nonempty (u_path s) then u_path s else "/").

Lemma unsafe_url_inv : forall ip urls url out,
  unsafe_url ip urls url true = Ok out ->
  exists inp c conf, urlsplit ip url = Ok inp /\ In c urls /\ urlsplit ip c = Ok conf
    /\ url_matches conf inp (input_path inp) = Ok true
    /\ out = merge_urls conf inp (input_path inp).
Proof.
  intros ip urls url out H. unfold unsafe_url in H.
  destruct (urlsplit ip url) as [inp|] eqn:E; cbn [rbind] in H; [|discriminate].
  destruct (unsafe_loop_inv _ _ _ _ _ _ H) as (c & conf & R). exists inp, c, conf. tauto.
Qed.

Lemma input_path_all : forall p s, p "/"%char = true -> p "."%char = true ->
  all_chars p (u_path s) = true -> all_chars p (input_path s) = true.
Proof.
  intros p s H1 H2 H. unfold input_path. apply posix_all; auto.
  destruct (nonempty (u_path s)); auto. cbn. rewrite H1. reflexivity.
Qed.
Lemma input_path_has : forall c s, c <> "/"%char -> c <> "."%char ->
  has c (u_path s) = false -> has c (input_path s) = false.
Proof.
  intros c s N1 N2 H. apply posix_has; auto. destruct (nonempty (u_path s)); auto.
  cbn [has]. rewrite orb_false_r. apply Ascii.eqb_neq. auto.
Qed.
Lemma input_path_abs : forall s, u_path s = "" \/ starts_slash (u_path s) = true ->
  starts_slash (input_path s) = true.
Proof.
  intros s [E|E]; unfold input_path; apply posix_slash.
  - rewrite E. reflexivity.
  - destruct (u_path s); [discriminate|]. exact E.
Qed.

(** The merged URL splits back into the scheme and network location of the configured URL, the
    path of the request and the merged query. *)
Theorem merged_resplit : forall ip conf inp,
  well_split ip conf -> well_split ip inp -> u_scheme conf = u_scheme inp -> u_scheme conf <> "" ->
  nonempty (u_netloc conf) = true \/ u_path inp = "" \/ starts_slash (u_path inp) = true ->
  exists p', urlsplit ip (merge_urls conf inp (input_path inp)) =
    Ok (mkSplit (u_scheme conf) (u_netloc conf) p'
          (urlencode (dupd (parse_qs (u_query conf)) (parse_qs (u_query inp))))
          (if nonempty (u_fragment inp) then u_fragment inp else u_fragment conf))
    /\ (p' = abs_path (rstrip_slash (input_path inp))
        \/ (u_netloc conf = "" /\ p' = ("//" ++ rstrip_slash (input_path inp))%string)).
Proof.
  intros ip conf inp Wc Wi ES NS Ab.
  destruct (ws_scheme _ _ Wc) as [X|[S1 S2]]; [congruence|].
  destruct (resplit ip (u_scheme conf) (u_netloc conf) (rstrip_slash (input_path inp))
              (urlencode (dupd (parse_qs (u_query conf)) (parse_qs (u_query inp))))
              (if nonempty (u_fragment inp) then u_fragment inp else u_fragment conf))
    as (p' & E & P); auto.
  - apply ws_netloc with (1 := Wc).
  - apply ws_ascii with (1 := Wc).
  - apply ws_netloc_clean with (1 := Wc).
  - intros NE. apply rstrip_abs, input_path_abs. destruct Ab; [congruence|auto].
  - apply rstrip_has, input_path_has; try discriminate. apply ws_path_hash with (1 := Wi).
  - apply rstrip_has, input_path_has; try discriminate. apply ws_path_quest with (1 := Wi).
  - apply rstrip_all, input_path_all; auto. apply ws_path_clean with (1 := Wi).
  - eapply all_has; [apply urlencode_query|reflexivity].
  - apply query_char_clean, urlencode_query.
  - destruct (nonempty (u_fragment inp)); [apply ws_fragment_clean with (1 := Wi)|
                                           apply ws_fragment_clean with (1 := Wc)].
  - exists p'. split; auto. unfold merge_urls. rewrite <- ES, E.
    rewrite (ws_brackets _ _ Wc). reflexivity.
Qed.

(** *** host names and ports *)
Lemma lower_host_has : forall c h, (forall d, Ascii.eqb (lower_char d) c = Ascii.eqb d c) ->
  has c (lower_host h) = has c h.
Proof.
  intros c h L. unfold lower_host. destruct (partition "%" h) as [[b f] z] eqn:P.
  apply partition_spec in P as [_ P]. rewrite !has_app, lower_has by auto. destruct f.
  - subst h. rewrite has_app. cbn. rewrite orb_false_r. reflexivity.
  - destruct P as [-> ->]. cbn. rewrite orb_false_r. reflexivity.
Qed.
Lemma lower_host_all : forall (p : ascii -> bool) h,
  (forall c, p c = true -> p (lower_char c) = true) ->
  all_chars p h = true -> all_chars p (lower_host h) = true.
Proof.
  intros p h L H. unfold lower_host. destruct (partition "%" h) as [[b f] z] eqn:P.
  apply partition_spec in P as [_ P].
  assert (LB : all_chars p b = true -> all_chars p (lower b) = true).
  { clear -L. induction b; cbn; auto. intros X. apply andb_prop in X as [X1 X2].
    rewrite L, IHb; auto. }
  destruct f.
  - subst h. rewrite all_app in H. cbn in H. apply andb_prop in H as [H1 H].
    apply andb_prop in H as [H2 H3]. rewrite !all_app, LB by auto. cbn. rewrite H2, H3. reflexivity.
  - destruct P as [-> ->]. rewrite !all_app, LB by auto. reflexivity.
Qed.
Lemma lower_host_nonempty : forall h, nonempty (lower_host h) = nonempty h.
Proof.
  intros h. unfold lower_host. destruct (partition "%" h) as [[b f] z] eqn:P.
  apply partition_spec in P as [_ P]. destruct f.
  - subst h. destruct b; reflexivity.
  - destruct P as [-> ->]. destruct b; reflexivity.
Qed.
Lemma lower_host_idem : forall h, lower_host (lower_host h) = lower_host h.
Proof.
  intros h. unfold lower_host. destruct (partition "%" h) as [[b f] z] eqn:P.
  apply partition_spec in P as [Hb P].
  assert (Hl : has "%" (lower b) = false).
  { rewrite lower_has; auto. intros [[] [] [] [] [] [] [] []]; reflexivity. }
  destruct f.
  - cbn [append]. rewrite partition_hit by auto. rewrite lower_idem. reflexivity.
  - destruct P as [_ ->]. cbn [append]. rewrite app_nil_r', partition_miss by auto.
    rewrite lower_idem. cbn [append]. rewrite app_nil_r'. reflexivity.
Qed.

(** dec_N prints digits that read back as the number. *)
Lemma digits_value_app : forall a c acc,
  digits_value acc (a ++ String c "") = (10 * digits_value acc a + (N_of_ascii c - 48))%N.
Proof. induction a; intros; cbn [append digits_value]; auto. Qed.
Lemma digit_char_spec : forall d, (d < 10)%N ->
  is_digit (digit_char d) = true /\ (N_of_ascii (digit_char d) - 48 = d)%N.
Proof.
  intros d H. unfold digit_char, is_digit, in_range.
  rewrite N_ascii_embedding by lia. split; [|lia].
  apply andb_true_intro. split; apply N.leb_le; lia.
Qed.
Lemma dec_fuel_spec : forall fuel n acc, (n < 2 ^ N.of_nat fuel)%N -> all_chars is_digit acc = true ->
  exists t, dec_fuel fuel n acc = (t ++ acc)%string /\ all_chars is_digit t = true
    /\ digits_value 0 t = n /\ (fuel <> 0 -> t <> "").
Proof.
  induction fuel as [|fuel IH]; intros n acc H A; cbn [dec_fuel].
  - exists "". cbn in *. assert (n = 0)%N by lia. subst. repeat split; auto.
  - assert (M : (n mod 10 < 10)%N) by (apply N.mod_lt; lia).
    destruct (digit_char_spec _ M) as [D1 D2].
    destruct (n <? 10)%N eqn:L.
    + apply N.ltb_lt in L. exists (String (digit_char (n mod 10)) ""). cbn [append all_chars digits_value].
      rewrite D1. repeat split; auto; [|discriminate]. rewrite D2, N.mod_small; lia.
    + apply N.ltb_ge in L.
      destruct (IH (n / 10)%N (String (digit_char (n mod 10)) acc)) as (t & E & T1 & T2 & T3).
      * apply N.div_lt_upper_bound; [lia|]. rewrite Nat2N.inj_succ, N.pow_succ_r' in H. lia.
      * cbn. rewrite D1. exact A.
      * exists (t ++ String (digit_char (n mod 10)) "")%string. rewrite E. split.
        { rewrite app_assoc'. reflexivity. }
        split; [rewrite all_app, T1; cbn; rewrite D1; reflexivity|]. split.
        { rewrite digits_value_app, T2, D2. pose proof (N.div_mod n 10). lia. }
        intros _ X. destruct t; discriminate.
Qed.
Lemma dec_N_spec : forall n, all_chars is_digit (dec_N n) = true /\ digits_value 0 (dec_N n) = n
  /\ nonempty (dec_N n) = true.
Proof.
  intros n. unfold dec_N.
  destruct (dec_fuel_spec (S (N.to_nat (N.log2 n))) n "") as (t & E & T1 & T2 & T3); auto.
  - rewrite Nat2N.inj_succ, N2Nat.id. destruct n; [reflexivity|]. apply N.log2_spec. lia.
  - rewrite E, app_nil_r'. repeat split; auto. destruct t; auto. exfalso. apply T3; auto.
Qed.

Lemma digit_no : forall c s, all_chars is_digit s = true -> is_digit c = false -> has c s = false.
Proof. intros. eapply all_has; eauto. Qed.

(** The host text of a network location without brackets. *)
Lemma hostinfo_plain : forall n, has "[" (hostpart n) = false ->
  exists h p, hostinfo n = (h, if nonempty p then Some p else None)
    /\ has ":" h = false /\ has "@" h = false /\ has "[" h = false
    /\ (exists b, partition ":" (hostpart n) = (h, b, p)).
Proof.
  intros n H. unfold hostinfo. rewrite partition_miss by auto.
  destruct (partition ":" (hostpart n)) as [[h b] p] eqn:P. exists h, p.
  assert (A : has "@" (hostpart n) = false).
  { unfold hostpart. destruct (rpartition "@" n) as [[x y] z] eqn:R.
    apply rpartition_spec in R as [R _]. exact R. }
  destruct (partition_has _ _ _ _ _ _ P A) as [A1 _].
  destruct (partition_has _ _ _ _ _ _ P H) as [H1 _].
  apply partition_spec in P as [P1 _]. repeat split; auto. eauto.
Qed.

Lemma hostinfo_build : forall h t, has ":" h = false -> has "@" h = false -> has "[" h = false ->
  all_chars is_digit t = true -> nonempty t = true ->
  hostinfo (h ++ ":" ++ t) = (h, Some t) /\ hostinfo h = (h, None).
Proof.
  intros h t H1 H2 H3 D NE. split.
  - unfold hostinfo, hostpart. rewrite rpartition_miss.
    2:{ rewrite has_app, H2. cbn. eapply digit_no; eauto. }
    rewrite partition_miss.
    2:{ rewrite has_app, H3. cbn. eapply digit_no; eauto. }
    cbn [append]. rewrite partition_hit by auto. rewrite NE. reflexivity.
  - unfold hostinfo, hostpart. rewrite rpartition_miss by auto. rewrite partition_miss by auto.
    rewrite partition_miss by auto. reflexivity.
Qed.

Lemma eqb_lower_colon : forall d, Ascii.eqb (lower_char d) ":" = Ascii.eqb d ":".
Proof. intros [[] [] [] [] [] [] [] []]; reflexivity. Qed.
Lemma eqb_lower_at : forall d, Ascii.eqb (lower_char d) "@" = Ascii.eqb d "@".
Proof. intros [[] [] [] [] [] [] [] []]; reflexivity. Qed.
Lemma eqb_lower_open : forall d, Ascii.eqb (lower_char d) "[" = Ascii.eqb d "[".
Proof. intros [[] [] [] [] [] [] [] []]; reflexivity. Qed.
Lemma eqb_lower_close : forall d, Ascii.eqb (lower_char d) "]" = Ascii.eqb d "]".
Proof. intros [[] [] [] [] [] [] [] []]; reflexivity. Qed.

(** The host and port are found again in the sanitised network location. *)
Lemma safe_netloc_host : forall n n', has "[" (hostpart n) = false ->
  hostname n <> None -> has_credentials n = true -> safe_netloc n = Ok n' ->
  hostname n' = hostname n /\ port n' = port n /\ has "[" n' = false
  /\ has "]" (hostpart n) = has "]" n'
  /\ nonempty n' = true /\ (exists p, port n = Ok p).
Proof.
  intros n n' B H C E. unfold safe_netloc in E. rewrite C in E.
  destruct (hostinfo_plain n B) as (h & pt & HI & H1 & H2 & H3 & b & PT).
  unfold hostname in *. rewrite HI in *.
  destruct (nonempty h) eqn:NE; [|congruence].
  set (g := lower_host h) in *.
  assert (G1 : has ":" g = false) by (unfold g; rewrite lower_host_has; auto using eqb_lower_colon).
  assert (G2 : has "@" g = false) by (unfold g; rewrite lower_host_has; auto using eqb_lower_at).
  assert (G3 : has "[" g = false) by (unfold g; rewrite lower_host_has; auto using eqb_lower_open).
  assert (G4 : has "]" g = has "]" h) by (unfold g; apply lower_host_has, eqb_lower_close).
  assert (G5 : nonempty g = true) by (unfold g; rewrite lower_host_nonempty; auto).
  assert (G6 : lower_host g = g) by apply lower_host_idem.
  destruct (port n) as [p|] eqn:P; cbn [rbind] in E; [|discriminate].
  unfold port in P. rewrite HI in P.
  pose proof (partition_spec _ _ _ _ _ PT) as [_ EH].
  destruct (nonempty pt) eqn:NP.
  - destruct (all_chars is_digit pt) eqn:D; [|discriminate].
    destruct (digits_value 0 pt <=? 65535)%N eqn:L; [|discriminate].
    injection P; intros; subst p. injection E; intros; subst n'.
    destruct (dec_N_spec (digits_value 0 pt)) as (D1 & D2 & D3).
    destruct (hostinfo_build g _ G1 G2 G3 D1 D3) as [HB _].
    cbn [append] in *. rewrite HB, G5, G6. unfold port. rewrite HB, D1, D2, L. split; [reflexivity|].
    split; [reflexivity|].
    split; [rewrite has_app, G3; cbn; eapply digit_no; eauto|].
    split.
    { destruct b; [|destruct EH as [_ ->]; discriminate]. rewrite EH, !has_app, G4.
      cbn [has]. rewrite (digit_no "]" pt) by auto. rewrite (digit_no "]" (dec_N _)) by auto.
      reflexivity. }
    split; [destruct g; [discriminate|reflexivity]|eauto].
  - injection P; intros; subst p. injection E; intros; subst n'.
    destruct (hostinfo_build g "0" G1 G2 G3 eq_refl eq_refl) as [_ HB].
    rewrite HB, G5, G6. unfold port. rewrite HB. split; [reflexivity|]. split; [reflexivity|].
    split; [exact G3|].
    split.
    { destruct pt; [|discriminate]. destruct b; [|destruct EH as [-> _]; auto].
      rewrite EH, has_app, G4. cbn. rewrite orb_false_r. reflexivity. }
    split; [reflexivity|eauto].
Qed.
