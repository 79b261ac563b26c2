(** The alias of a schema id (C79). *)
From Coq Require Import String Ascii List NArith ZArith Bool Lia.
From Verif Require Import PyVal PyValFacts RType Registry FromDict RoundTrip Url SpecUrl Quote UrlFacts SettingsFacts SettingsMore JsonSchema SpecTypes SpecJson.
Import ListNotations.
Open Scope nat_scope.
Open Scope string_scope.
Open Scope list_scope.

Lemma alnum_iff c : alnum c = true <-> letter c \/ digit c.
Proof.
  unfold alnum, is_alpha, is_digit, in_range, letter, digit. rewrite !orb_true_iff, !andb_true_iff, !N.leb_le. tauto.
Qed.
Lemma word_alnum s : word s -> Url.all_chars alnum s = true.
Proof.
  destruct s as [|c r]; [intros []|]. intros [L A]. cbn [Url.all_chars]. apply andb_true_iff. split; [apply alnum_iff; auto|].
  clear L. induction r as [|d r IH]; [reflexivity|]. destruct A as [D A]. cbn [Url.all_chars]. apply andb_true_iff. split; [now apply alnum_iff|auto].
Qed.
Lemma alnum_not c d : alnum c = true -> alnum d = false -> Ascii.eqb c d = false.
Proof. intros A B. apply Ascii.eqb_neq. intros ->. congruence. Qed.
Lemma alnum_facts c : alnum c = true -> netloc_end c = false /\ unsafe_byte c = false /\ N.ltb (N_of_ascii c) 128 = true.
Proof.
  intros A. split; [|split].
  - unfold netloc_end. rewrite !(alnum_not c) by (auto; reflexivity). reflexivity.
  - unfold unsafe_byte. apply alnum_iff in A. unfold letter, digit in A.
    rewrite !orb_false_iff, !N.eqb_neq. repeat split; intros E; rewrite E in A; lia.
  - apply alnum_iff in A. unfold letter, digit in A. apply N.ltb_lt. lia.
Qed.
Lemma all_join (p : ascii -> bool) sep l : Url.all_chars p sep = true -> Forall (fun s => Url.all_chars p s = true) l -> Url.all_chars p (join sep l) = true.
Proof.
  intros S. induction l as [|x l IH]; intros F; [reflexivity|]. inversion F; subst. destruct l as [|y l]; [exact H1|].
  change (join sep (x :: y :: l)) with (x ++ sep ++ join sep (y :: l))%string. rewrite !all_app, H1, S, IH by auto. reflexivity.
Qed.
Lemma words_all (p : ascii -> bool) l : (forall c, alnum c = true -> p c = true) -> Forall word l -> Forall (fun s => Url.all_chars p s = true) l.
Proof. intros P. apply Forall_impl. intros s W. eapply all_weaken; [|apply word_alnum, W]. exact P. Qed.
Lemma words_has c l sep : alnum c = false -> has c sep = false -> Forall word l -> has c (join sep l) = false.
Proof.
  intros A S F. eapply (all_has (fun d => negb (Ascii.eqb d c))); [|rewrite Ascii.eqb_refl; reflexivity]. apply all_join.
  - now apply has_all.
  - apply words_all; auto. intros d D. now rewrite alnum_not.
Qed.
Lemma dotted_app a b : dotted (a ++ b)%string = (dotted a ++ dotted b)%string.
Proof. induction a; cbn [append dotted]; congruence. Qed.
Lemma dotted_word s : Url.all_chars alnum s = true -> dotted s = lower s.
Proof.
  induction s as [|c s IH]; cbn [Url.all_chars dotted lower]; [reflexivity|]. intros H. apply andb_true_iff in H as [A H]. rewrite A. now rewrite IH.
Qed.
Lemma dotted_join l : Forall word l -> dotted (join "/" l) = join "." (map lower l).
Proof.
  induction l as [|x l IH]; intros F; [reflexivity|]. inversion F; subst. destruct l as [|y l].
  - cbn. now apply dotted_word, word_alnum.
  - change (join "/" (x :: y :: l)) with (x ++ "/" ++ join "/" (y :: l))%string.
    rewrite !dotted_app, IH by auto. rewrite dotted_word by (now apply word_alnum). reflexivity.
Qed.
Lemma lower_alnum c : alnum c = true -> alnum (lower_char c) = true.
Proof.
  intros A. unfold alnum. destruct (is_alpha c) eqn:E; [now rewrite (alpha_lower c E)|].
  unfold alnum in A. rewrite E in A. unfold lower_char. destruct (in_range 65 90 c) eqn:R; [|now rewrite E].
  unfold is_alpha in E. rewrite R in E. discriminate.
Qed.
Lemma lower_all s : Url.all_chars alnum s = true -> Url.all_chars alnum (lower s) = true.
Proof.
  induction s as [|c s IH]; cbn [Url.all_chars lower]; [reflexivity|]. intros H. apply andb_true_iff in H as [A H].
  now rewrite (lower_alnum c A), IH.
Qed.
Lemma letter_lower c : letter c -> letter (lower_char c).
Proof.
  unfold letter, lower_char, in_range. intros H. destruct (N.leb 65 _ && N.leb _ 90) eqn:R; auto.
  apply andb_true_iff in R as [R1 R2]. apply N.leb_le in R1, R2. rewrite N_ascii_embedding by lia. lia.
Qed.
Lemma word_lower s : word s -> word (lower s).
Proof.
  destruct s as [|c r]; [intros []|]. intros [L A]. split; [now apply letter_lower|].
  induction r as [|d r IH]; [exact I|]. destruct A as [D A]. split; auto. apply alnum_iff, lower_alnum, alnum_iff, D.
Qed.
(** Words joined by dots start and end with a letter or digit. *)
Lemma rstrip_last x : forall s, Url.all_chars alnum s = true -> s <> "" -> alnum x = false -> forall a, rstrip_char x (a ++ s)%string = (a ++ s)%string.
Proof.
  intros s A N X. assert (B : rstrip_char x s = s).
  { induction s as [|c s IH]; [congruence|]. cbn [Url.all_chars] in A. apply andb_true_iff in A as [Ac A]. cbn [rstrip_char].
    destruct s as [|d s]; [cbn; now rewrite alnum_not|]. rewrite IH by (auto; discriminate). reflexivity. }
  induction a as [|c a IH]; [exact B|]. cbn [append rstrip_char]. rewrite IH. destruct (a ++ s)%string eqn:E; [|reflexivity].
  destruct a; [cbn in E; congruence|discriminate].
Qed.
Lemma last_word l : l <> [] -> exists a s, join "." l = (a ++ s)%string /\ In s l.
Proof.
  induction l as [|x l IH]; [congruence|]. intros _. destruct l as [|y l].
  - exists "", x. cbn. auto.
  - destruct IH as (a & s & E & I); [discriminate|]. exists (x ++ "." ++ a)%string, s. split; [|now right].
    change (join "." (x :: y :: l)) with (x ++ "." ++ join "." (y :: l))%string. rewrite E. now rewrite !app_assoc'.
Qed.
Lemma strip_words l : l <> [] -> Forall word l -> strip_dots (String "." (join "." l)) = join "." l.
Proof.
  intros N F. unfold strip_dots. cbn [lstrip_dots].
  assert (L : lstrip_dots (join "." l) = join "." l).
  { destruct l as [|x l]; [congruence|]. inversion F as [|? ? W _]; subst. apply word_alnum in W as A. destruct x as [|c x]; [destruct W|].
    cbn [Url.all_chars] in A. apply andb_true_iff in A as [A _].
    assert (E : exists r, join "." (String c x :: l) = String c r) by (destruct l; eexists; reflexivity). destruct E as [r ->].
    destruct (Ascii.eqb c ".") eqn:Q; [rewrite (alnum_not c ".") in Q by auto; discriminate|].
    clear - Q. destruct c as [[] [] [] [] [] [] [] []]; try reflexivity; discriminate. }
  rewrite L. destruct (last_word l N) as (a & s & E & I). rewrite E. rewrite Forall_forall in F. specialize (F s I).
  apply rstrip_last; [now apply word_alnum| |reflexivity]. intros ->. destruct F.
Qed.
Lemma join_concat l : join "." l = String.concat "." l.
Proof. induction l as [|x [|y l] IH]; auto. Qed.
Lemma word_identifier s : word s -> identifier s.
Proof.
  destruct s as [|c r]; [intros []|]. intros [L A]. split; [unfold letter in L; unfold alpha_; cbv zeta in *; tauto|].
  induction r as [|d r IH]; [exact I|]. destruct A as [D A]. split; auto. unfold alnum_, alpha_. unfold letter, digit in D. cbv zeta in *. tauto.
Qed.
Lemma join_app l1 l2 : l1 <> [] -> l2 <> [] -> join "." (l1 ++ l2) = (join "." l1 ++ "." ++ join "." l2)%string.
Proof.
  intros N1 N2. induction l1 as [|x l1 IH]; [congruence|]. destruct l1 as [|y l1].
  - cbn [app]. destruct l2; [congruence|reflexivity].
  - change ((x :: y :: l1) ++ l2) with (x :: (y :: l1) ++ l2). change (join "." (x :: y :: l1)) with (x ++ "." ++ join "." (y :: l1))%string.
    rewrite !app_assoc'. rewrite <- IH by discriminate. reflexivity.
Qed.

Lemma urn_alias ip sch hs ss : sch = "http" \/ sch = "https" -> hs <> [] -> ss <> [] -> Forall word hs -> Forall word ss ->
  urn_to_alias ip (sch ++ "://" ++ join "." hs ++ "/" ++ join "/" ss) = Ok (String.concat "." (rev hs ++ map lower ss)) /\
  dotted_name (String.concat "." (rev hs ++ map lower ss)).
Proof.
  intros SC NH NS WH WS. split.
  - unfold urn_to_alias.
    set (p := ("/" ++ join "/" ss)%string).
    assert (U : urlsplit ip (sch ++ "://" ++ join "." hs ++ p) = Ok (mkSplit sch (join "." hs) p "" "")).
    { rewrite <- (app_nil_r' p) at 1. change (p ++ "")%string with (p ++ tail "" "")%string. rewrite urlsplit_build.
      - unfold check_brackets. rewrite !words_has by (auto; reflexivity). reflexivity.
      - destruct SC as [->| ->]; reflexivity.
      - destruct SC as [->| ->]; reflexivity.
      - apply all_join; [reflexivity|]. apply words_all; auto. intros c A. apply alnum_facts in A as (-> & _). reflexivity.
      - apply all_join; [reflexivity|]. apply words_all; auto. intros c A. apply alnum_facts in A as (_ & _ & A). exact A.
      - apply all_join; [reflexivity|]. apply words_all; auto. intros c A. apply alnum_facts in A as (_ & -> & _). reflexivity.
      - right. reflexivity.
      - unfold p. cbn [append has]. rewrite words_has by (auto; reflexivity). reflexivity.
      - unfold p. cbn [append has]. rewrite words_has by (auto; reflexivity). reflexivity.
      - unfold p, clean. cbn [append Url.all_chars]. rewrite all_join; [reflexivity|reflexivity|].
        apply words_all; auto. intros c A. apply alnum_facts in A as (_ & -> & _). reflexivity.
      - reflexivity.
      - reflexivity.
      - reflexivity. }
    change (urlsplit ip (sch ++ "://" ++ join "." hs ++ "/" ++ join "/" ss)%string) with (urlsplit ip (sch ++ "://" ++ join "." hs ++ p)%string).
    rewrite U. cbn [rbind u_netloc u_fragment u_path u_scheme].
    assert (HP : has ";" p = false).
    { unfold p. cbn [append has]. rewrite words_has by (auto; reflexivity). reflexivity. }
    unfold parsed_path. cbn [u_path u_scheme]. rewrite HP, andb_false_r. rewrite app_nil_r'.
    assert (AS : is_ascii p = true).
    { unfold p, is_ascii. cbn [append Url.all_chars]. rewrite all_join; [reflexivity|reflexivity|].
      apply words_all; auto. intros c A. apply alnum_facts in A as (_ & _ & A). exact A. }
    rewrite AS. unfold p. change ("/" ++ join "/" ss)%string with (String "/" (join "/" ss)).
    cbn [dotted]. change (if alnum "/" then lower_char "/" else "."%char) with "."%char. rewrite dotted_join by auto.
    assert (NL : map lower ss <> []) by (destruct ss; [congruence|discriminate]).
    assert (WL : Forall word (map lower ss)) by (apply Forall_map; eapply Forall_impl; [|exact WS]; apply word_lower).
    assert (NE : String.eqb (String "." (join "." (map lower ss))) "." = false).
    { apply String.eqb_neq. intros [= E]. destruct (map lower ss) as [|x l]; [congruence|]. inversion WL as [|? ? W _]; subst.
      destruct x; [destruct W|]. destruct l; discriminate. }
    rewrite NE. cbn [nonempty negb andb]. rewrite strip_words by auto. assert (HD : Forall (fun x => has "." x = false) hs).
    { eapply Forall_impl; [|exact WH]. intros s W. eapply (all_has alnum); [now apply word_alnum|reflexivity]. }
    rewrite split_join by auto.
    rewrite join_app; auto. intros E. apply (f_equal (@rev string)) in E. rewrite rev_involutive in E. cbn in E. congruence.
  - exists (rev hs ++ map lower ss). split; [|split; [|reflexivity]].
    + rewrite app_length, rev_length, map_length. destruct hs, ss; cbn; try congruence. lia.
    + apply Forall_app. split; [apply Forall_rev|apply Forall_map]; (eapply Forall_impl; [|eassumption]); intros s W; apply word_identifier; auto using word_lower.
Qed.

Lemma alias_ends ip s : nof (urn_to_alias ip s).
Proof.
  unfold urn_to_alias. apply nof_rbind; [|intros u; destruct (is_ascii _); discriminate].
  unfold urlsplit. cbv zeta. destruct (let '(_, _, _) := partition _ _ in _) as [sc url].
  apply nof_rbind.
  - rewrite net_path_eq. unfold net_path, check_brackets. repeat match goal with
      | |- nof (rbind _ _) => apply nof_rbind
      | |- nof (if ?b then _ else _) => destruct b
      | |- nof (let '(_, _) := ?p in _) => destruct p
      | |- forall _, nof _ => intros
      end; discriminate.
  - intros [n u]. destruct (partition "#" u) as [[a b] c]. destruct (partition "?" a) as [[d e] f]. destruct (is_ascii n); discriminate.
Qed.
