(** Correctness of the derivative matcher and of the alias grammar (proofs only). *)
From Coq Require Import String Ascii List ZArith Bool NArith Lia.
From Verif Require Import PyVal RType Regex SpecTypes.
Import ListNotations.
Open Scope nat_scope.
Open Scope string_scope.

Inductive lang : regex -> string -> Prop :=
| l_eps : lang REps ""
| l_class f c : f c = true -> lang (RClass f) (String c "")
| l_seq a b s t : lang a s -> lang b t -> lang (RSeq a b) (s ++ t)
| l_alt1 a b s : lang a s -> lang (RAlt a b) s
| l_alt2 a b s : lang b s -> lang (RAlt a b) s
| l_star0 a : lang (RStar a) ""
| l_starS a s t : lang a s -> lang (RStar a) t -> lang (RStar a) (s ++ t).

Lemma sapp_nil s : (s ++ "")%string = s.
Proof. induction s; simpl; congruence. Qed.
Lemma sapp_assoc (a b c : string) : ((a ++ b) ++ c)%string = (a ++ (b ++ c))%string.
Proof. induction a; simpl; congruence. Qed.
Lemma sapp_nil_inv (a b : string) : (a ++ b)%string = "" -> a = "" /\ b = "".
Proof. destruct a; simpl; [auto|discriminate]. Qed.

Lemma nullable_lang r : nullable r = true <-> lang r "".
Proof.
  induction r; simpl; split; intros H; try discriminate; try (inversion H; fail); try (constructor; fail); auto.
  - apply andb_true_iff in H as [H1 H2]. change "" with ("" ++ ""). constructor; tauto.
  - inversion H as [| |? ? s1 t1 A B Ea Eb| | | |]; subst.
    apply sapp_nil_inv in Eb as [-> ->]. apply andb_true_iff. tauto.
  - apply orb_true_iff in H as [H|H]; [apply l_alt1|apply l_alt2]; tauto.
  - apply orb_true_iff. inversion H; subst; tauto.
Qed.

Lemma star_cons a c s : lang (RStar a) (String c s) ->
  exists s1 s2, s = (s1 ++ s2)%string /\ lang a (String c s1) /\ lang (RStar a) s2.
Proof.
  intros H. remember (RStar a) as r eqn:Er. remember (String c s) as w eqn:Ew.
  revert c s Ew. induction H; try discriminate; intros c' s' Ew.
  injection Er as ->. destruct s as [|d s].
  - simpl in Ew. eauto.
  - simpl in Ew. injection Ew as -> <-. eauto.
Qed.

Lemma deriv_lang c r : forall s, lang (deriv c r) s <-> lang r (String c s).
Proof.
  induction r; intros s; simpl; split; intros H; try (inversion H; fail).
  - destruct (f c) eqn:E; inversion H; subst. now constructor.
  - inversion H; subst. rewrite H2. constructor.
  - assert (X : lang (RSeq (deriv c r1) r2) s -> lang (RSeq r1 r2) (String c s)).
    { intros X. inversion X; subst. change (String c (s0 ++ t)) with (String c s0 ++ t).
      constructor; auto. now apply IHr1. }
    destruct (nullable r1) eqn:E; auto. inversion H; subst; auto.
    change (String c s) with ("" ++ String c s). constructor.
    + now apply nullable_lang.
    + now apply IHr2.
  - inversion H as [| |? ? s1 t H1 H2 Ha Hb| | | |]; subst. destruct s1 as [|d s1].
    + simpl in Hb. subst t. assert (E : nullable r1 = true) by now apply nullable_lang.
      rewrite E. apply l_alt2. now apply IHr2.
    + simpl in Hb. injection Hb as -> <-.
      assert (X : lang (RSeq (deriv c r1) r2) (s1 ++ t)) by (constructor; auto; now apply IHr1).
      destruct (nullable r1); [now apply l_alt1|auto].
  - inversion H; subst; [apply l_alt1; now apply IHr1|apply l_alt2; now apply IHr2].
  - inversion H; subst; [apply l_alt1; now apply IHr1|apply l_alt2; now apply IHr2].
  - inversion H; subst. change (String c (s0 ++ t)) with (String c s0 ++ t).
    constructor; auto. now apply IHr.
  - apply star_cons in H as (s1 & s2 & -> & H1 & H2). constructor; auto. now apply IHr.
Qed.

Lemma re_match_lang s : forall r, re_match r s = true <-> lang r s.
Proof.
  induction s as [|c s IH]; intros r; simpl.
  - apply nullable_lang.
  - rewrite IH. apply deriv_lang.
Qed.

(** ** The alias grammar *)
Lemma in_range_spec lo hi c :
  in_range lo hi c = true <-> (N_of_ascii lo <= N_of_ascii c /\ N_of_ascii c <= N_of_ascii hi)%N.
Proof. unfold in_range. rewrite andb_true_iff, !N.leb_le. tauto. Qed.

Lemma ascii_eqb_N a b : Ascii.eqb a b = true <-> N_of_ascii a = N_of_ascii b.
Proof.
  rewrite Ascii.eqb_eq. split; [congruence|]. intros H.
  rewrite <- (ascii_N_embedding a), <- (ascii_N_embedding b). now rewrite H.
Qed.

Lemma cls_start_spec c : cls_start c = true <-> alpha_ c.
Proof.
  unfold cls_start, alpha_. rewrite !orb_true_iff, !in_range_spec, ascii_eqb_N.
  simpl (N_of_ascii "a"). simpl (N_of_ascii "z"). simpl (N_of_ascii "A").
  simpl (N_of_ascii "Z"). simpl (N_of_ascii "_"). tauto.
Qed.
Lemma cls_cont_spec c : cls_cont c = true <-> alnum_ c.
Proof.
  unfold cls_cont, alnum_, alpha_. rewrite !orb_true_iff, !in_range_spec, ascii_eqb_N.
  simpl (N_of_ascii "a"). simpl (N_of_ascii "z"). simpl (N_of_ascii "A").
  simpl (N_of_ascii "Z"). simpl (N_of_ascii "_"). simpl (N_of_ascii "0"). simpl (N_of_ascii "9"). tauto.
Qed.

Lemma class_lang f s : lang (RClass f) s <-> exists c, s = String c "" /\ f c = true.
Proof. split; [intros H; inversion H; eauto|intros (c & -> & H); now constructor]. Qed.

Lemma starclass_lang f s : lang (RStar (RClass f)) s <-> all_chars (fun c => f c = true) s.
Proof.
  induction s as [|c s IH]; simpl.
  - split; auto. intros _. constructor.
  - split.
    + intros H. apply star_cons in H as (s1 & s2 & -> & H1 & H2).
      inversion H1; subst. simpl in *. split; auto. now apply IH.
    + intros [H1 H2]. change (String c s) with (String c "" ++ s). constructor.
      * now constructor.
      * now apply IH.
Qed.

Lemma all_chars_impl (P Q : ascii -> Prop) s :
  (forall c, P c <-> Q c) -> all_chars P s <-> all_chars Q s.
Proof. intros H. induction s; simpl; [tauto|]. now rewrite H, IHs. Qed.

Definition ident_re : regex := RSeq (RClass cls_start) (RStar (RClass cls_cont)).

Lemma ident_lang s : lang ident_re s <-> identifier s.
Proof.
  unfold ident_re. split.
  - intros H. inversion H; subst. inversion H2; subst. simpl.
    split; [now apply cls_start_spec|]. apply starclass_lang in H4.
    revert H4. apply (all_chars_impl _ _ _ cls_cont_spec).
  - destruct s as [|c s]; simpl; [tauto|]. intros [H1 H2].
    change (String c s) with (String c "" ++ s). constructor.
    + constructor. now apply cls_start_spec.
    + apply starclass_lang. revert H2. apply (all_chars_impl _ _ _ cls_cont_spec).
Qed.

Definition dot_ident : regex := RSeq (RChar ".") ident_re.

Lemma dot_ident_lang s : lang dot_ident s <-> exists x, identifier x /\ s = String "." x.
Proof.
  unfold dot_ident, RChar. split.
  - intros H. inversion H; subst. inversion H2; subst. apply Ascii.eqb_eq in H1. subst c.
    exists t. split; auto. now apply ident_lang.
  - intros (x & Hx & ->). change (String "." x) with (String "." "" ++ x). constructor.
    + constructor. reflexivity.
    + now apply ident_lang.
Qed.

Fixpoint dots (l : list string) : string :=
  match l with [] => "" | x :: r => (String "." x) ++ dots r end.

Lemma star_dots s : lang (RStar dot_ident) s <-> exists l, Forall identifier l /\ s = dots l.
Proof.
  split.
  - intros H. remember (RStar dot_ident) as r eqn:Er. induction H; try discriminate.
    + exists []. auto.
    + injection Er as ->. destruct IHlang2 as (l & Hl & ->); auto.
      apply dot_ident_lang in H as (x & Hx & ->). exists (x :: l). auto.
  - intros (l & Hl & ->). induction Hl; simpl; [constructor|].
    change (String "." (x ++ dots l)) with ((String "." x) ++ dots l). constructor; auto.
    apply dot_ident_lang. eauto.
Qed.

Lemma concat_dots x l : String.concat "." (x :: l) = (x ++ dots l)%string.
Proof.
  revert x. induction l as [|y l IH]; intros x.
  - simpl. now rewrite sapp_nil.
  - change (String.concat "." (x :: y :: l)) with (x ++ "." ++ String.concat "." (y :: l))%string.
    rewrite IH. reflexivity.
Qed.

Theorem alias_regex_spec s : re_match alias_regex s = true <-> dotted_name s.
Proof.
  rewrite re_match_lang. unfold alias_regex, RPlus.
  change (RSeq (RChar ".") (RSeq (RClass cls_start) (RStar (RClass cls_cont)))) with dot_ident.
  split.
  - intros H. inversion H as [| |? ? s1 t1 A1 B1 Ea Eb| | | |]; subst.
    inversion B1 as [| |? ? s2 t2 A2 B2 Ea Eb| | | |]; subst.
    inversion B2 as [| |? ? s3 t3 A3 B3 Ea Eb| | | |]; subst.
    apply dot_ident_lang in A3 as (y & Hy & ->). apply star_dots in B3 as (l & Hl & ->).
    exists ((s1 ++ s2)%string :: y :: l). split; [simpl; lia|]. split.
    + constructor; [|constructor; auto]. apply ident_lang. now constructor.
    + rewrite concat_dots. simpl dots. now rewrite sapp_assoc.
  - intros (segs & Hlen & Hf & ->). destruct segs as [|x [|y l]]; simpl in Hlen; try lia.
    inversion Hf as [|? ? Hx Hf']; subst. inversion Hf' as [|? ? Hy Hl]; subst.
    rewrite concat_dots. apply ident_lang in Hx. inversion Hx as [| |? ? s1 s2 A1 B1 Ea Eb| | | |]; subst.
    rewrite sapp_assoc. constructor; auto. constructor; auto. simpl dots.
    change (String "." (y ++ dots l)) with ((String "." y) ++ dots l). constructor.
    + apply dot_ident_lang. eauto.
    + apply star_dots. eauto.
Qed.
