(** Proofs for C109: arrays of enumerations. *)
From Coq Require Import String Ascii List NArith ZArith QArith Bool Lia.
From Verif Require Import PyVal RType Registry FromDict SpecTypes SpecDb SpecJson SpecRows Dbapi DbapiFacts DbapiMore DbReads DbRanges RowFacts RowPostgres.
From Verif Require Import Url Regex.
From Verif Require RegexFacts.
Import ListNotations.
Open Scope nat_scope.
Open Scope string_scope.
Open Scope list_scope.

Lemma under_strip n : exists u m, n = (u ++ m)%string /\ underscores u /\ lstrip_under (lower n) = lower m.
Proof.
  induction n as [|c n IH].
  - exists "", "". repeat split. now exists 0.
  - destruct (ascii_dec c "_") as [->|NE].
    + destruct IH as (u & m & -> & [k ->] & E). exists (String "_" (String.concat "" (repeat "_" k))), m. repeat split; auto.
      exists (S k). destruct k; reflexivity.
    + exists "", (String c n). repeat split; [now exists 0|]. cbn [lower].
      assert (lower_char c <> "_"%char). { intros E. apply NE. destruct c as [[|] [|] [|] [|] [|] [|] [|] [|]]; cbv in E |- *; congruence. }
      destruct (lower_char c) as [[|] [|] [|] [|] [|] [|] [|] [|]]; try reflexivity. congruence.
Qed.
Lemma str_in_In x l : str_in x l = true -> In x l.
Proof. intros H. unfold str_in in H. apply existsb_exists in H as (y & I & E). apply String.eqb_eq in E as ->. exact I. Qed.
Lemma lower_words w : In w builtin_words \/ In w builtin_beginnings -> lower w = w.
Proof. unfold builtin_words, builtin_beginnings; cbn [In]; intuition (subst; reflexivity). Qed.

Definition no_enum (t : rtype) : Prop := forall c s, ~ shown (TEnum c s) t.
Lemma leaf_no_enum t : shown_children t = [] -> (forall c s, t <> TEnum c s) -> no_enum t.
Proof. intros C N c s H. inversion H as [|? x I _]; subst; [eapply N; eauto|]. rewrite C in I. destruct I. Qed.
Lemma node_no_enum t : (forall c s, t <> TEnum c s) -> (forall x, In x (shown_children t) -> no_enum x) -> no_enum t.
Proof. intros N C c s H. inversion H as [|? x I S]; subst; [eapply N; eauto|]. exact (C x I _ _ S). Qed.
Lemma lower_lower s : lower (lower s) = lower s.
Proof. now rewrite <- (lower_upper (lower s)), (upper_lower s), lower_upper. Qed.

Lemma elem_known n t : elem (lstrip_under (lower ("_" ++ n))) = Ok t -> builtin_like n /\ no_enum t /\ is_union t = false.
Proof.
  destruct (under_strip n) as (u & m & -> & U & E). change (lower ("_" ++ u ++ m)) with (String "_" (lower (u ++ m))).
  cbn [lstrip_under]. rewrite E. unfold elem. rewrite lower_lower. destruct (String.eqb (lower m) "array"); [discriminate|]. intros H.
  assert (W : forall l, str_in (lower m) l = true -> (forall w, In w l -> In w builtin_words) -> builtin_like (u ++ m)).
  { intros l I S. apply str_in_In in I. exists u, m, "". split; [now rewrite RegexFacts.sapp_nil|]. split; auto. left. split; auto.
    exists (lower m). split; [apply ci_lower; now rewrite lower_lower|auto]. }
  assert (B : forall w, starts w (lower m) = true -> In w builtin_beginnings -> builtin_like (u ++ m)).
  { intros w S I. apply starts_ci in S as (a & b & -> & C); [|apply lower_words; auto]. exists u, a, b. repeat split; auto. right. eauto. }
  assert (B' : forall p w, starts (w ++ p) (lower m) = true -> In w builtin_beginnings -> builtin_like (u ++ m)).
  { intros p w S I. apply (B w); auto. apply prefix_spec in S as [r ->]. apply prefix_spec. exists (p ++ r)%string. now rewrite <- RegexFacts.sapp_assoc. }
  assert (Q : forall w, String.eqb (lower m) w = true -> In w builtin_words -> builtin_like (u ++ m)).
  { intros w X I. apply (W [w]); [cbn; rewrite X; reflexivity|]. intros v [<-|[]]; auto. }
  assert (L : forall x, shown_children x = [] -> (forall c s, x <> TEnum c s) -> is_union x = false -> no_enum x /\ is_union x = false)
    by (intros; split; auto; apply leaf_no_enum; auto).
  unfold pg_scalar in H.
  repeat match type of H with
  | (if ?b then _ else _) = _ => destruct b eqn:?
  end; try discriminate H;
  repeat match goal with X : (_ || _)%bool = true |- _ => apply orb_true_iff in X as [X|X] end;
  try (injection H as <-);
  try (split; [|apply L; [reflexivity|discriminate|reflexivity]]);
  try (match goal with X : str_in (lower m) ?l = true |- _ => apply (W l X); cbn; intros; tauto end);
  try (match goal with X : String.eqb (lower m) ?w = true |- _ => apply (Q w X); cbn; tauto end);
  try (match goal with X : starts ?w (lower m) = true |- _ => apply (B w X); cbn; tauto end).
  - apply (B' "acter varying" "char"); auto. cbn. tauto.
  - apply (B' " varying" "bit"); auto. cbn. tauto.
Qed.
Lemma set_c_enum t c : no_enum (set_c t c) -> no_enum t.
Proof.
  intros N c' s H. inversion H as [|? x I S]; subst.
  - eapply (N c s). constructor.
  - eapply N. eapply (shown_child _ _ x); [|exact S]. destruct t; exact I.
Qed.
Lemma lists_no_enum t n : no_enum t -> no_enum (n_lists t n).
Proof.
  intros N. induction n as [|n IH]; cbn [n_lists]; apply node_no_enum; try discriminate; cbn; intros x [<-|X]; auto.
  - apply leaf_no_enum; [reflexivity|discriminate].
  - destruct X as [<-|[]]. exact N.
  - destruct X.
Qed.
Lemma base_no_enum enforce ns d col R R' t n ls k : described pg_decl pg_facts d col -> d_type d = PgArray (PgEnum n ls) k ->
  pg_type enforce ns col R = (R', Ok t) -> builtin_like n /\ no_enum t.
Proof.
  intros D T H. rewrite pg_type_cases in H. destruct (pg_header_read d col D) as (oc & ml & nd & E & _ & _ & ND). rewrite E, T in H.
  change (String.eqb "array" "array") with true in H. cbv iota in H. cbn [pg_udt_name] in H.
  destruct (elem _) as [v|] eqn:EL; [|discriminate]. apply elem_known in EL as (B & N & _). split; auto. rewrite T in ND. subst nd.
  destruct enforce.
  - unfold n_dimension_list in H. destruct (Z.ltb _ _); [discriminate|]. injection H as _ <-. now apply lists_no_enum.
  - cbn [rbind] in H. destruct (dmem _ _); [discriminate|]. destruct (re_match _ _); [|discriminate]. injection H as _ <-.
    unfold self_list. apply node_no_enum; [discriminate|]. intros x [<-|[]]. apply node_no_enum; [discriminate|].
    intros x [<-|[<-|[]]]; auto. apply leaf_no_enum; [reflexivity|discriminate].
Qed.
Lemma field_no_enum col b f : field_spec col b f -> no_enum b -> no_enum f.
Proof.
  intros F N. assert (nullable_column col \/ ~ nullable_column col) as [Y|Y].
  { unfold nullable_column. destruct (dget "IS_NULLABLE" col) as [v|]; [|right; intros (s & [=] & _)].
    destruct v; try solve [right; intros (x & [=] & _)]. destruct (String.eqb (upper s) "YES") eqn:U.
    - left. exists s. split; auto. now apply nullable_upper.
    - right. intros (x & [= <-] & C). apply nullable_upper in C. congruence. }
  - destruct (fs_nullable _ _ _ F Y) as (c & X).
    assert (NN : no_enum (TNull c0)) by (apply leaf_no_enum; [reflexivity|discriminate]).
    destruct b; try (subst f; apply node_no_enum; [discriminate|]; intros x [<-|[<-|[]]]; auto).
    destruct X as (ts' & -> & X). apply node_no_enum; [discriminate|]. intros x I. apply X in I as [I|[_ ->]]; auto.
    intros c' s H. eapply N. eapply shown_child; [exact I|exact H].
  - destruct (fs_required _ _ _ F Y) as [E _]. rewrite <- E in N. eapply set_c_enum; eauto.
Qed.

Theorem enum_arrays : forall enforce ns ds cols R R' t i d n ls k,
  Forall2 (described pg_decl pg_facts) ds cols -> nth_error ds i = Some d -> d_type d = PgArray (PgEnum n ls) k ->
  to_recap (pg_type enforce ns) cols R = (R', Ok t) ->
  builtin_like n /\ exists c fs f, t = TStruct c fs /\ nth_error fs i = Some f /\ forall c s, ~ shown (TEnum c s) f.
Proof.
  intros enforce ns ds cols R R' t i d n ls k F I T H. unfold to_recap, mbind, ret in H.
  destruct (fields_of (pg_type enforce ns) cols R) as [R1 [fs|]] eqn:E; [|discriminate]. injection H as <- <-.
  assert (X : builtin_like n /\ exists f, nth_error fs i = Some f /\ no_enum f); [|destruct X as (B & f & J & N); split; auto; eauto 6].
  revert i R R1 fs E I. induction F as [|d0 col ds cols D F IH]; intros i R R1 fs E I; [destruct i; discriminate|]. cbn [fields_of] in E. unfold mbind, lift, ret in E.
  destruct (pg_type enforce ns col R) as [R2 [b|]] eqn:P; [|discriminate]. destruct (finish col b) as [f|] eqn:FI; [|discriminate].
  destruct (fields_of (pg_type enforce ns) cols R2) as [R3 [fs'|]] eqn:E2; [|discriminate]. injection E as <- <-.
  destruct i as [|i]; cbn [nth_error] in *; [|eapply IH; eauto]. injection I as ->.
  destruct (base_no_enum _ _ _ _ _ _ _ _ _ _ D T P) as [B N]. split; auto. exists f. split; auto.
  eapply field_no_enum; [|exact N]. eapply finish_spec; [eapply pg_fresh; exact P|exact FI].
Qed.
