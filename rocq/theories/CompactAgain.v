(** Types that were written and read can be written and read again (proofs only). *)
From Coq Require Import String Ascii List ZArith QArith Bool Lia.
From Verif Require Import PyVal PyValFacts RType Regex RegexFacts Registry FromDict ToDict
  FromDictFacts RoundTrip SpecTypes RegistryFacts Nullable NullableFacts Equality SpecCompact
  Compact CompactDocs CompactRead CompactClean CompactMain CompactAlias CompactNames CompactWrite.
Import ListNotations.
Open Scope nat_scope.
Open Scope string_scope.
Open Scope list_scope.

Definition visible_ref (ref : string -> rtype -> Prop) (a : string) (x : rtype) : Prop := ref a x /\ x <> bare_null.

Lemma F2_In_impl {A B} (P Q : A -> B -> Prop) l l' : (forall x y, In y l' -> P x y -> Q x y) -> Forall2 P l l' -> Forall2 Q l l'.
Proof. intros H F. induction F; constructor; auto. - apply H; auto. now left. - apply IHF. intros ? ? I. apply H. now right. Qed.
Lemma dict_visible ref t : forall nd, dict_of ref true nd t -> dict_of (visible_ref ref) true nd t.
Proof.
  induction t as [t IH] using kids_ind. rewrite Forall_forall in IH. intros nd D.
  destruct D as [b t js F|a t H HB|c xs js OA NB LX F|c x nd OA XB EA EL ED UX NX DX D].
  - apply do_node. eapply F2_In_impl; [|exact F]. cbn. intros j x I [(nd & E & D) B]. split; auto. exists nd. split; auto.
  - apply do_ref; auto. split; auto.
  - apply do_optA; auto. eapply F2_In_impl; [|exact F]. cbn. intros j x I [(nd & E & D) B]. split; auto. exists nd. split; auto. apply IH; auto. cbn. auto.
  - apply do_optB; auto. apply IH; cbn; auto.
Qed.

Section Again.
Variable ref : string -> rtype -> Prop.
Hypothesis ref_null : forall a x, ref a x -> x <> bare_null.
Hypothesis ref_def : forall a x, ref a x -> defined_aliases x = [].
Notation same := (same_meaning ref).

Lemma val_none_l v : val_same PNone v -> v = PNone.
Proof. intros H. inversion H as [|? ? ? ? A| | |]; auto. inversion A. Qed.
Lemma val_none_r v : val_same v PNone -> v = PNone.
Proof. intros H. inversion H as [|? ? ? ? ? A| | |]; auto. inversion A. Qed.
Lemma extra_keys c c' : common_same c c' -> forall k, In k (dkeys (c_extra c)) <-> In k (dkeys (c_extra c')).
Proof. intros (_ & _ & _ & X). inversion X as [|? ? ? ? A| | |]; auto. inversion A. Qed.
Lemma extra_vals c c' k v w : common_same c c' -> dget k (c_extra c) = Some v -> dget k (c_extra c') = Some w -> val_same v w.
Proof. intros (_ & _ & _ & X). inversion X as [|? ? ? ? A| | |]; eauto. inversion A. Qed.
Lemma no_keys {V} (d : list (string * V)) : (forall k, In k (dkeys d) -> False) -> d = [].
Proof. destruct d as [|[k v] d]; auto. intros H. exfalso. apply (H k). now left. Qed.
Lemma common_c0_l c : common_same c0 c -> c = c0.
Proof.
  intros S. pose proof (extra_keys _ _ S) as K. destruct S as (A & B & C & _). destruct c as [l a dc e]. cbn in *.
  apply val_none_l in A, B, C. subst. unfold c0. f_equal. apply no_keys. intros k I. now apply K in I.
Qed.
Lemma common_c0_r c : common_same c c0 -> c = c0.
Proof.
  intros S. pose proof (extra_keys _ _ S) as K. destruct S as (A & B & C & _). destruct c as [l a dc e]. cbn in *.
  apply val_none_r in A, B, C. subst. unfold c0. f_equal. apply no_keys. intros k I. now apply K in I.
Qed.
Lemma null_l u : same bare_null u -> u = bare_null.
Proof.
  intros [u' T C _ _|a H]; [|now apply ref_null in H]. destruct u'; try discriminate. cbn in C. apply common_c0_l in C. now subst.
Qed.
Lemma null_r t : same t bare_null -> t = bare_null.
Proof. intros S. inversion S as [u' T C _ _|a H]; subst. destruct t; try discriminate. cbn in C. apply common_c0_r in C. now subst. Qed.
Lemma same_defines x x' : same x x' -> defines x' = PNone <-> defines x = PNone.
Proof.
  intros [u' T (_ & C & _) _ _|a H].
  - destruct x, u'; try discriminate; cbn in *; try tauto; split; intros E; rewrite E in C; (apply val_none_l in C || apply val_none_r in C); auto.
  - apply ref_def, defs_defines in H. rewrite H. cbn. tauto.
Qed.
Lemma same_defs x : forall x', same x x' -> defined_aliases x = [] -> defined_aliases x' = [].
Proof.
  induction x as [x IH] using kids_ind. intros x' S E. destruct S as [u' T C P F|a H]; [|reflexivity].
  rewrite defined_app in *. apply app_eq_nil in E as [E1 E2].
  assert (X : flat_map defined_aliases (children u') = []).
  { clear -IH F E1. revert IH E1. induction F as [|y y' l l' S F IHF]; intros IH E; auto. inversion IH; subst. cbn in *. apply app_eq_nil in E as [E1 E2].
    rewrite (H1 y' S E1). cbn. auto. }
  rewrite X. cbn. destruct C as (_ & C & _). unfold own_alias in *. destruct x, u'; try discriminate; auto; cbn in *; destruct (c_alias c) eqn:A; try discriminate;
    apply val_none_l in C; now rewrite C.
Qed.
Lemma same_In_r x' ts ts' : Forall2 same ts ts' -> In x' ts' -> exists x, In x ts /\ same x x'.
Proof. apply F2_In_r. Qed.
Lemma null_In ts ts' : Forall2 same ts ts' -> In bare_null ts <-> In bare_null ts'.
Proof.
  intros F. split; intros I.
  - destruct (F2_In_l _ _ _ _ F I) as (x & I' & S). apply null_l in S. now subst.
  - destruct (F2_In_r _ _ _ _ F I) as (x & I' & S). apply null_r in S. now subst.
Qed.
Lemma same_union x x' : same x x' -> is_union x = false -> is_union x' = false.
Proof. intros [u' T _ _ _|a H] U; [|reflexivity]. destruct x, u'; try discriminate; reflexivity. Qed.
Lemma same_keys x x' k : same x x' -> In k (dkeys (c_extra (get_c x'))) -> In k (dkeys (c_extra (get_c x))).
Proof. intros [u' _ C _ _|a H] I; [|destruct I]. now apply (extra_keys _ _ C). Qed.

Lemma compact_again t t' : same t t' -> compact_ok t -> compact_ok t'.
Proof.
  intros [u T C P F|a H] CO; [|exact I]. destruct t, u; try discriminate; try exact I. cbn [get_c children] in *.
  unfold compact_ok in *. intros D N. apply (extra_keys _ _ C) in D. apply (null_In _ _ F) in N.
  destruct (CO D N) as (xs & -> & NB & KE & NM & SX). inversion F as [|? y ? ys S0 F']; subst. apply null_l in S0. subst y.
  exists ys. split; auto. split; [now rewrite <- (null_In _ _ F')|]. split; [intros k K; apply KE; now apply (extra_keys _ _ C)|]. split.
  - intros E. destruct (dget "name" (c_extra c)) as [v|] eqn:Q.
    + pose proof (extra_vals _ _ _ _ _ C Q E) as V. apply val_none_r in V. subst. congruence.
    + apply dget_None in Q. apply Q, (extra_keys _ _ C). rewrite <- dget_some_In || idtac. apply dget_In in E. apply (in_map fst) in E. exact E.
  - intros y -> EA EL. inversion F' as [|x ? ? ? S F'']; subst. inversion F''; subst. destruct C as (C1 & C2 & C3 & C4).
    rewrite EA in C2. rewrite EL in C1. apply val_none_r in C1, C2. destruct (SX x eq_refl C2 C1) as (S1 & S2 & S3 & S4).
    rewrite S1 in C3. apply val_none_l in C3. split; auto. split; [eapply same_union; eauto|].
    split; intros K; eapply same_keys in K; eauto.
Qed.

Lemma no_document_same v w : val_same v w -> no_document v -> no_document w.
Proof.
  intros S. destruct S as [|a b q r A B _|s|l l' F|d e _ _]; cbn; auto.
  - intros _. inversion B; exact I.
  - intros H d I. destruct (F2_In_r _ _ _ _ F I) as (x & Ix & S). inversion S as [|? ? ? ? ? B| | |]; subst; [inversion B|]. now apply (H d0).
Qed.
Lemma single_same c ts c' ts' : common_same c c' -> Forall2 same ts ts' ->
  forall x, single_optional (TUnion c ts) = Some x -> exists x', single_optional (TUnion c' ts') = Some x' /\ same x x'.
Proof.
  intros C F x E. apply single_inv in E as (c2 & [= <- ->] & EA & EL & D). inversion F as [|? y ? ys S0 F']; subst. apply null_l in S0. subst y.
  inversion F' as [|? x' ? ? S F'']; subst. inversion F''; subst. exists x'. split; auto. apply (extra_keys _ _ C) in D. destruct C as (C1 & C2 & _ & _).
  rewrite EL in C1. rewrite EA in C2. apply val_none_l in C1, C2. destruct c' as [l a dc e]. cbn in *. subst. apply dmem_true in D. now rewrite D.
Qed.
Lemma alias_again t t' : same t t' -> awf t' -> alias_ok true t -> alias_ok true t'.
Proof.
  intros S W AO D. pose proof (proj1 (same_defines _ _ S) D) as D'. destruct (AO D') as [PE CH].
  destruct S as [u T C P F|a H]; [|split; [intros k v []|intros x []]]. split.
  - intros k v I K. apply awf_inv in W as [((_ & _ & _ & (ND & _)) & _) _].
    assert (G : dget k (c_extra (get_c u)) = Some v) by now apply In_dget.
    assert (I2 : In k (dkeys (c_extra (get_c t)))) by (apply (extra_keys _ _ C); apply (in_map fst) in I; exact I).
    destruct (dget k (c_extra (get_c t))) as [v0|] eqn:G0; [|apply dget_None in G0; contradiction].
    apply (no_document_same v0); [eapply extra_vals; eauto|]. apply (PE k); auto. now apply dget_In.
  - intros x' I. destruct (F2_In_r _ _ _ _ F I) as (x & Ix & S). destruct (CH x Ix) as [V|[E|(_ & ts & ->)]].
    + left. destruct S as [u' T' C' P' F'|a H]; [|exfalso; apply (vis_defs _ _ V); now apply ref_def in H].
      unfold visible_alias in *. destruct (single_optional x) as [y|] eqn:SO.
      * pose proof SO as SO2. apply single_inv in SO2 as (c2 & -> & _). destruct u'; try discriminate. cbn [get_c children] in C', F'.
        destruct (single_same _ _ _ _ C' F' _ SO) as (y' & -> & Sy). intros Q. apply V. now apply (same_defines y y').
      * destruct (single_optional u') as [y'|] eqn:SO'.
        { exfalso. apply single_inv in SO' as (c2 & -> & EA & EL & D2). destruct x; try discriminate. cbn [get_c children] in *.
          inversion F' as [|y ? ys ? S0 F2]; subst. apply null_r in S0. subst y. inversion F2 as [|z ? zs ? S1 F3]; subst. inversion F3; subst.
          apply (extra_keys _ _ C') in D2. destruct C' as (C1 & C2 & _ & _). rewrite EL in C1. rewrite EA in C2. apply val_none_r in C1, C2.
          destruct c as [l a dc e]. cbn in *. subst. apply dmem_true in D2. rewrite D2 in SO. discriminate. }
        intros Q. apply V. apply (same_defines x u'); auto. now apply sm_node.
    + right. left. eapply same_defs; eauto.
    + destruct S as [u' T' C' P' F'|a H]; [|right; left; reflexivity].
      right. right. split; auto. destruct u'; try discriminate. cbn in C'. apply common_c0_l in C'. subst. eauto.
Qed.
Lemma nodes_again (P : rtype -> Prop) : (forall t t', same t t' -> awf t' -> P t -> P t') ->
  forall t t', same t t' -> awf t' -> nodes P t -> nodes P t'.
Proof.
  intros PS t t' S HQ HP. apply all_nodes_nodes. intros s' N'.
  destruct (same_node _ _ _ N' _ S) as (s & N & Ss). apply (PS s); auto.
  - now apply awf_node with t'.
  - apply (nodes_here _ _ (nodes_node_of _ _ _ N HP)).
Qed.
End Again.

Lemma same_mono (r r2 : string -> rtype -> Prop) t : (forall a x, node_of x t -> r a x -> r2 a x) -> forall u, same_meaning r t u -> same_meaning r2 t u.
Proof.
  induction t as [t IH] using kids_ind. intros M u [u' T C P F|a H]; [|apply sm_ref, M; auto; constructor].
  apply sm_node; auto. rewrite Forall_forall in IH. clear -IH F M.
  assert (K : forall x u, In x (children t) -> same_meaning r x u -> same_meaning r2 x u).
  { intros x u I S. apply IH; auto. intros a y N. apply M. eapply node_child; eauto. }
  clear IH M. induction F as [|x y l l' S F IHF]; constructor.
  - apply K; auto. now left.
  - apply IHF. intros. apply K; auto. now right.
Qed.

(** Writing and reading twice. *)
Theorem alias_twice j R R' t : pwf j -> from_dict j R = (R', Ok t) -> all_nodes (alias_ok true) t -> all_nodes compact_ok t ->
  exists d1 R1 t1 d2 R2 t2, to_dict true true t = Ok d1 /\ from_dict d1 R = (R1, Ok t1) /\ same_meaning (names_in t) t t1 /\
    to_dict true true t1 = Ok d2 /\ from_dict d2 R = (R2, Ok t2) /\ same_meaning (names_in t1) t1 t2.
Proof.
  intros W P AO CO. pose proof (from_dict_eff _ _ _ _ W P) as EF. destruct (from_dict_okA _ _ _ _ W P) as [TW _].
  destruct (parsed_writes true t _ _ _ TW EF AO (fun _ => CO)) as (d1 & E1 & nd & T & D). apply dict_visible in D.
  pose proof (ref_word t (parsed_dots _ _ _ _ EF)) as RW.
  destruct (read_back (visible_ref (names_in t)) true d1 t R (fun a x H => RW a x (proj1 H)) (fun a x H => ref_def t a x (proj1 H)) TW (ex_intro _ nd (conj T D)) (eff_fresh _ _ _ _ EF))
    as (R1 & t1 & B1 & B2 & B3 & B4 & B5).
  assert (RN : forall a x, visible_ref (names_in t) a x -> x <> bare_null) by (intros a x H; apply H).
  assert (RD : forall a x, visible_ref (names_in t) a x -> defined_aliases x = []) by (intros a x H; apply (ref_def t a x), H).
  rewrite <- B4 in B5.
  assert (A1 : nodes (alias_ok true) t1).
  { apply (nodes_again _ (alias_ok true) (alias_again _ RN RD)) with t; auto using twf_awf. now apply all_nodes_nodes. }
  assert (C1 : nodes compact_ok t1).
  { apply (nodes_again _ compact_ok (fun x y S _ => compact_again _ RN x y S)) with t; auto using twf_awf. now apply all_nodes_nodes. }
  destruct (parsed_writes true t1 _ _ _ B3 B5 (proj2 (all_nodes_nodes _ _) A1) (fun _ => proj2 (all_nodes_nodes _ _) C1)) as (d2 & E2 & K).
  destruct (read_back (names_in t1) true d2 t1 R (ref_word t1 (parsed_dots _ _ _ _ B5)) (ref_def t1) B3 K (eff_fresh _ _ _ _ B5)) as (R2 & t2 & F1 & F2 & _).
  exists d1, R1, t1, d2, R2, t2. repeat split; auto. apply (same_mono (visible_ref (names_in t))); auto. intros a x _ H. apply H.
Qed.

(** Without aliases only built-in names are used. *)
Lemma defs_In s t a : node_of s t -> is_proxy s = false -> c_alias (get_c s) = PStr a -> In (PStr a) (defined_aliases t).
Proof.
  intros N P' A. induction N as [|t c I N IH]; rewrite defined_app; apply in_or_app.
  - right. unfold own_alias. destruct s; try discriminate; cbn in *; rewrite A; now left.
  - left. apply in_flat_map. eauto.
Qed.
Lemma defs_node s t : node_of s t -> defined_aliases t = [] -> defined_aliases s = [].
Proof.
  intros N. induction N as [|t c I N IH]; auto. rewrite defined_app. intros E. apply app_eq_nil in E as [E _]. apply IH.
  destruct (defined_aliases c) as [|a l] eqn:Q; auto. exfalso. assert (X : In a (flat_map defined_aliases (children t))).
  { apply in_flat_map. exists c. rewrite Q. split; auto. now left. } rewrite E in X. destruct X.
Qed.
Theorem builtin_roundtrip j R R' t : pwf j -> from_dict j R = (R', Ok t) -> defined_aliases t = [] -> all_nodes plain_attributes t ->
  exists d R2 t', to_dict false true t = Ok d /\ from_dict d R = (R2, Ok t') /\ same_meaning builtin_ref t t' /\ dkeys R2 = dkeys R'.
Proof.
  intros W P DA PA. destruct (alias_roundtrip false j R R' t W P) as (d & R2 & t' & A & B & C & D); [|discriminate|].
  - intros s N _. split; [now apply PA|]. intros x I. right. left. apply (defs_node x t); auto. apply node_trans with s; auto. eapply node_child; [exact I|constructor].
  - exists d, R2, t'. repeat split; auto. apply (same_mono (names_in t)); auto. intros a x N [H|s t1 s1 Ns Ps As _ _ _ _]; auto.
    exfalso. pose proof (defs_In _ _ _ Ns Ps As) as X. rewrite DA in X. destruct X.
Qed.
