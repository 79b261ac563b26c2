(** to_dict with aliases writes documents that from_dict reads back. *)
From Coq Require Import String Ascii List ZArith QArith Bool Lia.
From Verif Require Import PyVal PyValFacts RType Regex RegexFacts Registry FromDict ToDict
  FromDictFacts RoundTrip SpecTypes RegistryFacts Nullable NullableFacts Equality SpecCompact
  Compact CompactDocs CompactRead CompactClean CompactMain CompactAlias CompactNames.
Import ListNotations.
Open Scope nat_scope.
Open Scope string_scope.
Open Scope list_scope.

Lemma alias_shown (ref : string -> rtype -> Prop) cl nd t : (forall a t, ref a t -> defined_aliases t = []) ->
  twf t -> dict_of ref cl nd t -> defines t <> PNone -> kwarg "alias" PNone nd <> PNone.
Proof.
  intros ref_def W D A. destruct D as [b t js F|a t H _|c xs js _ _ _ F|c x nd H0 H1 EA EL ED U NN ND D].
  - unfold kwarg, entries, commons, ent. cbn [dget]. change (String.eqb "alias" "type") with false. cbv iota.
    destruct t; cbn [is_proxy defines get_c] in *; try congruence;
      (destruct (py_eq PNone (c_alias c)) eqn:E; [apply py_eq_none_inv in E; congruence|]); rewrite andb_false_r; cbn; exact A.
  - exfalso. apply ref_def in H. rewrite defined_app in H. apply app_eq_nil in H as [_ H].
    unfold own_alias, defines in *. destruct t; cbn in *; try congruence; destruct (c_alias c); congruence.
  - cbn in A. unfold kwarg. cbn [dget]. change (String.eqb "alias" "type") with false. change (String.eqb "alias" "types") with false. cbv iota.
    rewrite tail_eq, ent_none. destruct (c_alias c); cbn; congruence.
  - cbn in A. congruence.
Qed.
Lemma defs_defines x : defined_aliases x = [] -> defines x = PNone.
Proof.
  rewrite defined_app. intros E. apply app_eq_nil in E as [_ E]. unfold own_alias, defines in *. destruct x; auto; destruct (c_alias (get_c _)); try discriminate; auto.
Qed.
Lemma fresh_kids K t : fresh K (defined_aliases t) -> Forall (fun x => fresh K (defined_aliases x)) (children t).
Proof.
  rewrite defined_app. intros (names & E & ND & H). symmetry in E. apply map_eq_app in E as (n1 & n2 & -> & E1 & E2).
  assert (X : NoDup n1) by now apply NoDup_app_l in ND. assert (Y : forall a, In a n1 -> ~ In a K /\ dotted_name a) by (intros; apply H, in_or_app; auto).
  clear -X Y E1. revert n1 X Y E1. induction (children t) as [|x l IH]; intros n1 X Y E; constructor; cbn in E; apply map_eq_app in E as (m1 & m2 & -> & E1 & E2).
  - exists m1. split; auto. split; [now apply NoDup_app_l in X|]. intros; apply Y, in_or_app; auto.
  - apply (IH m2); auto. { now apply NoDup_app_r in X. } intros; apply Y, in_or_app; auto.
Qed.
Lemma dsize_app (a b : list (string * pyval)) : dsize (a ++ b) = dsize a + dsize b.
Proof. induction a as [|[k v] a IH]; auto. unfold dsize in *. cbn [app fold_right]. rewrite IH. lia. Qed.
Lemma node_trans s t u : node_of s t -> node_of t u -> node_of s u.
Proof. intros A B. induction B; auto. eapply node_child; eauto. Qed.

Section Write.
Variable root : rtype.
Hypothesis root_twf : twf root.
Hypothesis root_dots : forall s a, node_of s root -> is_proxy s = false -> c_alias (get_c s) = PStr a -> dotted_name a.
Variable cl : bool.
Notation ref := (names_in root).
Notation dict_of := (dict_of ref cl).
Notation doc_of := (doc_of ref cl).
Notation kid_of := (kid_of ref cl).
Notation rec_ok := (rec_ok ref cl).
Let RW := ref_word root root_dots.
Let RD := ref_def root.

Lemma reads_none R td x : twf x -> dict_of td x -> defined_aliases x = [] ->
  exists x1, from_dict (PDict td) R = (R, Ok x1) /\ same_meaning ref x x1 /\ awf x1.
Proof.
  intros W D E. destruct (read_back ref cl (PDict td) x R RW RD W) as (R' & x1 & B1 & B2 & B3 & _ & (X & -> & K & _)).
  - exists td; auto.
  - rewrite E. exists []. repeat split; auto; try constructor; destruct H.
  - rewrite E in K. destruct X; [|discriminate]. rewrite app_nil_r in B1. exists x1. auto using twf_awf.
Qed.

Lemma keys_dict n R td x : rec_ok n R -> twf x -> nodes (alias_ok cl) x -> defined_aliases x = [] -> dict_of td x -> psize (PDict td) <= S n ->
  exists nd, alias_keys (alias_dict_f n) td R = (R, Ok nd) /\ dict_of nd x.
Proof.
  intros H W A E D. induction D as [b t js F|a t Ha HB|c xs js OA NB LX F|c x nd OA XB EA EL ED UX NX DX D IH]; intros L.
  - destruct (keys_ok ref cl n R b t js H W A) as (js' & M & F'); auto.
    + apply nodes_here in A. exact (proj1 (A (defs_defines _ E))).
    + pose proof (Forall_twf_children _ W) as WC. apply defs_kids in E. clear -F WC E. revert WC E. 
      induction F; intros WC E; constructor; inversion WC; inversion E; subst; auto. apply (safe_none ref cl); auto.
    + apply (fits_kids n b t js); [|now apply F2_length in F]. now apply (fits_doc (PDict (entries b t js))).
    + exists (entries b t js'). split; auto. now apply do_node.
  - exists [("type", PStr a)]. split; [reflexivity|now apply do_ref].
  - apply defs_kids in E. cbn [children] in E. pose proof (Forall_twf_children _ W) as WC. pose proof (nodes_children _ _ A) as AC. cbn [children] in WC, AC.
    inversion E; subst. inversion WC; subst. inversion AC; subst.
    assert (L' : forall j, In j js -> psize j <= n).
    { apply (fits_kids n true (TUnion c0 xs) js); [|now apply F2_length in F]. pose proof (fits_doc (PDict (("type", PStr "union") :: ("types", PList js) :: tail c)) _ n eq_refl L) as L2.
      intros k v I. apply L2. cbn in I. cbn. tauto. }
    assert (S : Forall2 (safe) js xs).
    { clear -F H3 H5. revert H3 H5. induction F; intros WC E; constructor; inversion WC; inversion E; subst; auto. apply (safe_none ref cl); auto. }
    destruct (slots_ok ref cl n R _ _ H H5 H7 F S L') as (l2 & M2 & F2).
    destruct (ones_ok ref cl n R _ _ H H5 H7 F) as (l1 & M1 & F1); auto. { eapply F2_impl; [|exact S]. intros ? ? []; auto. }
    exists (("type", PStr "union") :: ("types", PList l1) :: tail c). split; [|now apply do_optA].
    change (("type", PStr "union") :: ("types", PList js) :: tail c) with (entries true (TUnion c0 xs) js ++ tail c).
    change (("type", PStr "union") :: ("types", PList l1) :: tail c) with (entries true (TUnion c0 xs) l1 ++ tail c).
    apply keys_app. { intros k I J. apply tail_keys in J. cbn in I, J. intuition congruence. }
    rewrite (alias_node _ R true (TUnion c0 xs) js l1 l2); auto.
    + repeat split; cbn; auto; try constructor; tauto.
    + intros k v [].
    + now apply F2_length in F.
  - assert (Wx : twf x) by (apply (twf_member _ _ _ W); cbn; auto).
    apply nodes_children in A. apply defs_kids in E. cbn [children] in *. inversion A as [|? ? _ A2]; subst. inversion A2; subst.
    inversion E as [|? ? _ E2]; subst. inversion E2; subst.
    destruct IH as (nd' & M & D'); auto.
    { rewrite psize_dict in *. rewrite dsize_app in L. lia. }
    exists (nd' ++ tail c). split; [|now apply do_optB]. apply keys_app; auto.
    intros k I J. apply tail_keys in J. cbn in I, J. intuition congruence.
Qed.

Lemma alias_step n td R t1 R1 : kwarg "alias" PNone td = PNone -> from_dict (PDict td) R = (R1, Ok t1) -> find_alias R1 t1 = None ->
  forall nd, alias_keys (alias_dict_f n) td R1 = (R1, Ok nd) -> alias_dict_f (S n) td R = (R1, Ok (PDict nd)).
Proof.
  intros K F X nd. cbn [alias_dict_f]. rewrite K. cbn [is_none negb]. unfold mbind at 1. rewrite F, X. unfold alias_keys, mbind.
  destruct (alias_key _ "values" td R1) as [R2 [d2|]]; [|discriminate].
  destruct (alias_key _ "keys" d2 R2) as [R3 [d3|]]; [|discriminate].
  destruct (alias_key _ "fields" d3 R3) as [R4 [d4|]]; [|discriminate].
  intros ->. reflexivity.
Qed.
Lemma alias_hit n td R t1 R1 a : kwarg "alias" PNone td = PNone -> from_dict (PDict td) R = (R1, Ok t1) -> find_alias R1 t1 = Some a ->
  alias_dict_f (S n) td R = (R1, Ok (PDict [("type", PStr a)])).
Proof.
  intros K F X. cbn [alias_dict_f]. rewrite K. cbn [is_none negb]. unfold mbind at 1. now rewrite F, X.
Qed.
Lemma alias_keep n td R : kwarg "alias" PNone td <> PNone -> alias_dict_f (S n) td R = (R, Ok (PDict td)).
Proof. intros K. cbn [alias_dict_f]. apply is_none_false in K. now rewrite K. Qed.

Lemma rec_all n : forall R, reg_good root R -> rec_ok n R.
Proof.
  induction n as [|n IH]; intros R G td x W A D NB L C.
  - pose proof (psize_pos (PDict td)). lia.
  - destruct (is_none (kwarg "alias" PNone td)) eqn:K.
    + apply is_none_true in K. destruct C as [C|C]; [congruence|].
      destruct (reads_none R td x W D C) as (x1 & F & S & W1). destruct (find_alias R x1) as [a|] eqn:X.
      * exists [("type", PStr a)]. split; [eapply alias_hit; eauto|]. apply do_ref; auto. eapply match_names; eauto. now apply twf_awf.
      * destruct (keys_dict n R td x (IH R G) W A C D L) as (nd & M & D'). exists nd. split; auto. eapply alias_step; eauto.
    + apply is_none_false in K. exists td. split; auto. now apply alias_keep.
Qed.

Definition written (j : pyval) (t : rtype) : Prop :=
  kid_of j t /\ (cl = true -> cleaned ref j t) /\ (cl = false -> exists nd, j = PDict nd).

Lemma safe_kid j x : twf x -> alias_ok cl x -> written j x ->
  visible_alias cl x <> PNone \/ defined_aliases x = [] \/ (cl = true /\ exists ts, x = TUnion c0 ts) -> safe j x.
Proof.
  intros W AO (K & C1 & C2) H. destruct cl eqn:CL.
  - destruct (C1 eq_refl) as (_ & (S1 & S2) & S3). 
    assert (ONE : forall j x, shape j x -> visible_alias true x <> PNone \/ defined_aliases x = [] \/ (true = true /\ exists ts, x = TUnion c0 ts) -> safe1 j x).
    { clear. intros j x [S1 S2] [H|[H|(_ & ts & ->)]].
      - destruct (S1 H) as (nd & -> & A). cbn. auto.
      - now apply safe1_none.
      - destruct j; cbn; auto. exfalso. now apply (S2 eq_refl eq_refl d). }
    split; [apply ONE; [split|]; auto|]. destruct j; auto. destruct x; auto. specialize (S3 _ _ _ eq_refl eq_refl).
    destruct (list_doc ref true _ _ W (proj1 K)) as (b & c' & ts' & [= <- <-] & E & _).
    assert (EA : c_alias c = PNone).
    { unfold commons in E. cbn in E. apply app_eq_nil in E as [E _]. unfold ent in E. destruct (b && py_eq PNone (c_alias c)) eqn:X; [|discriminate].
      apply andb_true_iff in X as [_ X]. now apply py_eq_none_inv in X. }
    destruct (AO EA) as [_ AC]. cbn [children] in AC.
    clear -S3 AC ONE. induction S3 as [|j x l ts S F IH]; constructor.
    + apply ONE; auto. apply AC. now left.
    + apply IH. intros y I. apply AC. now right.
  - destruct (C2 eq_refl) as (nd & ->). split; auto. cbn. destruct H as [H|[H|(H & _)]]; auto; [|discriminate].
    left. destruct K as [(nd' & [= <-] & D) _]. apply (alias_shown ref false nd x RD W D). exact H.
Qed.

Lemma alias_top t js : node_of t root -> nodes (alias_ok cl) t -> fresh (dkeys builtin_aliases) (defined_aliases t) ->
  Forall2 written js (children t) -> exists nd, alias_dict (entries false t js) = Ok (PDict nd) /\ dict_of nd t.
Proof.
  intros NR A FR F. assert (W : twf t) by exact (nodes_node_of _ _ _ NR root_twf).
  pose proof (nodes_here _ _ W) as N. pose proof (Forall_twf_children _ W) as WC. pose proof (nodes_children _ _ A) as AC.
  assert (FK : Forall2 kid_of js (children t)) by (eapply F2_impl; [|exact F]; intros ? ? [? _]; auto).
  assert (D : dict_of (entries false t js) t) by now apply do_node.
  assert (KA : kwarg "alias" PNone (entries false t js) = defines t).
  { unfold kwarg, entries, commons. cbn [dget ent andb]. change (String.eqb "alias" "type") with false. cbv iota. destruct t; try reflexivity.
    cbn. rewrite app_nil_r. rewrite (proj2 (dget_None "alias" (c_extra c))); auto. destruct N as (_ & N & _). intros I. apply (N _ I). cbn. auto. }
  unfold alias_dict. rewrite psize_dict.
  destruct (is_none (defines t)) eqn:DT; [apply is_none_true in DT|apply is_none_false in DT].
  2:{ exists (entries false t js). split; auto. rewrite alias_keep by congruence. reflexivity. }
  destruct (read_back ref cl (PDict (entries false t js)) t builtin_aliases RW RD W) as (R1 & t1 & B1 & B2 & B3 & B4 & B5); auto.
  { eexists. split; [reflexivity|exact D]. }
  apply twf_awf in B3. destruct B5 as (E & -> & _ & _ & _ & B5).
  assert (G : reg_good root (builtin_aliases ++ E)).
  { intros a e I. apply in_app_or in I as [I|I]; [now left|]. destruct (B5 a e I) as (s1 & N1 & P1 & A1 & F1). right.
    destruct (same_node _ _ _ N1 _ B2) as (s & Ns & Ss). exists s, s1. destruct (same_alias _ _ _ _ Ss P1 A1) as [P2 A2].
    repeat split; auto. { now apply node_trans with t. } now apply awf_node with t1. }
  destruct (find_alias (builtin_aliases ++ E) t1) as [a|] eqn:X.
  - exists [("type", PStr a)]. split; [now rewrite (alias_hit _ _ _ t1 _ a (eq_trans KA DT) B1 X)|].
    assert (BR : builtin_ref a t).
    { apply find_alias_In in X as (e & I & EQ). apply in_app_or in I as [I|I].
      - eapply builtin_match; eauto. now apply twf_awf.
      - exfalso. destruct (B5 a e I) as (s1 & N1 & P1 & A1 & F1).
        apply rt_eq_forget in EQ. rewrite F1 in EQ. apply (proj1 (rt_eq_forget _ _)) in EQ. apply rt_eq_same in EQ; auto; [|apply label_awf; now apply awf_node with t1].
        apply same_size in EQ. rewrite label_size in EQ. destruct (node_size _ _ N1) as [->|]; [|lia].
        destruct (same_alias _ _ _ _ B2 P1 A1) as [P2 A2]. unfold defines in DT. destruct t; try discriminate; cbn in *; congruence. }
    apply do_ref; [now apply names_builtin|]. intros _ ->. destruct BR as (b & I & [T _ _ _]). apply builtin_leaf in I as (_ & _ & I & _). destruct b; discriminate.
  - assert (S : Forall2 safe js (children t)).
    { destruct (nodes_here _ _ A DT) as [_ AK]. clear -F WC AC AK RW RD root_twf root_dots. revert WC AC AK. induction F as [|j x l ts H F IH]; intros WC AC AK; constructor;
        inversion WC; inversion AC; subst.
      - apply safe_kid; auto; [now apply nodes_here in H6|]. apply AK. now left.
      - apply IH; auto. intros y I. apply AK. now right. }
    destruct (keys_ok ref cl (dsize (entries false t js)) (builtin_aliases ++ E) false t js (rec_all _ _ G) W A) as (js' & M & F'); auto.
    + exact (proj1 (nodes_here _ _ A DT)).
    + apply (fits_kids _ false t js); [|now apply F2_length in F]. apply (fits_doc (PDict (entries false t js))); auto. rewrite psize_dict. lia.
    + exists (entries false t js'). split; [|now apply do_node]. now rewrite (alias_step _ _ _ t1 _ (eq_trans KA DT) B1 X _ M).
Qed.

Lemma writes t : node_of t root -> nodes (alias_ok cl) t -> (cl = true -> nodes compact_ok t) -> fresh (dkeys builtin_aliases) (defined_aliases t) ->
  exists j, to_dict cl true t = Ok j /\ written j t.
Proof.
  induction t as [t IH] using kids_ind. intros NR A CO FR. assert (W : twf t) by exact (nodes_node_of _ _ _ NR root_twf).
  pose proof (nodes_children _ _ A) as AC. pose proof (fresh_kids _ _ FR) as FC.
  assert (CC : cl = true -> Forall (nodes compact_ok) (children t)) by (intros E; now apply nodes_children, CO).
  assert (NC : Forall (fun x => node_of x root) (children t)).
  { apply Forall_forall. intros x I. apply node_trans with t; auto. eapply node_child; [exact I|constructor]. }
  assert (K : exists js, rmap (to_dict cl true) (children t) = Ok js /\ Forall2 written js (children t)).
  { clear -IH AC FC CC NC. induction (children t) as [|x l IHl]; [exists []; split; constructor|].
    inversion IH; subst. inversion AC; subst. inversion FC; subst. inversion NC; subst.
    destruct H1 as (j & E & D); auto. { intros C. specialize (CC C). now inversion CC. }
    destruct IHl as (js & E' & D'); auto. { intros C. specialize (CC C). now inversion CC. }
    exists (j :: js). cbn. rewrite E. cbn. rewrite E'. split; auto. }
  destruct K as (js & E & F). rewrite to_dict_kids, E. cbn [rbind]. rewrite node_entries; [|now apply nodes_here in W|now apply F2_length in F].
  destruct (alias_top t js NR A FR F) as (nd & EA & D). unfold post_dict. rewrite EA. cbn [rbind].
  destruct cl eqn:CL.
  - destruct (clean_ok ref RW RD t (PDict nd) W) as (j' & E' & C).
    + apply all_nodes_nodes. auto.
    + exists nd. auto.
    + exists j'. split; auto. unfold written. rewrite CL. split; [apply C|split; [auto|discriminate]].
  - exists (PDict nd). split; auto. unfold written. rewrite CL. split; [split; [exists nd; auto|discriminate]|split; [discriminate|eauto]].
Qed.
End Write.

(** ** Theorems *)
Lemma parsed_dots P R R' t : eff P R R' (defined_aliases t) -> forall s a, node_of s t -> is_proxy s = false -> c_alias (get_c s) = PStr a -> dotted_name a.
Proof.
  intros (E & _ & K & _ & H & _) s a N P' A. assert (I : In (PStr a) (defined_aliases t)).
  { clear -N P' A. induction N as [|t c I N IH]; rewrite defined_app; apply in_or_app.
    - right. unfold own_alias. destruct s; try discriminate; cbn in *; rewrite A; now left.
    - left. apply in_flat_map. eauto. }
  rewrite <- K in I. apply in_map_iff in I as (a' & [= ->] & I). now apply H.
Qed.
Lemma builtin_fresh K t : fresh K (defined_aliases t) -> fresh (dkeys builtin_aliases) (defined_aliases t).
Proof.
  intros (names & E & ND & H). exists names. split; auto. split; auto. intros a I. destruct (H a I) as [_ D]. split; auto. now apply dotted_builtin.
Qed.

(** A type that was read can be written, and the document can be read. *)
Lemma parsed_writes cl t P R R' : twf t -> eff P R R' (defined_aliases t) -> all_nodes (alias_ok cl) t -> (cl = true -> all_nodes compact_ok t) ->
  exists d, to_dict cl true t = Ok d /\ doc_of (names_in t) cl d t.
Proof.
  intros TW EF AO CO. destruct (writes t TW (parsed_dots _ _ _ _ EF) cl t) as (d & Ed & K & _).
  - constructor.
  - now apply all_nodes_nodes.
  - intros E. now apply all_nodes_nodes, CO.
  - eapply builtin_fresh, eff_fresh; eauto.
  - exists d. split; auto. exact (proj1 K).
Qed.

Theorem alias_roundtrip cl j R R' t : pwf j -> from_dict j R = (R', Ok t) ->
  all_nodes (alias_ok cl) t -> (cl = true -> all_nodes compact_ok t) ->
  exists d R2 t', to_dict cl true t = Ok d /\ from_dict d R = (R2, Ok t') /\ same_meaning (names_in t) t t' /\ dkeys R2 = dkeys R'.
Proof.
  intros W P AO CO. pose proof (from_dict_eff _ _ _ _ W P) as EF. destruct (from_dict_okA _ _ _ _ W P) as [TW _].
  destruct (parsed_writes cl t _ _ _ TW EF AO CO) as (d & Ed & K).
  destruct (read_back (names_in t) cl d t R (ref_word t (parsed_dots _ _ _ _ EF)) (ref_def t) TW K (eff_fresh _ _ _ _ EF)) as (R2 & t' & B1 & B2 & _ & _ & B5).
  exists d, R2, t'. repeat split; auto. symmetry. eapply eff_keys; eauto.
Qed.
