(** Proofs for C128: how Hive tables with statistics are printed. *)
From Coq Require Import String Ascii List NArith ZArith QArith Bool Lia.
From Verif Require Import PyVal PyValFacts RType Regex RegexFacts Registry FromDict ToDict FromDictFacts RoundTrip SpecTypes
  RegistryFacts Nullable NullableFacts Equality SpecCompact Compact CompactDocs CompactRead CompactClean CompactMain CompactAlias
  CompactNames CompactWrite CompactAgain Url Dbapi SpecDb DbapiFacts DbapiMore DbRanges Hive SpecHive HiveFacts HiveMore Documents
  SpecPrinted SpecStats Printed HivePrinted.
From Verif Require CleanTwice.
Import ListNotations.
Open Scope nat_scope.
Open Scope string_scope.
Open Scope list_scope.

Section Forget.
Variable root : rtype.
Hypothesis root_twf : twf root.
Hypothesis root_alias : defined_aliases root = [].
Let root_dots : forall s a, node_of s root -> is_proxy s = false -> c_alias (get_c s) = PStr a -> dotted_name a.
Proof. intros s a N P A. pose proof (defs_In _ _ _ N P A) as X. rewrite root_alias in X. destruct X. Qed.
Notation ref := (names_in root).
Notation written := (written root true).

Lemma named_builtin a t : ref a t -> builtin_ref a t.
Proof. intros [X|s t1 s1 N P A _ _ _ _]; auto. exfalso. pose proof (defs_In _ _ _ N P A) as X. rewrite root_alias in X. destruct X. Qed.
Lemma node_defs s : node_of s root -> defined_aliases s = [].
Proof.
  intros N. revert root_alias. clear -N. induction N as [|t x I N IH]; auto. intros E. apply IH. rewrite defined_app in E.
  apply app_eq_nil in E as [E _]. clear -I E. induction (children t) as [|y l IHl]; [destruct I|]. cbn in E. apply app_eq_nil in E as [E1 E2].
  destruct I as [->|I]; auto.
Qed.

Lemma kids_written ts : Forall (fun x => node_of x root) ts -> Forall (nodes (alias_ok true)) ts -> Forall (nodes compact_ok) ts ->
  exists js, rmap (to_dict true true) ts = Ok js /\ Forall2 written js ts.
Proof.
  intros N A C. induction ts as [|x l IH]; [exists []; split; constructor|].
  inversion N; inversion A; inversion C; subst.
  destruct (writes root root_twf root_dots true x) as (j & E & W); auto.
  { rewrite node_defs; auto. exists []. split; [reflexivity|]. split; [constructor|]. intros a []. }
  destruct IH as (js & E' & F); auto. exists (j :: js). cbn [rmap]. rewrite E. cbn [rbind]. rewrite E'. cbn [rbind]. split; auto.
Qed.

Lemma ddel_app' (k : string) (a b : list (string * pyval)) : ddel k (a ++ b) = ddel k a ++ ddel k b.
Proof. unfold ddel. apply filter_app. Qed.

Lemma forgets d e ts : let c := mkC PNone PNone d e in let c' := mkC PNone PNone PNone (ddel "name" (ddel "default" e)) in
  node_of (TUnion c ts) root -> node_of (TUnion c' ts) root ->
  nodes (alias_ok true) (TUnion c ts) -> Forall (nodes compact_ok) ts -> In bare_null ts ->
  In "default" (dkeys e) -> existsb further_key (dkeys e) = true ->
  exists j, to_dict true true (TUnion c ts) = Ok j /\ written j (TUnion c' ts).
Proof.
  intros c c' NU NU' A C BN DF FK. set (u := TUnion c ts) in *. set (u' := TUnion c' ts) in *.
  assert (W : twf u) by exact (nodes_node_of _ _ _ NU root_twf).
  assert (W' : twf u') by exact (nodes_node_of _ _ _ NU' root_twf).
  assert (RW := ref_word root root_dots). assert (RD := ref_def root).
  pose proof (nodes_here _ _ W) as N. pose proof (Forall_twf_children _ W) as WC. cbn [children u] in WC.
  pose proof (nodes_children _ _ A) as AC. cbn [children u] in AC.
  assert (NC : Forall (fun x => node_of x root) ts).
  { apply Forall_forall. intros x I. apply node_trans with u; auto. eapply node_child; [exact I|constructor]. }
  destruct (kids_written ts NC AC C) as (js & E & F).
  assert (FR : fresh (dkeys builtin_aliases) (defined_aliases u)).
  { rewrite node_defs by auto. exists []. split; [reflexivity|]. split; [constructor|]. intros a []. }
  destruct (alias_top root root_twf root_dots true u js NU A FR F) as (nd & EA & D).
  apply existsb_exists in FK as (k & Ik & FK). unfold further_key in FK. apply andb_true_iff in FK as [K1 K2].
  apply negb_true_iff in K1, K2. apply String.eqb_neq in K1, K2.
  assert (NO : ~ opt_attrs c).
  { intros (_ & O & _). apply O in Ik. tauto. }
  assert (DN : exists b js2, nd = entries b u js2 /\ Forall2 (kid_of ref true) js2 ts).
  { clear -D NO root_alias BN. remember u as v eqn:Ev. destruct D as [b t js2 F|a t H _|c2 xs js2 OA _ _ F|c2 x nd OA _ _ _ _ _ _ _ D].
    - subst t. eauto.
    - exfalso. apply named_builtin in H as (b & I & [_ _ _ S]). apply builtin_leaf in I as (I & _). rewrite I, Ev in S. cbn in S.
      inversion S; subst. destruct BN.
    - injection Ev as -> _. exfalso. auto.
    - injection Ev as -> _. exfalso. auto. }
  destruct DN as (b & js2 & -> & F2).
  rewrite to_dict_kids. cbn [children u]. rewrite E. cbn [rbind]. rewrite node_entries; auto; [|now apply F2_length in F].
  unfold post_dict. rewrite EA. cbn [rbind]. unfold clean_dict. rewrite psize_dict.
  set (n := dsize (entries b u js2)).
  assert (BC : Forall (body_ok ref) ts).
  { rewrite Forall_forall in *. intros x I. apply body_all; auto. }
  destruct (clean_kids ref RW n ts js2 WC BC F2) as (js' & J1 & J2).
  { apply (fits_kids n b u js2); [|now apply F2_length in F2]. apply (fits_doc (PDict (entries b u js2))); auto. rewrite psize_dict. unfold n. lia. }
  assert (F' : Forall2 (kid_of ref true) js' ts) by (eapply F2_impl; [|exact J2]; intros ? ? (Q & _); exact Q).
  pose proof (clean_node (clean_dict_f n) b u js2 js' N (F2_length _ _ _ F2) J1) as CN.
  assert (SU : sugar (entries true u js') = Ok (entries true u' js')).
  { unfold sugar.
    assert (T : kwarg "type" PNone (entries true u js') = PStr "union") by reflexivity.
    assert (Y : dget "types" (entries true u js') = Some (PList js')) by (rewrite get_own; auto; cbn; auto).
    rewrite T, Y. cbn [py_eq negb String.eqb Ascii.eqb Bool.eqb]. rewrite (in_null ref js' ts F' BN). cbn [rbind andb].
    assert (DM : dmem "default" (entries true u js') = true).
    { apply dmem_true. unfold entries, commons. cbn [get_c u c c_extra is_proxy]. unfold dkeys. cbn [map]. right. rewrite !map_app, !in_app_iff. left. auto. }
    rewrite DM. cbn [negb].
    assert (DD : ddel "name" (ddel "doc" (ddel "default" (ddel "logical" (ddel "alias" (entries true u js'))))) = entries true u' js').
    { unfold entries, commons. cbn [get_c u u' c c' own is_proxy c_alias c_logical c_doc c_extra ent py_eq andb app head_name type_name].
      rewrite ent_none. 
      assert (KN : forall x, In x ["alias"; "logical"; "doc"] -> ~ In x (dkeys e)).
      { intros x Ix I. destruct N as (_ & N & _). apply (N x I). cbn in *. intuition. }
      assert (XE : ddel "name" (ddel "doc" (ddel "default" (ddel "logical" (ddel "alias" e)))) = ddel "name" (ddel "default" e)).
      { rewrite (ddel_notin "alias") by (apply KN; cbn; auto). rewrite (ddel_notin "logical") by (apply KN; cbn; auto).
        rewrite (ddel_notin "doc"); auto. intros I. apply ddel_keys in I as [I _]. revert I. apply KN; cbn; auto. }
      change (("type", PStr "union") :: ?a) with ([("type", PStr "union")] ++ a).
      rewrite !ddel_app', XE. destruct (is_none d); reflexivity. }
    rewrite DD. 
    assert (LN : Nat.eqb (length (entries true u' js')) 2 = false).
    { apply Nat.eqb_neq. unfold entries, commons. cbn [get_c u' c' own is_proxy c_alias c_logical c_doc c_extra ent py_eq andb app]. cbn [List.length]. rewrite !app_length. cbn [List.length].
      assert (In k (dkeys (ddel "name" (ddel "default" e)))) by (rewrite !ddel_keys; auto).
      unfold dkeys in H. destruct (ddel "name" (ddel "default" e)); [destruct H|cbn [List.length map]; lia]. }
    rewrite LN. reflexivity. }
  assert (SH : shorten (entries true u' js') = PDict (entries true u' js')).
  { assert (LN : 3 <= length (entries true u' js')).
    { unfold entries, commons. cbn [get_c u' c' own is_proxy c_alias c_logical c_doc c_extra ent py_eq andb app]. cbn [List.length]. rewrite !app_length. cbn [List.length].
      assert (In k (dkeys (ddel "name" (ddel "default" e)))) by (rewrite !ddel_keys; auto).
      unfold dkeys in H. destruct (ddel "name" (ddel "default" e)); [destruct H|cbn [List.length map]; lia]. }
    unfold shorten. destruct (Nat.eqb_spec (length (entries true u' js')) 1); [lia|].
    destruct (Nat.eqb_spec (length (entries true u' js')) 2); [lia|]. now rewrite andb_false_r. }
  exists (PDict (entries true u' js')). split.
  - cbn [clean_dict_f clean_input]. change (dmem "type" (entries b u js2)) with true. cbv iota. cbn [rbind]. rewrite CN. cbn [rbind].
    rewrite SU. cbn [rbind]. now rewrite SH.
  - assert (KO : kid_of ref true (PDict (entries true u' js')) u').
    { split; [|discriminate]. eexists. split; [reflexivity|]. apply do_node. exact F'. }
    split; [exact KO|]. split; [|discriminate]. intros _. split; [exact KO|]. split; [|discriminate].
    split.
    + intros V. exfalso. apply V. unfold visible_alias. destruct (single_optional u') eqn:SO; [|reflexivity].
      apply single_inv in SO as (c2 & EQ & _ & _ & Q). injection EQ as <- _. cbn [c' c_extra] in Q. rewrite !ddel_keys in Q. tauto.
    + cbn [get_c u' c']. unfold c0. intros EQ. exfalso. injection EQ as EQ.
      assert (In k (dkeys (ddel "name" (ddel "default" e)))) by (rewrite !ddel_keys; auto). rewrite EQ in H. destruct H.
Qed.
End Forget.

(** ** A struct of such fields *)
Definition optional_field (f : rtype) : Prop :=
  exists d e ts, f = TUnion (mkC PNone PNone d e) ts /\ In bare_null ts /\ In "default" (dkeys e) /\
    existsb further_key (dkeys e) = true /\ Forall (every compact_ok) ts.
Record field_prints (f : rtype) : Prop := {
  fp_attr : every attr_node f;
  fp_keys : every no_child_key f;
  fp_limits : tree_within_limits f;
  fp_kind : (as_printed f = f /\ every compact_ok f) \/ optional_field f
}.

Lemma every_nodes P t : every P t -> nodes P t.
Proof. intros E. apply all_nodes_nodes. exact E. Qed.
Lemma alias_all t : every attr_node t -> every no_child_key t -> every (alias_ok true) t.
Proof.
  intros A K s N. apply attr_alias_ok; [|apply K, N]. intros s' N'. apply A. eapply node_trans; eauto.
Qed.

Lemma as_printed_ok f : field_prints f -> every attr_node (as_printed f) /\ every no_child_key (as_printed f) /\
  tree_within_limits (as_printed f) /\ every compact_ok (as_printed f).
Proof.
  intros [A K L [[E C]|(d & e & ts & -> & BN & DF & FK & C)]]; [rewrite E; auto|].
  cbn [as_printed c_extra]. rewrite FK. split; [|split; [|split]].
  - apply every_iff in A as [A1 A2]. apply every_iff. split; [|exact A2]. destruct A1 as (D & KS & _ & _ & _ & _ & _).
    unfold attr_node. cbn [get_c c_extra c_logical c_alias c_doc attrs_of is_proxy] in *.
    split; [apply dwf_ddel, dwf_ddel, D|]. split; [intros k I; rewrite !ddel_keys in I; apply KS; tauto|].
    repeat split; constructor.
  - apply every_iff in K as [K1 K2]. apply every_iff. split; [|exact K2]. intros k I. cbn [get_c c_extra] in I. rewrite !ddel_keys in I. apply K1. tauto.
  - apply tree_iff in L as [_ L2]. apply tree_iff. split; [exact I|exact L2].
  - apply every_iff. split; [|exact C]. intros DI. exfalso. cbn [c_extra] in DI. rewrite !ddel_keys in DI. tauto.
Qed.

Lemma struct_prints c fs : attr_node (TStruct c fs) -> no_child_key (TStruct c fs) -> Forall field_prints fs ->
  forall R0, exists d R2 t', to_dict true true (TStruct c fs) = Ok d /\ from_dict d R0 = (R2, Ok t') /\
    same_meaning builtin_ref (TStruct c (map as_printed fs)) t'.
Proof.
  intros CA CK F R0. set (t := TStruct c fs). set (t' := TStruct c (map as_printed fs)).
  assert (AP : Forall (fun f => every attr_node f /\ every no_child_key f /\ tree_within_limits f /\ every compact_ok f) (map as_printed fs)).
  { apply Forall_map. eapply Forall_impl; [|exact F]. exact as_printed_ok. }
  assert (A' : every attr_node t').
  { apply every_iff. split; [exact CA|]. cbn [t' children]. eapply Forall_impl; [|exact AP]. cbn. tauto. }
  assert (K' : every no_child_key t').
  { apply every_iff. split; [exact CK|]. cbn [t' children]. eapply Forall_impl; [|exact AP]. cbn. tauto. }
  assert (L' : tree_within_limits t').
  { apply tree_iff. split; [exact I|]. cbn [t' children]. eapply Forall_impl; [|exact AP]. cbn. tauto. }
  assert (C' : every compact_ok t').
  { apply every_iff. split; [exact I|]. cbn [t' children]. eapply Forall_impl; [|exact AP]. cbn. tauto. }
  set (root := TStruct c0 (t' :: fs)).
  assert (RA : every attr_node root).
  { apply every_iff. split; [repeat split; try constructor; intros k []|]. cbn [root children]. constructor; auto.
    eapply Forall_impl; [|exact F]. intros f Hf. apply Hf. }
  assert (RL : tree_within_limits root).
  { apply tree_iff. split; [exact I|]. cbn [root children]. constructor; auto. eapply Forall_impl; [|exact F]. intros f Hf. apply Hf. }
  assert (RT : twf root).
  { apply sound_twf; auto. intros s N. apply attr_sound, RA, N. }
  pose proof (attr_aliases _ RA) as RD.
  assert (root_dots : forall s a, node_of s root -> is_proxy s = false -> c_alias (get_c s) = PStr a -> dotted_name a).
  { intros s a N P A. pose proof (defs_In _ _ _ N P A) as X. rewrite RD in X. destruct X. }
  assert (NF : Forall (fun f => node_of f root) fs).
  { apply Forall_forall. intros f I. eapply node_child; [|constructor]. now right. }
  assert (NT : node_of t' root) by (eapply node_child; [left; reflexivity|constructor]).
  assert (NF' : Forall (fun f => node_of f root) (map as_printed fs)).
  { apply Forall_forall. intros f I. apply node_trans with t'; auto. eapply node_child; [exact I|constructor]. }
  assert (KW : exists js, rmap (to_dict true true) fs = Ok js /\ Forall2 (written root true) js (map as_printed fs)).
  { clearbody root. clear -F NF NF' RT RD root_dots. induction F as [|f l Hf F IH]; [exists []; split; constructor|].
    apply Forall_cons_iff in NF as [NF1 NF2]. apply Forall_cons_iff in NF' as [NG1 NG2]. destruct (IH NF2 NG2) as (js & E & W). clear IH.
    assert (X : exists j, to_dict true true f = Ok j /\ written root true j (as_printed f)).
    { pose proof (every_nodes _ _ (alias_all f (fp_attr _ Hf) (fp_keys _ Hf))) as AO.
      destruct (fp_kind _ Hf) as [[E1 E2]|(d & e & ts & -> & BN & DF & FK & C)].
      - rewrite E1. apply writes; auto using every_nodes.
        rewrite (attr_aliases _ (fp_attr _ Hf)). exists []. split; [reflexivity|]. split; [constructor|]. intros a [].
      - cbn [as_printed c_extra] in *. rewrite FK in *. apply (forgets root RT RD); auto.
        eapply Forall_impl; [|exact C]. intros x. apply every_nodes. }
    destruct X as (j & E1 & W1). exists (j :: js). cbn [rmap map]. rewrite E1. cbn [rbind]. rewrite E. cbn [rbind]. split; auto. }
  destruct KW as (js & E & W).
  assert (W' : twf t') by exact (nodes_node_of _ _ _ NT RT).
  assert (ND : node_dict t js = entries false t' js).
  { change (node_dict t js) with (node_dict t' js). apply node_entries; [now apply nodes_here in W'|]. apply F2_length in W. exact W. }
  destruct (alias_top root RT root_dots true t' js NT) as (nd & EA & D); auto.
  { apply every_nodes, alias_all; auto. }
  { rewrite (attr_aliases _ A'). exists []. split; [reflexivity|]. split; [constructor|]. intros a []. }
  destruct (clean_ok (names_in root) (ref_word root root_dots) (ref_def root) t' (PDict nd) W') as (j & EJ & CJ).
  { exact C'. }
  { exists nd. auto. }
  destruct CJ as ((DJ & _) & _).
  destruct (read_back (names_in root) true j t' R0 (ref_word root root_dots) (ref_def root) W' DJ) as (R2 & t2 & B1 & B2 & _).
  { rewrite (attr_aliases _ A'). exists []. split; [reflexivity|]. split; [constructor|]. intros a []. }
  exists j, R2, t2. split.
  - rewrite to_dict_kids. cbn [t children]. rewrite E. cbn [rbind]. fold t. rewrite ND. unfold post_dict. rewrite EA. cbn [rbind]. exact EJ.
  - split; [exact B1|]. eapply same_mono; [|exact B2]. intros a x _ X. eapply named_builtin; eauto.
Qed.

(** ** Hive *)
Inductive stat_shape : rtype -> Prop :=
| ss_null e : stat_shape (TNull (mkC PNone PNone PNone e))
| ss_union e xs : ~ In bare_null xs -> In "default" (dkeys e) -> dget "name" e <> Some PNone ->
    Forall (fun x => unlabelled x /\ every compact_ok x) xs ->
    stat_shape (TUnion (mkC PNone PNone PNone e) (bare_null :: xs)).
Record hive_field_ok (f : rtype) : Prop := {
  hf_attr : every attr_node f;
  hf_keys : every no_child_key f;
  hf_limits : tree_within_limits f;
  hf_shape : stat_shape f
}.

Lemma hive_field_prints f : hive_field_ok f -> field_prints f.
Proof.
  intros [A K L S]. split; auto. destruct S as [e|e xs NB DF NN F].
  - left. split; [reflexivity|]. apply every_iff. split; [exact I|constructor].
  - destruct (existsb further_key (dkeys e)) eqn:FK.
    + right. exists PNone, e, (bare_null :: xs). split; [reflexivity|]. split; [now left|]. split; [exact DF|]. split; [exact FK|].
      constructor; [apply every_iff; split; [exact I|constructor]|]. eapply Forall_impl; [|exact F]. cbn. tauto.
    + left. split; [cbn [as_printed c_extra]; now rewrite FK|]. apply every_iff. cbn [children]. split.
      * intros _ _. exists xs. split; [reflexivity|]. split; [exact NB|]. split.
        { cbn [c_extra]. intros k I. destruct (String.eqb_spec k "default"); auto. destruct (String.eqb_spec k "name"); auto. exfalso.
          assert (X : existsb further_key (dkeys e) = true); [|congruence]. apply existsb_exists. exists k. split; auto.
          unfold further_key. apply andb_true_iff. split; apply negb_true_iff, String.eqb_neq; auto. }
        split; [exact NN|]. intros x -> _ _. inversion F as [|? ? [U _]]; subst. split; [reflexivity|exact U].
      * constructor; [apply every_iff; split; [exact I|constructor]|]. eapply Forall_impl; [|exact F]. cbn. tauto.
Qed.

Lemma shaped_stat e f : name_only e -> shaped PNone e f -> stat_shape f.
Proof.
  intros NO [|xs NB F]; constructor; auto; [now left|]. destruct NO as [->|(n & ->)]; cbn; discriminate.
Qed.
Lemma column_field_ok col f : hive_sizes (hc_type col) -> uncommented col -> hive_column col = Ok f -> hive_field_ok f.
Proof.
  intros S U H. pose proof (hive_limits _ _ S H) as L. destruct (hive_printable _ _ U H) as [_ A].
  unfold hive_column in H. pose proof (column_fine col) as F.
  assert (D : (match hc_comment col with Some (String a r) => PStr (String a r) | _ => PNone end) = PNone)
    by (destruct U as [->| ->]; reflexivity).
  rewrite D in H, F. split; auto.
  - exact (parse_child_keys _ _ _ _ F H).
  - exact (shaped_stat _ _ (proj2 F) (parse_shaped _ _ _ _ (proj2 F) H)).
Qed.

Lemma stat_pwf s : plain_stats s -> Forall (fun kv => pwf (snd kv)) (stat_entries s).
Proof.
  destruct s; cbn; unfold opt_entry; repeat match goal with o : option pyval |- _ => destruct o end; cbn; intuition auto 10.
Qed.
Lemma with_stats_ok s f : plain_stats s -> hive_field_ok f -> hive_field_ok (with_stats s f).
Proof.
  intros PS [A K L S]. pose proof (stat_pwf s PS) as PW.
  assert (SK : forall k, In k (dkeys (stat_entries s)) -> In k stat_keys).
  { intros k I. unfold dkeys in I. apply in_map_iff in I as ([k' v] & <- & I). eapply stat_entries_keys; eauto. }
  assert (DK : forall e k, In k (dkeys (dupd e (stat_entries s))) <-> In k (dkeys e) \/ In k (dkeys (stat_entries s))).
  { intros e k. apply CleanTwice.dupd_keys. }
  unfold with_stats. split.
  - apply every_iff in A as [(D & KS & Lo & Al & Dc & At & Px) A2]. apply every_iff. rewrite children_set_c. split; [|exact A2].
    unfold attr_node. rewrite get_set_c. cbn [c_extra c_logical c_alias c_doc].
    split; [now apply dwf_dupd|]. split.
    + intros k I J. apply DK in I as [I|I].
      * apply (KS k I). destruct f; exact J.
      * apply SK in I. cbn in I. clear -S I J. destruct S; cbn in J; intuition (subst; discriminate).
    + repeat split; auto; destruct f; auto.
  - apply every_iff in K as [K1 K2]. apply every_iff. rewrite children_set_c. split; [|exact K2].
    intros k I J. rewrite get_set_c in I. cbn [c_extra] in I. apply DK in I as [I|I]; [now apply (K1 k I)|].
    apply SK in I. cbn in I, J. intuition (subst; discriminate).
  - now apply tree_set_c.
  - destruct S as [e|e xs NB DF NN F]; cbn [get_c set_c c_logical c_alias c_doc c_extra]; constructor; auto.
    + apply DK. now left.
    + change (dget "name" (dupd e (stat_entries s)) <> Some PNone). rewrite DbRanges.dget_dupd.
      destruct (dget "name" (rev (stat_entries s))) as [v|] eqn:E; auto.
      apply dget_In in E. rewrite <- in_rev in E. apply stat_entries_keys in E. cbn in E. intuition discriminate.
Qed.

Lemma stat_column_all (P : rtype -> Prop) n s : (forall f, P f -> P (with_stats s f)) ->
  forall fs fs', Forall P fs -> stat_column n s fs = Ok fs' -> Forall P fs'.
Proof.
  intros H. induction fs as [|f r IH]; intros fs' F E; cbn [stat_column] in E; [discriminate|]. inversion F; subst.
  destruct (stat_column n s r) as [r'|x] eqn:R; [injection E as <-; constructor; auto|].
  destruct (has_name n f); [|discriminate]. injection E as <-. constructor; auto.
Qed.
Lemma load_all (P : rtype -> Prop) l : (forall n s f, In (n, Some s) l -> P f -> P (with_stats s f)) ->
  forall fs fs', Forall P fs -> load_stats l fs = Ok fs' -> Forall P fs'.
Proof.
  induction l as [|[n [s|]] l IH]; intros H fs fs' F E; cbn [load_stats] in E.
  - injection E as <-. exact F.
  - destruct (stat_column n s fs) as [fs1|] eqn:S1; cbn [rbind] in E; [|discriminate].
    eapply IH; [|eapply stat_column_all; [|exact F|exact S1]|exact E].
    + intros m s' f I. apply (H m). now right.
    + intros f. apply (H n). now left.
  - eapply IH; [|exact F|exact E]. intros m s f I. apply (H m). now right.
Qed.

Lemma schema_fields name cols l t : Forall (fun c => hive_sizes (hc_type c)) cols -> Forall uncommented cols -> all_plain l ->
  hive_schema name cols (Some l) = Ok t ->
  exists fs, t = TStruct (mkC PNone PNone PNone [("name", PStr name)]) fs /\ Forall hive_field_ok fs.
Proof.
  intros S U PL H. unfold hive_schema, hive_to_recap in H.
  destruct (rmap hive_column cols) as [fs|] eqn:E; cbn [rbind] in H; [|discriminate].
  destruct (load_stats l fs) as [fs'|] eqn:LS; cbn [rbind] in H; [|discriminate]. injection H as <-.
  exists fs'. split; [reflexivity|].
  assert (F2 : Forall2 (fun c f => hive_column c = Ok f) cols fs) by (eapply rmap_forall2; [|exact E]; auto).
  assert (F : Forall hive_field_ok fs).
  { clear E LS. induction F2; constructor; inversion S; inversion U; subst; auto. eapply column_field_ok; eauto. }
  eapply load_all; [|exact F|exact LS]. intros n s f I. apply with_stats_ok. eapply PL; eauto.
Qed.

Theorem stats_printed name cols l t : Forall (fun c => hive_sizes (hc_type c)) cols -> Forall uncommented cols -> all_plain l ->
  hive_schema name cols (Some l) = Ok t -> forall R0,
  exists d R2 t', to_dict true true t = Ok (PDict d) /\ from_dict (PDict d) R0 = (R2, Ok t') /\
    same_meaning builtin_ref (table_as_printed t) t'.
Proof.
  intros S U PL H R0. destruct (schema_fields _ _ _ _ S U PL H) as (fs & -> & F).
  destruct (struct_prints (mkC PNone PNone PNone [("name", PStr name)]) fs) with (R0 := R0) as (d & R2 & t' & E1 & E2 & E3).
  - apply (fine_attr _ PNone [] PNone [("name", PStr name)]);
        [split; [left; reflexivity|right; eauto]|reflexivity|constructor|apply dwf_nil|intros k []|constructor|reflexivity].
  - intros k [<-|[]]. cbn. intuition discriminate.
  - eapply Forall_impl; [|exact F]. apply hive_field_prints.
  - cbn [table_as_printed]. destruct fs as [|f fs].
    + vm_compute in E1. injection E1 as <-. eexists _, R2, t'. split; [vm_compute; reflexivity|]. split; [exact E2|exact E3].
    + destruct (struct_printed (TStruct (mkC PNone PNone PNone [("name", PStr name)]) (map as_printed (f :: fs))) d R0 R2 t') as [x ->]; auto; [discriminate| |eauto 6].
      eapply same_mono; [|exact E3]. intros a x _. apply names_builtin.
Qed.

(** ** The names of the columns *)
Lemma dget_In_dkeys {V} k (d : list (string * V)) v : dget k d = Some v -> In k (dkeys d).
Proof. intros E. destruct (in_dec string_dec k (dkeys d)) as [I|I]; auto. apply dget_None in I. congruence. Qed.
Lemma last_mention n l : mentions n l -> exists l1 s l2, l = l1 ++ (n, Some s) :: l2 /\ ~ mentions n l2.
Proof.
  induction l as [|[m o] l IH]; intros (s & I); [destruct I|].
  assert (D : (exists s', In (n, Some s') l) \/ ~ (exists s', In (n, Some s') l)).
  { clear. induction l as [|[m o] l IH]; [right; intros (s & [])|]. destruct IH as [(s & H)|H]; [left; exists s; now right|].
    destruct o as [s|]; [|right; intros (s & [E|E]); [discriminate|eauto]].
    destruct (String.eqb_spec m n) as [<-|NE]; [left; exists s; now left|]. right. intros (s' & [E|E]); [congruence|eauto]. }
  destruct D as [D|D].
  - destruct (IH D) as (l1 & s' & l2 & -> & N). exists ((m, o) :: l1), s', l2. auto.
  - destruct I as [[= -> ->]|I]; [|exfalso; apply D; eauto]. exists [], s, l. auto.
Qed.
Lemma says_nulls s : exists v, stat_says s "null_count" v.
Proof. destruct s; eexists; econstructor. Qed.

Lemma not_builtin a t : children t <> [] -> ~ builtin_ref a t.
Proof.
  intros C (b & I & TS). apply builtin_leaf in I as [X _]. destruct TS as [_ _ _ FC]. rewrite X in FC. inversion FC. congruence.
Qed.
Lemma same_extra c c' k : common_same c c' -> (dget k (c_extra c) = None <-> dget k (c_extra c') = None) /\
  forall s, dget k (c_extra c) = Some (PStr s) -> dget k (c_extra c') = Some (PStr s).
Proof.
  intros CS. pose proof (extra_keys _ _ CS k) as K. split.
  - rewrite !dget_None. tauto.
  - intros s E. destruct (dget k (c_extra c')) as [w|] eqn:E'.
    + pose proof (extra_vals _ _ _ _ _ CS E E') as V. inversion V as [|a b q r Nu| | |]; subst; auto. inversion Nu.
    + exfalso. apply dget_None in E'. apply E', K. eapply dget_In_dkeys; eauto.
Qed.
Lemma same_name t u k : same_meaning builtin_ref t u -> (forall a, ~ builtin_ref a t) ->
  (extra k t = None <-> extra k u = None) /\ forall s, extra k t = Some (PStr s) -> extra k u = Some (PStr s).
Proof.
  intros S N. inversion S as [u' _ C _ _|a R]; subst; [|destruct (N a R)]. now apply same_extra.
Qed.

Theorem names_printed name cols l t d R0 R2 t' : Forall (fun c => hive_sizes (hc_type c)) cols -> Forall uncommented cols ->
  all_plain l -> NoDup (map hc_name cols) -> hive_schema name cols (Some l) = Ok t ->
  to_dict true true t = Ok d -> from_dict d R0 = (R2, Ok t') ->
  forall i col, nth_error cols i = Some col -> exists f, nth_error (children t') i = Some f /\
    (mentions (hc_name col) l /\ hc_type col <> HPrim HVoid -> extra "name" f = None) /\
    (~ mentions (hc_name col) l \/ hc_type col = HPrim HVoid -> extra "name" f = Some (PStr (hc_name col))).
Proof.
  intros S U PL ND H ED EF i col IC.
  destruct (stats_printed _ _ _ _ S U PL H R0) as (d1 & R3 & t1 & E1 & E2 & SM).
  rewrite E1 in ED. injection ED as <-. rewrite E2 in EF. injection EF as <- <-.
  unfold hive_schema in H. destruct (hive_to_recap name cols) as [t0|] eqn:E0; cbn [rbind] in H; [|discriminate].
  destruct (hive_table_spec _ _ _ E0) as (c & fs & -> & _ & F).
  destruct (load_stats l fs) as [fs1|] eqn:EL; cbn [rbind] in H; [|discriminate]. injection H as <-.
  assert (FN : Forall2 SpecHive.named (map hc_name cols) fs).
  { clear -F. induction F as [|x y a b HF F IH]; constructor; auto. apply (hfd_name _ _ HF). }
  destruct (load_stats_spec l fs _ FN ND) as [LS _]. destruct (LS _ EL) as [LN LS']. clear LS.
  assert (exists f0, nth_error fs i = Some f0 /\ hive_column col = Ok f0) as (f0 & If & HC).
  { unfold hive_to_recap in E0. destruct (rmap hive_column cols) as [fs2|] eqn:ER; cbn [rbind] in E0; [|discriminate].
    assert (F2 : Forall2 (fun c f => hive_column c = Ok f) cols fs2) by (eapply rmap_forall2; [|exact ER]; auto).
    injection E0 as <- <-. clear -F2 IC. revert i IC. induction F2 as [|x y a b HF F IH]; intros [|i] IC; try discriminate; cbn in *; eauto.
    injection IC as ->. eauto. }
  pose proof (hive_column_spec _ _ HC) as HF.
  assert (exists f1, nth_error fs1 i = Some f1) as (f1 & If1).
  { destruct (nth_error fs1 i) eqn:E; eauto. apply nth_error_None in E. rewrite LN in E. apply nth_error_None in E. congruence. }
  assert (SL : stats_loaded l (hc_name col) f0 f1) by (eapply LS'; eauto; now rewrite nth_error_map, IC).
  cbn [table_as_printed] in SM.
  assert (FC : Forall2 (same_meaning builtin_ref) (map as_printed fs1) (children t1)).
  { inversion SM as [u' _ _ _ X|a R]; subst; [exact X|]. exfalso. revert R. apply not_builtin. cbn [children].
    destruct fs1; [|discriminate]. destruct i; discriminate. }
  assert (exists f, nth_error (children t1) i = Some f /\ same_meaning builtin_ref (as_printed f1) f) as (f & Jf & Sf).
  { clear -FC If1. revert i If1. remember (map as_printed fs1) as m eqn:Em. revert fs1 Em.
    induction FC as [|x y a b HF F IH]; intros [|g gs] Em [|i] If1; try discriminate; injection Em as -> ->; cbn in *; eauto.
    injection If1 as ->. eauto. }
  exists f. split; [exact Jf|].
  destruct (sl_attributes _ _ _ _ SL) as (AS & AL & AA & AD & AE).
  assert (N1 : extra "name" f1 = Some (PStr (hc_name col))).
  { rewrite AE; [apply (hfd_name _ _ HF)|]. cbn. intuition discriminate. }
  assert (KEEP : as_printed f1 = f1 -> (forall a, ~ builtin_ref a f1) -> extra "name" f = Some (PStr (hc_name col))).
  { intros E NB. rewrite E in Sf. now apply (same_name f1 f "name"). }
  assert (UN : hc_type col <> HPrim HVoid -> exists cc ts, f1 = TUnion cc ts /\ ts <> []).
  { intros NV. pose proof (hfd_null _ _ HF) as AN. pose proof (hfd_reads _ _ HF) as HR.
    assert (exists cc ts, f0 = TUnion cc ts) as (cc & ts & ->) by (inversion HR; subst; eauto; congruence).
    destruct f1; try discriminate AS. cbn [set_c] in AS. injection AS as <-. eexists _, _. split; [reflexivity|].
    intros ->. destruct AN as (x & []). }
  split.
  - intros [MN NV]. destruct (UN NV) as (cc & ts & -> & NE).
    destruct (last_mention _ _ MN) as (l1 & s & l2 & El & NM). destruct (says_nulls s) as (v & SV).
    pose proof (sl_last _ _ _ _ SL l1 s l2 _ _ El NM SV) as X.
    assert (FK : existsb further_key (dkeys (c_extra cc)) = true).
    { apply existsb_exists. exists "null_count". split; [eapply dget_In_dkeys; exact X|reflexivity]. }
    cbn [as_printed] in Sf. rewrite FK in Sf. apply (same_name _ _ "name" Sf).
    + intros a. now apply not_builtin.
    + unfold extra. cbn [get_c c_extra]. apply dget_None. intros I. apply ddel_keys in I. tauto.
  - assert (NBN : forall c a, ~ builtin_ref a (TNull c)).
    { intros cc a (b & I & TS). apply builtin_leaf in I as (_ & _ & X & _). destruct TS as [TN _ _ _]. destruct b; discriminate. }
    intros [NM|V].
    + pose proof (sl_none _ _ _ _ SL NM) as ->. clear LS' SL.
      assert (SH : shaped PNone [("name", PStr (hc_name col))] f0).
      { pose proof (column_fine col) as CF. pose proof HC as X. unfold hive_column in X.
        assert (UC : uncommented col) by (rewrite Forall_forall in U; apply U; eapply nth_error_In; eauto).
        assert (D : (match hc_comment col with Some (String a r) => PStr (String a r) | _ => PNone end) = PNone)
          by (destruct UC as [->| ->]; reflexivity).
        rewrite D in X, CF. exact (parse_shaped _ _ _ _ (proj2 CF) X). }
      apply KEEP; [destruct SH; reflexivity|]. intros a. destruct SH; [apply NBN|]. now apply not_builtin.
    + unfold hive_column in HC. rewrite V in HC. cbn in HC. injection HC as <-. destruct f1; try discriminate AS.
      apply KEEP; [reflexivity|apply NBN].
Qed.
