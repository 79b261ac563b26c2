(** Documents of a type and what reading them gives (proofs only). *)
From Coq Require Import String Ascii List ZArith QArith Bool Lia.
From Verif Require Import PyVal PyValFacts RType Regex RegexFacts Registry FromDict ToDict
  FromDictFacts RoundTrip SpecTypes RegistryFacts Nullable NullableFacts Equality SpecCompact Compact.
Import ListNotations.
Open Scope nat_scope.
Open Scope string_scope.
Open Scope list_scope.

Lemma kids_ind (P : rtype -> Prop) : (forall t, Forall P (children t) -> P t) -> forall t, P t.
Proof.
  intros H t. induction t using rtype_ind'; apply H; cbn [children]; auto.
Qed.
Lemma Forall_twf_children t : twf t -> Forall twf (children t).
Proof. apply nodes_children. Qed.
Lemma all_nodes_nodes P t : all_nodes P t <-> nodes P t.
Proof.
  split.
  - induction t as [t IH] using kids_ind. intros A.
    assert (K : Forall (nodes P) (children t)).
    { rewrite Forall_forall in *. intros x I. apply IH; auto. intros s S. apply A. now apply (node_child s t x). }
    assert (H : P t) by (apply A; constructor).
    destruct t; cbn [children nodes] in *; auto.
    + inversion K; auto.
    + inversion K as [|? ? K1 K2]; subst. inversion K2; auto.
    + split; auto. now apply nodes_list.
    + split; auto. now apply nodes_list.
  - intros N s S. now apply nodes_here, (nodes_node_of _ _ _ S).
Qed.

Lemma val_same_refl v : val_same v v.
Proof.
  induction v as [| b | z | q | s | l IH | d IH] using pyval_ind'.
  - constructor.
  - destruct b; eapply vs_num; try constructor; reflexivity.
  - eapply vs_num; try constructor; reflexivity.
  - eapply vs_num; try constructor; reflexivity.
  - constructor.
  - constructor. induction IH; constructor; auto.
  - constructor; [tauto|]. intros k v w G1 G2. rewrite G1 in G2. injection G2 as <-.
    rewrite Forall_forall in IH. exact (IH _ (dget_In _ _ _ G1)).
Qed.
Lemma common_same_refl c : common_same c c.
Proof. repeat split; try apply val_same_refl; tauto. Qed.
Lemma norm_same b v : val_same v (norm b v).
Proof.
  unfold norm. destruct (b && py_eq (PBool true) v) eqn:E; [|apply val_same_refl].
  apply andb_true_iff in E as [_ E]. rewrite py_eq_num in E by discriminate. cbn in E.
  destruct (num_of v) as [q|] eqn:N; [|discriminate]. apply Qeq_bool_iff in E.
  eapply (vs_num _ _ q 1); [now apply number_of|constructor|now symmetry].
Qed.
Lemma norm_truthy b v : truthy (norm b v) = truthy v.
Proof.
  unfold norm. destruct (b && py_eq (PBool true) v) eqn:E; [|reflexivity].
  apply andb_true_iff in E as [_ E]. rewrite py_eq_num in E by discriminate. cbn in E.
  destruct v as [|[]|z|q| | |]; cbn in *; try discriminate; auto.
  - apply Qeq_bool_iff in E. destruct (Z.eqb_spec z 0); auto. subst. discriminate.
  - destruct (Qeq_bool q 0) eqn:Q; auto. apply Qeq_bool_iff in E, Q. rewrite Q in E. discriminate.
Qed.
Lemma norm_len b l v : validate_len l (norm b v) = validate_len l v.
Proof. unfold validate_len. now rewrite norm_truthy. Qed.

Lemma reads_doc j nd t : to_type_dict j = Ok nd -> reads (PDict nd) t -> reads j t.
Proof.
  intros E H R R' G. specialize (H R R' G). rewrite from_dict_unfold in *. rewrite E. exact H.
Qed.

(** ** The entries added for optional unions *)
Definition tail (c : common) : list (string * pyval) :=
  filter (fun kv => negb (is_none (snd kv)))
    [("alias", c_alias c); ("default", kwarg "default" PNone (c_extra c)); ("doc", c_doc c);
     ("logical", c_logical c); ("name", kwarg "name" PNone (c_extra c)); ("optional", PBool true)].
Definition opt_attrs (c : common) : Prop :=
  In "default" (dkeys (c_extra c)) /\ (forall k, In k (dkeys (c_extra c)) -> k = "default" \/ k = "name") /\
  dget "name" (c_extra c) <> Some PNone.

Lemma ent_none k v : ent true k PNone v = if is_none v then [] else [(k, v)].
Proof. unfold ent. destruct v; reflexivity. Qed.
Lemma tail_eq c : tail c = ent true "alias" PNone (c_alias c) ++ ent true "default" PNone (kwarg "default" PNone (c_extra c)) ++
  ent true "doc" PNone (c_doc c) ++ ent true "logical" PNone (c_logical c) ++
  ent true "name" PNone (kwarg "name" PNone (c_extra c)) ++ [("optional", PBool true)].
Proof.
  unfold tail. rewrite !ent_none. cbn [filter snd].
  destruct (is_none (c_alias c)), (is_none (kwarg "default" PNone (c_extra c))), (is_none (c_doc c)), (is_none (c_logical c)),
    (is_none (kwarg "name" PNone (c_extra c))); reflexivity.
Qed.
Lemma tail_keys c k : In k (dkeys (tail c)) -> In k ["alias"; "default"; "doc"; "logical"; "name"; "optional"].
Proof.
  unfold tail, dkeys. rewrite in_map_iff. intros ([k' v] & <- & I). apply filter_In in I as [I _].
  cbn in I. cbn. intuition congruence.
Qed.
Lemma tailB_keys c k : c_alias c = PNone -> c_logical c = PNone -> c_doc c = PNone ->
  In k (dkeys (tail c)) -> In k ["default"; "name"; "optional"].
Proof.
  intros EA EL ED I. rewrite tail_eq, EA, EL, ED, !ent_none in I. cbn [is_none app] in I.
  rewrite !dkeys_app, !in_app_iff in I. cbn.
  destruct (is_none (kwarg "default" PNone (c_extra c))), (is_none (kwarg "name" PNone (c_extra c))); cbn in I; tauto.
Qed.
Lemma tail_NoDup c : NoDup (dkeys (tail c)).
Proof. unfold tail. apply filter_keys_NoDup. cbn. repeat constructor; cbn; intuition discriminate. Qed.

(** The attributes that reading an optional union gives. *)
Definition opt_common (c : common) : common :=
  mkC (c_logical c) (c_alias c) (c_doc c)
    (ent true "name" PNone (kwarg "name" PNone (c_extra c)) ++ [("default", kwarg "default" PNone (c_extra c))]).
Lemma opt_common_same c : opt_attrs c -> common_same c (opt_common c).
Proof.
  intros (D & K & N). unfold common_same. do 3 (split; [apply val_same_refl|]). apply vs_dict; [intros k; split|]; cbn [opt_common c_extra].
  - intros I. rewrite dkeys_app, in_app_iff, ent_none. cbn. destruct (K _ I) as [-> | ->]; auto.
    left. unfold kwarg. destruct (dget "name" (c_extra c)) as [v|] eqn:E; [|apply dget_None in E; tauto].
    destruct v; cbn; auto; congruence.
  - rewrite dkeys_app, in_app_iff, ent_none. cbn. unfold kwarg.
    destruct (dget "name" (c_extra c)) as [v|] eqn:E; cbn; intros [I|[<-|[]]]; auto.
    + apply dget_In_key in E. destruct (is_none v); cbn in I; intuition congruence.
    + destruct I.
  - intros k v w G1 G2. assert (I : In k (dkeys (c_extra c))) by (eapply dget_In_key; eauto).
    assert (v = w); [|subst; apply val_same_refl].
    rewrite dget_app, ent_none in G2. destruct (K _ I) as [-> | ->]; unfold kwarg in G2; rewrite G1 in G2.
    + destruct (is_none _); cbn in G2; congruence.
    + destruct v; cbn in G2; congruence.
Qed.
Lemma ent_split k v : ent true k PNone v = [] /\ v = PNone \/ ent true k PNone v = [(k, v)] /\ is_none v = false.
Proof. rewrite ent_none. destruct v; auto. Qed.

Lemma desugarA c js : py_str_in "null" (PList js) = Ok false ->
  desugar (("type", PStr "union") :: ("types", PList js) :: tail c) =
  Ok (("type", PStr "union") :: ("types", PList (PStr "null" :: js)) ::
      ent true "alias" PNone (c_alias c) ++ ent true "doc" PNone (c_doc c) ++ ent true "logical" PNone (c_logical c) ++
      c_extra (opt_common c)).
Proof.
  intros E. rewrite tail_eq. cbn [opt_common c_extra].
  destruct (ent_split "alias" (c_alias c)) as [[-> _]|[-> _]];
  destruct (ent_split "doc" (c_doc c)) as [[-> _]|[-> _]];
  destruct (ent_split "logical" (c_logical c)) as [[-> _]|[-> _]];
  destruct (ent_split "default" (kwarg "default" PNone (c_extra c))) as [[-> ED]|[-> ED]];
  destruct (ent_split "name" (kwarg "name" PNone (c_extra c))) as [[-> EN]|[-> EN]]; rewrite ?ED;
  unfold desugar; cbn -[py_str_in]; rewrite E; cbn -[py_str_in]; unfold kwarg in *;
  cbn; rewrite ?EN; reflexivity.
Qed.
Lemma bindA c : (forall k, In k (dkeys (c_extra c)) -> k = "default" \/ k = "name") ->
  bind_common [] (ent true "alias" PNone (c_alias c) ++ ent true "doc" PNone (c_doc c) ++
    ent true "logical" PNone (c_logical c) ++ c_extra (opt_common c)) = Ok (opt_common c).
Proof.
  intros K. unfold opt_common at 2. cbn [opt_common c_extra].
  destruct (ent_split "alias" (c_alias c)) as [[-> ->]|[-> _]];
  destruct (ent_split "doc" (c_doc c)) as [[-> ->]|[-> _]];
  destruct (ent_split "logical" (c_logical c)) as [[-> ->]|[-> _]];
  destruct (ent_split "name" (kwarg "name" PNone (c_extra c))) as [[-> EN]|[-> EN]]; reflexivity.
Qed.
Lemma reads_null : reads (PStr "null") bare_null.
Proof. intros R R' G. cbn in G. apply ret_Ok in G as [-> _]. reflexivity. Qed.

Lemma union_reads D rest c js ts : desugar D = Ok (("type", PStr "union") :: ("types", PList js) :: rest) ->
  kwarg "type" PNone D <> PNone -> bind_common [] rest = Ok c -> ~ In "type" (dkeys rest) -> ~ In "types" (dkeys rest) ->
  Forall2 reads js ts -> reads (PDict D) (TUnion c ts).
Proof.
  intros S T B N1 N2 F R R' G. cbn [reg_tree] in G. rewrite reg_list_eq in G. apply mbind_Ok in G as (R1 & [] & G1 & G2).
  apply from_dict_inv. eapply (Parsed (PDict D) R R' (TUnion c ts) D _ R1); [reflexivity|exact T|exact S| |reflexivity|now apply reg_node_eq].
  assert (X : ddel "type" (("type", PStr "union") :: ("types", PList js) :: rest) = ("types", PList js) :: rest).
  { cbn. f_equal. exact (ddel_notin _ _ N1). }
  assert (Y : ddel "types" (("types", PList js) :: rest) = rest) by (cbn; exact (ddel_notin _ _ N2)).
  eapply (b_union _ _ _ _ c (PList js) js); [reflexivity|rewrite X; reflexivity|reflexivity|eapply mmap_reads; eauto|].
  now rewrite X, Y.
Qed.

Lemma ents_notin k c : In k ["type"; "types"] ->
  ~ In k (dkeys (ent true "alias" PNone (c_alias c) ++ ent true "doc" PNone (c_doc c) ++
                 ent true "logical" PNone (c_logical c) ++ c_extra (opt_common c))).
Proof.
  intros I J. cbn [opt_common c_extra] in J. rewrite !dkeys_app, !in_app_iff in J.
  repeat destruct J as [J|J]; try apply ent_keys in J; cbn in J, I; intuition (subst; discriminate).
Qed.

Lemma optA_reads c js ts : opt_attrs c -> py_str_in "null" (PList js) = Ok false -> Forall2 reads js ts ->
  reads (PDict (("type", PStr "union") :: ("types", PList js) :: tail c)) (TUnion (opt_common c) (bare_null :: ts)).
Proof.
  intros (_ & K & _) E F. eapply (union_reads _ _ _ (PStr "null" :: js)); [now apply desugarA|discriminate| | | |];
    try (apply ents_notin; cbn; tauto).
  - now apply bindA.
  - constructor; auto using reads_null.
Qed.

Lemma optB_reads c nd s x : opt_attrs c -> c_alias c = PNone -> c_logical c = PNone -> c_doc c = PNone ->
  dget "type" nd = Some (PStr s) -> s <> "union" -> (forall k, In k ["default"; "name"; "optional"] -> ~ In k (dkeys nd)) ->
  reads (PDict nd) x -> reads (PDict (nd ++ tail c)) (TUnion (opt_common c) [bare_null; x]).
Proof.
  intros (_ & K & _) EA EL ED T U N F.
  assert (Td : tail c = ent true "default" PNone (kwarg "default" PNone (c_extra c)) ++
                        ent true "name" PNone (kwarg "name" PNone (c_extra c)) ++ [("optional", PBool true)]).
  { rewrite tail_eq, EA, EL, ED, !(ent_none _ PNone). reflexivity. }
  assert (G : forall k X, In k ["default"; "name"; "optional"] -> dget k (nd ++ X) = dget k X).
  { intros k X I. rewrite dget_app. now rewrite (proj2 (dget_None _ _) (N k I)). }
  assert (DL : forall k X, In k ["default"; "name"; "optional"] -> ddel k (nd ++ X) = nd ++ ddel k X).
  { intros k X I. rewrite ddel_app. now rewrite (ddel_notin _ _ (N k I)). }
  assert (S : desugar (nd ++ tail c) = Ok (("type", PStr "union") :: ("types", PList [PStr "null"; PDict nd]) :: c_extra (opt_common c))).
  { rewrite Td. cbn [opt_common c_extra].
    generalize (kwarg "default" PNone (c_extra c)) (kwarg "name" PNone (c_extra c)). intros dv nv.
    unfold desugar, kwarg. rewrite !DL by (cbn; tauto). rewrite !G by (cbn; tauto).
    assert (TT : dget "type" (nd ++ []) = Some (PStr s)) by (now rewrite app_nil_r).
    assert (UU : py_eq (PStr s) (PStr "union") = false) by (cbn; now apply String.eqb_neq).
    destruct (ent_split "default" dv) as [[-> E1]|[-> E1]]; destruct (ent_split "name" nv) as [[-> E2]|[-> E2]];
    cbn -[py_eq]; rewrite TT; cbv beta iota; rewrite UU;
      rewrite ?(G "default"), ?(G "name") by (cbn; tauto); rewrite app_nil_r; cbn; rewrite ?E1, ?E2; reflexivity. }
  eapply (union_reads _ _ _ [PStr "null"; PDict nd]); [exact S| | | | |].
  - unfold kwarg. rewrite dget_app, T. discriminate.
  - pose proof (bindA c K) as B. rewrite EA, ED, EL, !ent_none in B. exact B.
  - pose proof (ents_notin "type" c) as B. rewrite EA, ED, EL, !ent_none in B. apply B. cbn; auto.
  - pose proof (ents_notin "types" c) as B. rewrite EA, ED, EL, !ent_none in B. apply B. cbn; auto.
  - repeat (apply Forall2_cons || apply Forall2_nil); auto using reads_null.
Qed.
