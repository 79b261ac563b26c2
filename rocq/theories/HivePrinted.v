(** Proofs for C91: the Recap document printed for a Hive table. *)
From Coq Require Import String Ascii List NArith ZArith QArith Bool Lia.
From Verif Require Import PyVal PyValFacts RType Registry FromDict ToDict FromDictFacts RoundTrip SpecTypes Nullable
  NullableFacts Equality SpecCompact RegistryFacts Compact CompactAlias CompactNames CompactWrite CompactAgain Url Dbapi SpecDb DbapiFacts DbapiMore DbRanges Hive SpecHive HiveFacts HiveMore Documents
  SpecPrinted Printed.
Import ListNotations.
Open Scope nat_scope.
Open Scope string_scope.
Open Scope list_scope.

(** A member of a union that a compact document describes by itself. *)
Definition unlabelled (x : rtype) : Prop :=
  is_union x = false /\ ~ In "name" (dkeys (c_extra (get_c x))) /\ ~ In "default" (dkeys (c_extra (get_c x))).

Inductive shaped (d : pyval) (e : list (string * pyval)) : rtype -> Prop :=
| sh_null : shaped d e (TNull (mkC PNone PNone d e))
| sh_union xs : ~ In (TNull c0) xs -> Forall (fun x => unlabelled x /\ every compact_ok x) xs ->
    shaped d e (TUnion (mkC PNone PNone d (("default", PNone) :: e)) (TNull c0 :: xs)).

Lemma shaped_compact e t : name_only e -> shaped PNone e t -> every compact_ok t.
Proof.
  intros NO S. destruct S as [|xs NB F]; apply every_iff; cbn [children]; [split; [exact I|constructor]|].
  split.
  - intros _ _. exists xs. split; [reflexivity|]. split; [exact NB|]. cbn [c_extra c_doc].
    split; [destruct NO as [->|(n & ->)]; cbn; intuition|].
    split; [destruct NO as [->|(n & ->)]; cbn; discriminate|].
    intros x -> _ _. inversion F as [|? ? [U _]]; subst. split; [reflexivity|exact U].
  - constructor; [apply every_iff; split; [exact I|constructor]|]. eapply Forall_impl; [|exact F]. cbn. tauto.
Qed.

Lemma rewrap_null x : rewrap x = TNull c0 -> x = TNull c0.
Proof. destruct x; cbn; try discriminate; auto. Qed.
Lemma rewrap_unlabelled x : unlabelled x -> unlabelled (rewrap x).
Proof.
  intros (U & N & D). destruct x; try (split; [exact U|split; [exact N|exact D]]); try discriminate U;
    (split; [reflexivity|]); split; cbn; intuition discriminate.
Qed.
Lemma rewrap_compact : forall t, every compact_ok t -> every compact_ok (rewrap t).
Proof.
  induction t using rtype_ind'; intros E; try exact E; apply every_iff in E as [En Ec]; cbn [children] in Ec;
    apply every_iff; cbn [rewrap children].
  - inversion Ec; subst. split; [exact I|auto].
  - inversion Ec as [|? ? A1 F1]; inversion F1; subst. split; [exact I|auto].
  - split; [exact I|]. apply Forall_map. rewrite Forall_forall in *. auto.
  - split.
    + intros D B. destruct En as (xs & -> & NB & K & NN & S).
      * exact D.
      * apply in_map_iff in B as (y & B & Iy). apply rewrap_null in B. unfold bare_null. now subst.
      * exists (map rewrap xs). split; [reflexivity|]. split.
        { intros J. apply in_map_iff in J as (y & J & Iy). apply rewrap_null in J. subst. exact (NB Iy). }
        split; [exact K|]. split; [exact NN|].
        intros x X A L. destruct xs as [|y [|z r]]; try discriminate X. cbn in X. injection X as <-.
        destruct (S y eq_refl A L) as [Dc U]. split; [exact Dc|]. now apply rewrap_unlabelled.
    + apply Forall_map. rewrite Forall_forall in *. auto.
Qed.

Lemma finish_shaped t l d x e r : name_only e -> get_c t = mkC l PNone d (x ++ e) ->
  In (dkeys x) [[]; ["unit"]; ["unit"; "timezone"]; ["signed"; "unit"]; ["precision"; "scale"]] ->
  (forall c b v, t = TInt c b v -> dkeys x <> ["signed"; "unit"]) ->
  is_union t = false -> is_null t = false -> Forall (every compact_ok) (children t) ->
  hive_finish t = Ok r -> shaped d e r.
Proof.
  intros NO G K NI U N C H. destruct (finish_other t l d x e NO G K NI U N) as (r' & H' & F).
  rewrite H in H'. injection H' as <-. unfold finished in F. subst r. constructor.
  - intros [X|[]]. destruct t; discriminate.
  - constructor; [|constructor]. split.
    + split; [destruct t; auto|]. rewrite get_set_c. cbn [c_extra]. cbn in K.
      split; intros J; repeat destruct K as [K|K]; try contradiction; rewrite <- K in J; cbn in J; intuition discriminate.
    + apply every_iff. rewrite children_set_c. split; [|exact C]. destruct t; try exact I. discriminate.
Qed.

Lemma member_ok u d e x : shaped d e u -> In x (members u) -> x = TNull (mkC PNone PNone d e) \/ x = TNull c0 \/ (unlabelled x /\ every compact_ok x).
Proof.
  intros S J. destruct S as [|xs NB F]; cbn [members] in J.
  - destruct J as [<-|[]]. auto.
  - destruct J as [<-|J]; auto. rewrite Forall_forall in F. auto.
Qed.

Lemma parse_shaped h : forall d e t, name_only e -> hive_parse d e h = Ok t -> shaped d e t.
Proof.
  assert (CO : forall h, (forall d e t, name_only e -> hive_parse d e h = Ok t -> shaped d e t) ->
     forall e t, name_only e -> hive_parse PNone e h = Ok t -> every compact_ok t).
  { intros x IH e t NO H. eapply shaped_compact; eauto. }
  assert (N0 : name_only []) by (left; reflexivity).
  induction h using htype_ind'; intros d' e' t NO H0.
  - cbn [hive_parse] in H0. destruct p; unfold hive_prim in H0;
    try (match type of H0 with hive_finish ?t = _ =>
      match t with
      | context [mkC ?l PNone d' (?x ++ e')] => refine (finish_shaped t l d' x e' _ NO eq_refl _ _ eq_refl eq_refl _ H0)
      | context [mkC ?l PNone d' e'] => refine (finish_shaped t l d' [] e' _ NO eq_refl _ _ eq_refl eq_refl _ H0)
      end end; [cbn; auto 8|intros; cbn; congruence|constructor]).
    cbn in H0. injection H0 as <-. constructor.
  - cbn [hive_parse] in H0. destruct (38 <? p)%Z; [discriminate|].
    match type of H0 with hive_finish ?u = _ => refine (finish_shaped u _ d' [("precision", PInt p); ("scale", PInt s)] e' _ NO eq_refl _ _ eq_refl eq_refl _ H0) end; [cbn; auto 8|intros; cbn; congruence|constructor].
  - cbn [hive_parse] in H0. match type of H0 with hive_finish ?u = _ => refine (finish_shaped u _ d' [] e' _ NO eq_refl _ _ eq_refl eq_refl _ H0) end; [cbn; auto 8|intros; cbn; congruence|constructor].
  - cbn [hive_parse] in H0. match type of H0 with hive_finish ?u = _ => refine (finish_shaped u _ d' [] e' _ NO eq_refl _ _ eq_refl eq_refl _ H0) end; [cbn; auto 8|intros; cbn; congruence|constructor].
  - cbn [hive_parse] in H0.
    destruct (hive_parse PNone [] h1) as [k|] eqn:E1; cbn [rbind] in H0; [|discriminate].
    destruct (hive_parse PNone [] h2) as [v|] eqn:E2; cbn [rbind] in H0; [|discriminate].
    match type of H0 with hive_finish ?u = _ => refine (finish_shaped u _ d' [] e' _ NO eq_refl _ _ eq_refl eq_refl _ H0) end; [cbn; auto 8|intros; cbn; congruence|].
    cbn [children]. constructor; [exact (CO _ IHh1 _ _ N0 E1)|constructor; [exact (CO _ IHh2 _ _ N0 E2)|constructor]].
  - cbn [hive_parse] in H0.
    destruct (hive_parse PNone [] h) as [k|] eqn:E1; cbn [rbind] in H0; [|discriminate].
    match type of H0 with hive_finish ?u = _ => refine (finish_shaped u _ d' [] e' _ NO eq_refl _ _ eq_refl eq_refl _ H0) end; [cbn; auto 8|intros; cbn; congruence|].
    cbn [children]. constructor; [exact (CO _ IHh _ _ N0 E1)|constructor].
  - pose proof H0 as HP. rewrite parse_union in H0.
    destruct (parse_all ts) as [us|] eqn:E; cbn [rbind] in H0; [|discriminate].
    rewrite flatten_members in H0. cbn [hive_finish] in H0. injection H0 as <-.
    destruct (union_members d' e' ts _ _ us NO HP E) as [Hn EQ]. clear HP.
    rewrite EQ. clear EQ.
    assert (SH : Forall (shaped PNone []) us).
    { unfold parse_all in E. clear Hn. revert us E. induction H as [|x l Hx Hl IH]; intros us E; cbn [rmap] in E; [injection E as <-; constructor|].
      destruct (hive_parse PNone [] x) as [y|] eqn:Ex; cbn [rbind] in E; [|discriminate].
      destruct (rmap (hive_parse PNone []) l) as [r|] eqn:El; cbn [rbind] in E; [|discriminate].
      injection E as <-. constructor; eauto. }
    assert (HD : exists xs, fold_left flat_add (map rewrap us) [TNull c0] = TNull c0 :: xs).
    { assert (G : forall l acc, exists xs, fold_left flat_add l (TNull c0 :: acc) = TNull c0 :: xs).
      { induction l as [|f l IHl]; intros acc; cbn [fold_left]; [eauto|].
        assert (F1 : exists acc', flat_add (TNull c0 :: acc) f = TNull c0 :: acc').
        { destruct f; cbn [flat_add]; try (match goal with |- context [if ?b then _ else _] => destruct b end); eexists; reflexivity. }
        destruct F1 as (acc' & ->). apply IHl. }
      apply G. }
    pose proof (flat_fold (map rewrap us)) as FF.
    destruct HD as (xs & HD).
    assert (FN : Forall flat_node (map rewrap us)).
    { apply Forall_map. eapply Forall_impl; [|exact Hn]. intros u Hu. apply rewrap_node in Hu.
      pose proof (Hu _ (node_self _)) as X. destruct (rewrap u); try exact I; exact X. }
    destruct (FF FN [TNull c0]) as [UF DM].
    { intros c l [X|[]]. discriminate. }
    { apply distinct_one. }
    rewrite HD. constructor.
    + rewrite HD in DM. apply distinct_cons in DM as [_ DM]. intros J. apply DM in J. cbn in J. discriminate.
    + apply Forall_forall. intros x J.
      assert (NB : x <> TNull c0).
      { rewrite HD in DM. apply distinct_cons in DM as [_ DM]. intros ->. apply DM in J. discriminate. }
      assert (J' : In x (fold_left flat_add (map rewrap us) [TNull c0])) by (rewrite HD; now right).
      apply flat_fold_in in J' as [[<-|[]]|(f & If & Im)]; [congruence|].
      apply in_map_iff in If as (u & <- & Iu). rewrite members_rewrap in Im. apply in_map_iff in Im as (y & <- & Iy).
      rewrite Forall_forall in SH. destruct (member_ok u PNone [] y (SH u Iu) Iy) as [->|[->|[Y1 Y2]]];
        [elim NB; reflexivity|elim NB; reflexivity|].
      split; [now apply rewrap_unlabelled|now apply rewrap_compact].
  - rewrite parse_struct in H0.
    destruct (parse_fields ns ts) as [fs|] eqn:E; cbn [rbind] in H0; [|discriminate].
    match type of H0 with hive_finish ?u = _ => refine (finish_shaped u _ d' [] e' _ NO eq_refl _ _ eq_refl eq_refl _ H0) end; [cbn; auto 8|intros; cbn; congruence|].
    cbn [children]. clear H0. revert ns fs E.
    induction H as [|x l Hx Hl IH]; intros [|n ns] us E; cbn [parse_fields] in E; try (injection E as <-; constructor).
    destruct (hive_parse PNone [("name", PStr n)] x) as [y|] eqn:Ex; cbn [rbind] in E; [|discriminate].
    destruct (parse_fields ns l) as [r|] eqn:El; cbn [rbind] in E; [|discriminate].
    injection E as <-. constructor; [|eauto]. refine (CO _ Hx _ _ _ Ex). right. eauto.
  - discriminate.
Qed.

(** No type that a converter for Hive builds has an alias. *)
Lemma attr_sound t : attr_node t -> sound_node t.
Proof.
  intros (D & K & L & A & Dc & At & Px). repeat (split; [first [assumption|rewrite A; constructor]|]).
  destruct t; auto. discriminate.
Qed.
Lemma attr_aliases : forall t, every attr_node t -> defined_aliases t = [].
Proof.
  assert (O : forall t, attr_node t -> own_alias t = []).
  { intros t (_ & _ & _ & A & _). unfold own_alias. destruct t; cbn in *; rewrite ?A; reflexivity. }
  induction t using rtype_ind'; intros E; apply every_iff in E as [En Ec]; rewrite defined_app, (O _ En);
    cbn [children flat_map] in *; rewrite ?app_nil_r; auto.
  - inversion Ec; subst. auto.
  - inversion Ec as [|? ? A1 F1]; inversion F1; subst. rewrite IHt1, IHt2; auto.
  - clear En. induction H; cbn; auto. inversion Ec; subst. rewrite H; auto.
  - clear En. induction H; cbn; auto. inversion Ec; subst. rewrite H; auto.
Qed.
Lemma attr_alias_ok t : every attr_node t -> (forall k, In k (dkeys (c_extra (get_c t))) -> ~ In k child_keys) -> alias_ok true t.
Proof.
  intros E K _. split.
  - intros k v I J. exfalso. apply (K k); auto. apply (List.in_map fst) in I. exact I.
  - intros x I. right. left. apply attr_aliases. apply every_iff in E as [_ E]. rewrite Forall_forall in E. auto.
Qed.

Definition no_child_key (t : rtype) : Prop := forall k, In k (dkeys (c_extra (get_c t))) -> ~ In k child_keys.
Lemma parse_child_keys h d e t : fine d e -> hive_parse d e h = Ok t -> every no_child_key t.
Proof.
  intros F H.
  assert (NK : forall e, name_only e -> forall x, (forall k, In k (dkeys x) -> In k ["unit"; "timezone"; "signed"; "precision"; "scale"; "default"]) ->
     forall k, In k (dkeys (x ++ e)) -> ~ In k child_keys).
  { intros e' [->|(n & ->)] x X k I J; unfold dkeys in I; rewrite map_app, in_app_iff in I; destruct I as [I|I]; cbn in I;
      try (apply X in I; cbn in I); cbn in J; intuition (subst; discriminate). }
  refine (every_parse no_child_key (fun _ => True) _ _ _ _ _ _ _ _ _ _ _ _ _ _ _ h d e t F I H); clear h d e t F H.
  - intros t K k I. unfold after_pop in I. rewrite get_set_c in I. cbn [c_extra] in I. rewrite !ddel_keys in I. apply K. tauto.
  - intros t ts K U k I J. unfold union_labels in I. cbn [get_c c_extra] in I. cbn in J.
    destruct (dget "name" (c_extra (get_c t))); cbn in I; intuition (subst; discriminate).
  - intros k [].
  - intros c ts ts' K. exact K.
  - intros c v l r v' K k [<-|[]]. cbn. intuition discriminate.
  - intros c k v k' v' K j [<-|[]]. cbn. intuition discriminate.
  - intros c fs fs' K. exact K.
  - intros p d e [_ NO] _. destruct p; unfold hive_prim, no_child_key; cbn [get_c c_extra];
      first [apply (NK e NO []); intros k [] | apply NK; [exact NO|cbn; intuition]].
  - intros p s d e [_ NO] _. exact (NK e NO [("precision", PInt p); ("scale", PInt s)] ltac:(cbn; intuition)).
  - intros n d e [_ NO] _. exact (NK e NO [] ltac:(intros k [])).
  - intros n d e [_ NO] _. exact (NK e NO [] ltac:(intros k [])).
  - intros hk hv _. split; [exact I|]. split; [exact I|]. intros d e k v [_ NO]. exact (NK e NO [] ltac:(intros ? [])).
  - intros h _. split; [exact I|]. intros d e v [_ NO]. exact (NK e NO [] ltac:(intros ? [])).
  - intros hs _. split; [apply Forall_forall; auto|]. intros d e ts [_ NO]. exact (NK e NO [("default", PNone)] ltac:(cbn; intuition)).
  - intros ns hs _. split; [apply Forall_forall; auto|]. intros d e fs [_ NO]. exact (NK e NO [] ltac:(intros ? [])).
Qed.

Lemma hive_printable col f : uncommented col -> hive_column col = Ok f -> every printable f /\ every attr_node f.
Proof.
  intros U H. unfold hive_column in H. pose proof (column_fine col) as F.
  assert (D : (match hc_comment col with Some (String a r) => PStr (String a r) | _ => PNone end) = PNone)
    by (destruct U as [->| ->]; reflexivity).
  rewrite D in H, F.
  pose proof (hive_attrs _ _ _ _ F H) as A. pose proof (parse_child_keys _ _ _ _ F H) as K.
  pose proof (shaped_compact _ _ (proj2 F) (parse_shaped _ _ _ _ (proj2 F) H)) as C.
  split; [|exact A]. intros s N. split; [apply attr_sound, A, N|]. split; [apply C, N|]. apply attr_alias_ok; [|apply K, N].
  intros s' N'. apply A. eapply node_trans; eauto.
Qed.

Theorem hive_printed name cols t : Forall (fun c => hive_sizes (hc_type c)) cols -> Forall uncommented cols ->
  hive_to_recap name cols = Ok t -> forall R0,
  exists d R2 t', to_dict true true t = Ok (PDict d) /\ from_dict (PDict d) R0 = (R2, Ok t') /\ same_meaning builtin_ref t t'.
Proof.
  intros S U H R0. unfold hive_to_recap in H.
  destruct (rmap hive_column cols) as [fs|] eqn:E; cbn [rbind] in H; [|discriminate].
  injection H as <-.
  assert (F2 : Forall2 (fun c f => hive_column c = Ok f) cols fs) by (eapply rmap_forall2; [|exact E]; auto).
  assert (FP : Forall (fun f => every printable f /\ every attr_node f) fs).
  { clear E S. induction F2; constructor; inversion U; subst; auto. eapply hive_printable; eauto. }
  assert (EA : every attr_node (TStruct (mkC PNone PNone PNone [("name", PStr name)]) fs)).
  { apply every_iff. split.
    + apply (fine_attr _ PNone [] PNone [("name", PStr name)]);
        [split; [left; reflexivity|right; eauto]|reflexivity|constructor|apply dwf_nil|intros k []|constructor|reflexivity].
    + cbn [children]. eapply Forall_impl; [|exact FP]. cbn. tauto. }
  assert (EP : every printable (TStruct (mkC PNone PNone PNone [("name", PStr name)]) fs)).
  { apply every_iff. split; [|cbn [children]; eapply Forall_impl; [|exact FP]; cbn; tauto].
    split; [apply attr_sound, EA; constructor|]. split; [exact I|]. apply attr_alias_ok; [exact EA|].
    intros k [<-|[]]. cbn. intuition discriminate. }
  assert (L : tree_within_limits (TStruct (mkC PNone PNone PNone [("name", PStr name)]) fs)).
  { apply tree_iff. split; [exact I|]. cbn [children]. clear E FP EA EP U. induction F2; constructor; inversion S; subst; auto.
    eapply hive_limits; eauto. }
  pose proof (attr_aliases _ EA) as DA.
  destruct (printed _ EP L R0) as (d & R2 & t' & E1 & E2 & E3).
  { rewrite DA. exists []. split; [reflexivity|]. split; [constructor|]. intros a []. }
  assert (SM : same_meaning builtin_ref (TStruct (mkC PNone PNone PNone [("name", PStr name)]) fs) t').
  { eapply same_mono; [|exact E3].
    intros a x N [X|s t1 s1 Ns Ps As _ _ _ _]; auto. exfalso. pose proof (defs_In _ _ _ Ns Ps As) as X. rewrite DA in X. destruct X. }
  destruct fs as [|f fs].
  - vm_compute in E1. injection E1 as <-. eexists _, R2, t'. split; [vm_compute; reflexivity|]. split; [exact E2|exact SM].
  - destruct (struct_printed (TStruct (mkC PNone PNone PNone [("name", PStr name)]) (f :: fs)) d R0 R2 t') as [l ->]; auto; [discriminate|]. eauto 6.
Qed.
