(** Proofs for C123: the JSON schemas of Hive tables. *)
From Coq Require Import String Ascii List NArith ZArith QArith Bool Lia.
From Verif Require Import PyVal PyValFacts RType Registry FromDict ToDict FromDictFacts SpecTypes Nullable NullableFacts
  Url Dbapi SpecDb DbapiFacts DbapiMore DbRanges BigQuery Hive SpecHive HiveFacts HiveMore Documents JsonSchema SpecJson JsonWrite Commands
  SpecCompact SpecPrinted Printed PrintedFormats HivePrinted.
Import ListNotations.
Open Scope nat_scope.
Open Scope string_scope.
Open Scope list_scope.

(** The fields of structs are null types or unions, which keep their names in [rewrap]. *)
Definition jnode (t : rtype) : Prop :=
  json_node t /\ match t with TStruct _ fs => Forall (fun f => is_null f = true \/ is_union f = true) fs | _ => True end.
Inductive jshape (d : pyval) (e : list (string * pyval)) : rtype -> Prop :=
| jsh_null : jshape d e (TNull (mkC PNone PNone d e))
| jsh_union xs : Forall (fun x => is_null x = false /\ every jnode x) xs ->
    jshape d e (TUnion (mkC PNone PNone d (("default", PNone) :: e)) (TNull c0 :: xs)).

Lemma jshape_every d e t : jshape d e t -> every jnode t.
Proof.
  intros [|xs F]; apply every_iff; cbn [children].
  - split; [|constructor]. split; [|exact I]. split; [now left|exact I].
  - split.
    + split; [|exact I]. split; [now left|]. intros x [<-|J] N; auto. rewrite Forall_forall in F. destruct (F x J). congruence.
    + constructor; [|eapply Forall_impl; [|exact F]; cbn; tauto].
      apply every_iff. split; [|constructor]. split; [|exact I]. split; [now left|exact I].
Qed.
Lemma jshape_named d n t : n <> "" -> jshape d [("name", PStr n)] t -> SpecJson.named t n.
Proof. intros N [|xs F]; split; auto; reflexivity. Qed.
Lemma jshape_kind d e t : jshape d e t -> is_null t = true \/ is_union t = true.
Proof. intros []; auto. Qed.

Lemma rewrap_kind t : is_null (rewrap t) = is_null t /\ is_union (rewrap t) = is_union t.
Proof. destruct t; auto. Qed.
Lemma rewrap_jnode : forall t, every jnode t -> every jnode (rewrap t).
Proof.
  induction t using rtype_ind'; intros E; try exact E; apply every_iff in E as [[En Ek] Ec]; cbn [children] in Ec;
    apply every_iff; cbn [rewrap children].
  - inversion Ec; subst. split; [|auto]. split; [split; [now left|exact I]|exact I].
  - inversion Ec as [|? ? A1 F1]; inversion F1; subst. split; [|auto]. split; [split; [now left|exact I]|exact I].
  - split; [|apply Forall_map; rewrite Forall_forall in *; auto]. split.
    + destruct En as [A B]. split; [exact A|]. apply Forall_map. rewrite Forall_forall in *. intros f J.
      destruct (B f J) as (n & N). exists n. destruct (Ek f J); destruct f; try discriminate; exact N.
    + apply Forall_map. rewrite Forall_forall in *. intros f J. destruct (rewrap_kind f) as [-> ->]. auto.
  - split; [|apply Forall_map; rewrite Forall_forall in *; auto]. split; [|exact I].
    destruct En as [A B]. split; [exact A|]. intros x J N. apply in_map_iff in J as (y & <- & J).
    destruct (rewrap_kind y) as [X _]. rewrite X in N. rewrite (B y J N). reflexivity.
Qed.

Lemma finish_jshape t l d x e r : name_only e -> get_c t = mkC l PNone d (x ++ e) ->
  In (dkeys x) [[]; ["unit"]; ["unit"; "timezone"]; ["signed"; "unit"]; ["precision"; "scale"]] ->
  (forall c b v, t = TInt c b v -> dkeys x <> ["signed"; "unit"]) ->
  is_union t = false -> is_null t = false -> is_proxy t = false ->
  match t with TStruct _ fs => Forall (fun f => (exists n, SpecJson.named f n) /\ (is_null f = true \/ is_union f = true)) fs | _ => True end ->
  Forall (every jnode) (children t) ->
  hive_finish t = Ok r -> jshape d e r.
Proof.
  intros NO G K NI U N P S C H. destruct (finish_other t l d x e NO G K NI U N) as (r' & H' & F).
  rewrite H in H'. injection H' as <-. unfold finished in F. subst r. constructor. constructor; [|constructor]. split; [destruct t; auto|].
  apply every_iff. rewrite children_set_c. split; [|exact C]. unfold jnode, json_node. rewrite get_set_c. cbn [c_alias].
  destruct t; try discriminate; cbn [set_c]; try (split; [split; [now left|exact I]|exact I]).
  split; [split; [now left|]|]; (eapply Forall_impl; [|exact S]); cbn; tauto.
Qed.

Lemma parse_jshape h : hive_called h -> forall d e t, name_only e -> hive_parse d e h = Ok t -> jshape d e t.
Proof.
  assert (N0 : name_only []) by (left; reflexivity).
  induction h using htype_ind'; intros HC d' e' t NO H0.
  - cbn [hive_parse] in H0. destruct p; unfold hive_prim in H0;
    try (match type of H0 with hive_finish ?t = _ =>
      match t with
      | context [mkC ?l PNone d' (?x ++ e')] => refine (finish_jshape t l d' x e' _ NO eq_refl _ _ eq_refl eq_refl eq_refl I _ H0)
      | context [mkC ?l PNone d' e'] => refine (finish_jshape t l d' [] e' _ NO eq_refl _ _ eq_refl eq_refl eq_refl I _ H0)
      end end; [cbn; auto 8|intros; cbn; congruence|constructor]).
    cbn in H0. injection H0 as <-. constructor.
  - cbn [hive_parse] in H0. destruct (38 <? p)%Z; [discriminate|].
    match type of H0 with hive_finish ?u = _ => refine (finish_jshape u _ d' [("precision", PInt p); ("scale", PInt s)] e' _ NO eq_refl _ _ eq_refl eq_refl eq_refl I _ H0) end; [cbn; auto 8|intros; cbn; congruence|constructor].
  - cbn [hive_parse] in H0. match type of H0 with hive_finish ?u = _ => refine (finish_jshape u _ d' [] e' _ NO eq_refl _ _ eq_refl eq_refl eq_refl I _ H0) end; [cbn; auto 8|intros; cbn; congruence|constructor].
  - cbn [hive_parse] in H0. match type of H0 with hive_finish ?u = _ => refine (finish_jshape u _ d' [] e' _ NO eq_refl _ _ eq_refl eq_refl eq_refl I _ H0) end; [cbn; auto 8|intros; cbn; congruence|constructor].
  - cbn [hive_parse] in H0. inversion HC as [| | | | |k0 v0 C1 C2| | |]; subst.
    destruct (hive_parse PNone [] h1) as [k|] eqn:E1; cbn [rbind] in H0; [|discriminate].
    destruct (hive_parse PNone [] h2) as [v|] eqn:E2; cbn [rbind] in H0; [|discriminate].
    match type of H0 with hive_finish ?u = _ => refine (finish_jshape u _ d' [] e' _ NO eq_refl _ _ eq_refl eq_refl eq_refl I _ H0) end; [cbn; auto 8|intros; cbn; congruence|].
    cbn [children]. constructor; [exact (jshape_every _ _ _ (IHh1 C1 _ _ _ N0 E1))|constructor; [exact (jshape_every _ _ _ (IHh2 C2 _ _ _ N0 E2))|constructor]].
  - cbn [hive_parse] in H0. inversion HC as [| | | |k0 C1| | | |]; subst.
    destruct (hive_parse PNone [] h) as [k|] eqn:E1; cbn [rbind] in H0; [|discriminate].
    match type of H0 with hive_finish ?u = _ => refine (finish_jshape u _ d' [] e' _ NO eq_refl _ _ eq_refl eq_refl eq_refl I _ H0) end; [cbn; auto 8|intros; cbn; congruence|].
    cbn [children]. constructor; [exact (jshape_every _ _ _ (IHh C1 _ _ _ N0 E1))|constructor].
  - pose proof H0 as HP. rewrite parse_union in H0. inversion HC as [| | | | | |? CU| |]; subst.
    destruct (parse_all ts) as [us|] eqn:E; cbn [rbind] in H0; [|discriminate].
    rewrite flatten_members in H0. cbn [hive_finish] in H0. injection H0 as <-.
    destruct (union_members d' e' ts _ _ us NO HP E) as [Hn EQ]. clear HP.
    rewrite EQ. clear EQ.
    assert (SH : Forall (jshape PNone []) us).
    { unfold parse_all in E. clear Hn HC. revert us E. induction H as [|x l Hx Hl IH]; intros us E; cbn [rmap] in E; [injection E as <-; constructor|].
      inversion CU; subst.
      destruct (hive_parse PNone [] x) as [y|] eqn:Ex; cbn [rbind] in E; [|discriminate].
      destruct (rmap (hive_parse PNone []) l) as [r|] eqn:El; cbn [rbind] in E; [|discriminate].
      injection E as <-. constructor; eauto. }
    assert (HD : exists xs, fold_left flat_add (map rewrap us) [TNull c0] = TNull c0 :: xs).
    { assert (G : forall l acc, exists xs, fold_left flat_add l (TNull c0 :: acc) = TNull c0 :: xs).
      { induction l as [|f l IHl]; intros acc; cbn [fold_left]; [eauto|].
        assert (F1 : exists acc', flat_add (TNull c0 :: acc) f = TNull c0 :: acc').
        { destruct f; cbn [flat_add]; try (match goal with |- context [if ?b then _ else _] => destruct b end); eexists; reflexivity. }
        destruct F1 as (acc' & ->). apply IHl. }
      apply G. }
    pose proof (flat_fold (map rewrap us)) as FF.
    destruct HD as (xs & HD).
    assert (FN : Forall flat_node (map rewrap us)).
    { apply Forall_map. eapply Forall_impl; [|exact Hn]. intros u Hu. apply rewrap_node in Hu.
      pose proof (Hu _ (node_self _)) as X. destruct (rewrap u); try exact I; exact X. }
    destruct (FF FN [TNull c0]) as [UF DM].
    { intros c l [X|[]]. discriminate. }
    { apply distinct_one. }
    rewrite HD. constructor. apply Forall_forall. intros x J.
    assert (NB : x <> TNull c0).
    { rewrite HD in DM. apply distinct_cons in DM as [_ DM]. intros ->. apply DM in J. discriminate. }
    assert (J' : In x (fold_left flat_add (map rewrap us) [TNull c0])) by (rewrite HD; now right).
    apply flat_fold_in in J' as [[<-|[]]|(f & If & Im)]; [congruence|].
    apply in_map_iff in If as (u & <- & Iu). rewrite members_rewrap in Im. apply in_map_iff in Im as (y & <- & Iy).
    rewrite Forall_forall in SH. destruct (SH u Iu) as [|ys Fy]; cbn [members] in Iy.
    + destruct Iy as [<-|[]]. elim NB; reflexivity.
    + destruct Iy as [<-|Iy]; [elim NB; reflexivity|]. rewrite Forall_forall in Fy. destruct (Fy y Iy) as [Y1 Y2].
      split; [destruct (rewrap_kind y) as [-> _]; exact Y1|now apply rewrap_jnode].
  - rewrite parse_struct in H0. inversion HC as [| | | | | | |? ? CN CS|]; subst.
    destruct (parse_fields ns ts) as [fs|] eqn:E; cbn [rbind] in H0; [|discriminate].
    assert (FS : Forall (fun f => every jnode f /\ (exists n, SpecJson.named f n) /\ (is_null f = true \/ is_union f = true)) fs).
    { clear H0 HC. revert ns fs E CN.
      induction H as [|x l Hx Hl IH]; intros [|n ns] us E CN; cbn [parse_fields] in E; try (injection E as <-; constructor).
      inversion CN; inversion CS; subst.
      destruct (hive_parse PNone [("name", PStr n)] x) as [y|] eqn:Ex; cbn [rbind] in E; [|discriminate].
      destruct (parse_fields ns l) as [r|] eqn:El; cbn [rbind] in E; [|discriminate].
      injection E as <-. assert (J : jshape PNone [("name", PStr n)] y) by (apply Hx; auto; right; eauto).
      constructor; [|eauto]. split; [exact (jshape_every _ _ _ J)|]. split; [exists n; now apply jshape_named in J|exact (jshape_kind _ _ _ J)]. }
    match type of H0 with hive_finish ?u = _ => refine (finish_jshape u _ d' [] e' _ NO eq_refl _ _ eq_refl eq_refl eq_refl _ _ H0) end;
      [cbn; auto 8|intros; cbn; congruence| |].
    + eapply Forall_impl; [|exact FS]. cbn. tauto.
    + cbn [children]. eapply Forall_impl; [|exact FS]. cbn. tauto.
  - discriminate.
Qed.

(** ** Which fields are optional *)
Lemma jshape_optional d e t : jshape d e t -> (optional_union t <-> is_null t = false /\ List.length (children t) = 2).
Proof.
  intros [|xs F].
  - split; [intros (c & l1 & x & l2 & X & _); discriminate|intros [X _]; discriminate].
  - assert (NN : forall x, In x xs -> x <> TNull c0).
    { intros x J ->. rewrite Forall_forall in F. destruct (F _ J) as [X _]. discriminate. }
    cbn [children List.length]. split.
    + intros (c & l1 & x & l2 & E & _ & NX & NE & A). split; [reflexivity|]. injection E as _ E.
      destruct l1 as [|y l1]; cbn [app] in E; injection E as E1 E2.
      * congruence.
      * destruct l1 as [|z l1]; cbn [app] in E2.
        { destruct l2 as [|w l2]; subst xs; [reflexivity|]. exfalso. cbn in A. inversion A as [|? ? _ A2]. inversion A2; subst.
          apply (NN (TNull c0)); [right; now left|reflexivity]. }
        { exfalso. subst xs. cbn in A. inversion A as [|? ? _ A2]. inversion A2; subst. apply (NN (TNull c0)); [now left|reflexivity]. }
    + intros [_ L]. destruct xs as [|x [|y r]]; try discriminate L. eexists _, [TNull c0], x, []. split; [reflexivity|].
      split; [discriminate|]. split; [apply NN; now left|]. split; [discriminate|]. repeat constructor.
Qed.

(** ** Tables *)
Theorem hive_json name cols t : Forall (fun c => hc_name c <> "" /\ hive_called (hc_type c)) cols -> NoDup (map hc_name cols) ->
  hive_to_recap name cols = Ok t ->
  exists d ps, schema_output FJson t = Ok (ODocument (PDict d))
    /\ dget "type" d = Some (PStr "object") /\ dget "properties" d = Some (PDict ps) /\ dkeys ps = map hc_name cols
    /\ forall i col f, nth_error cols i = Some col -> nth_error (children t) i = Some f ->
       (required_name d (hc_name col) <->
        hc_type col = HPrim HVoid \/ exists hs, hc_type col = HUnion hs /\ List.length (children f) <> 2).
Proof.
  intros C ND H. unfold hive_to_recap in H.
  destruct (rmap hive_column cols) as [fs|] eqn:E; cbn [rbind] in H; [|discriminate]. injection H as <-.
  assert (F2 : Forall2 (fun c f => hive_column c = Ok f) cols fs) by (eapply rmap_forall2; [|exact E]; auto). clear E.
  assert (G : Forall2 (fun col f => SpecJson.named f (hc_name col) /\ every json_node f /\
     (~ optional_union f <-> hc_type col = HPrim HVoid \/ exists hs, hc_type col = HUnion hs /\ List.length (children f) <> 2)) cols fs).
  { clear ND. induction F2 as [|col f cols fs HC F2 IH]; constructor; inversion C as [|? ? [NE HN]]; subst; auto.
    pose proof (column_fine col) as [_ NO]. pose proof HC as HP. unfold hive_column in HP.
    pose proof (parse_jshape _ HN _ _ _ NO HP) as J.
    split; [eapply jshape_named; eauto|]. split; [intros s N; now apply (jshape_every _ _ _ J)|].
    rewrite (jshape_optional _ _ _ J). pose proof (hfd_reads _ _ (hive_column_spec _ _ HC)) as HR. split.
    - intros X. inversion HR; subst; try (exfalso; apply X; split; reflexivity); auto.
      right. eexists. split; [reflexivity|]. intros L. apply X. auto.
    - intros [V|(hs & _ & L)] [X Y]; [|tauto]. unfold hive_column in HC. rewrite V in HC. cbn in HC. injection HC as <-. discriminate. }
  clear F2.
  set (cm := mkC PNone PNone PNone [("name", PStr name)]).
  assert (NM : Forall2 SpecJson.named fs (map hc_name cols)).
  { clear -G. induction G as [|x y l l' [H _] G IH]; constructor; auto. }
  assert (JT : every json_node (TStruct cm fs)).
  { apply every_iff. cbn [children]. split.
    - split; [now left|]. clear -NM. induction NM; constructor; eauto.
    - clear -G. induction G as [|x y l l' (_ & H & _) G IH]; constructor; auto. }
  destruct (json_printed builtin_aliases _ JT) as [d D].
  destruct (from_required builtin_aliases cm fs d) as (ms & ps & N' & T & P & _ & K & RQ); auto.
  { intros a X. discriminate. }
  rewrite <- (same_names _ _ _ NM N') in *. exists d, ps. unfold schema_output. rewrite D. split; [reflexivity|].
  split; auto. split; auto. split; [apply K, ND|]. intros i col f Hc Hf. cbn [children] in Hf.
  destruct (Forall2_at _ _ _ _ _ G Hc) as (g & Hg & _ & _ & OG). rewrite Hf in Hg. injection Hg as <-.
  assert (Hn : nth_error (map hc_name cols) i = Some (hc_name col)) by now rewrite nth_error_map, Hc.
  destruct (combine_at fs _ i f (hc_name col) ND Hf Hn) as [I1 I2]. rewrite RQ, <- OG. split.
  - intros (h & J & X). now rewrite <- (I2 h J).
  - eauto.
Qed.
