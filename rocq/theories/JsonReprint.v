(** JSON schemas that are read and printed again as JSON schemas (C126). *)
From Coq Require Import String Ascii List NArith ZArith QArith Bool Lia.
From Verif Require Import PyVal PyValFacts RType Registry FromDict FromDictFacts RoundTrip
  SpecTypes Url HiveFacts JsonSchema JsonFacts SpecJson JsonRead JsonWrite JsonProps SpecInstances SpecJsonSchema
  JsonAccepts JsonValues JsonMeans JsonFits SpecReprint JsonAgain Commands PrintedFormats.
From Verif Require Converted.
Import ListNotations.
Open Scope nat_scope.
Open Scope string_scope.
Open Scope list_scope.

Section Strategy.
Variable strategy : string -> res string.
Notation parse := (js_parse strategy).
Lemma plain_node j : forall o J J' g, plain o j -> parse j J = (J', Ok g) -> every json_node g.
Proof.
  remember (psize j) as z eqn:SZ. revert j SZ. induction z as [z IH] using lt_wf_ind. intros j SZ o J J' g P H. pose proof H as H0.
  apply parse_inv in H as (d & J1 & x & DJ & HD & H). destruct DJ as [->|(s & -> & _)]; [|inversion P].
  destruct (head_given strategy _ _ _ _ J HD (fun i => iff_refl _)) as (al & ids1 & ID & S1 & GV & NA).
  assert (AL : forall lo, c_alias (js_common lo x) = PNone \/ exists a, c_alias (js_common lo x) = PStr a).
  { intros lo. eapply Converted.given_alias; [apply GV|exact ID]. }
  assert (LEAF : forall t ty lo, flat t = Some ty -> get_c t = js_common lo x -> every json_node t).
  { intros t ty lo F L. apply every_iff. split; [split; [rewrite L; apply AL|destruct t; try discriminate F; exact Logic.I]|]. destruct t; try discriminate F; constructor. }
  inversion H as [l J2 ts T' M|ps J2 fs T' PS M|y J2 t T' IT M|ty ? T' SR|k ? ? K G IJ SA NX NT']; subst.
  - inversion P as [o' d' s T B NN NM|d' l' T B ND DF NM|o' d' ps T PS ND NE RL RN P0 P1 NM|o' d' s T I P0 NM]; subst; try congruence.
    assert (l = map PStr l') as -> by congruence.
    assert (X : Forall (fun t => every json_node t /\ (is_null t = true -> t = TNull c0)) ts).
    { clear - M. revert J1 J' ts M. induction l' as [|s l IH]; intros J J' ts M; cbn [map jmap] in M; [injection M as <- <-; constructor|].
      apply jbind_Ok in M as (J1 & y & E1 & M). apply jbind_Ok in M as (J2 & zs & E2 & M). injection M as <- <-.
      constructor; [|eapply IH; eauto]. destruct (basic_read _ _ _ _ _ E1) as [F NAL].
      assert (RL : required_lists (PStr s)) by (intros d v I; inversion I).
      destruct (parse_means strategy (PStr s) RL _ _ _ J E1 (fun i => iff_refl _)) as (ids & MS & _).
      split; [|intros N; eapply Converted.name_null; eauto]. apply every_iff.
      inversion MS as [? ? ? ? M'| | | | |]; subst. inversion M' as [|? ? ? ? ? ? ? ? I T G B|? ? ? ? ? ? ? ? I T|? ? ? ? ? ? ? ? ? I T P|? ? ? ? ? ? ? ? I T P| ? ? ? ? ? U R]; subst; try discriminate.
      + split; [split|]; [|destruct y; try discriminate F; exact Logic.I|destruct y; try discriminate F; constructor].
        assert (get_c y = c) as -> by (inversion B; reflexivity). eapply Converted.given_alias; eauto. }
    apply every_iff. split; [split; [apply AL|]|].
    + intros x0 I. rewrite Forall_forall in X. apply X, I.
    + cbn [children]. eapply Forall_impl; [|exact X]. intros a [A _]. exact A.
  - inversion P as [o' d' s T B NN NM|d' l' T B ND DF NM|o' d' ps' T PS' ND NE RL RN P0 P1 NM|o' d' s T I P0 NM]; subst; try congruence.
    + assert (s = "object") as -> by congruence. cbn in B. intuition discriminate.
    + assert (ps' = ps) as -> by congruence. apply (props_inv strategy d ps RL) in M.
      assert (X : Forall (fun f => every json_node f /\ exists n, SpecJson.named f n) fs).
      { apply Forall_forall. intros f If. destruct (Forall2_in_r _ _ _ _ M If) as ([n s] & Iq & J3 & J4 & g & G & FA). cbn [fst snd] in *.
        assert (PZ : psize s < psize (PDict d)) by (eapply psize_dict_dict; eauto).
        assert (RD : required_name d n \/ ~ required_name d n).
        { destruct (required_iff_list d n RL) as ([] & _ & RB); [left; now apply RB|right; intros Z; apply RB in Z; discriminate]. }
        assert (Z : exists o', plain o' s) by (destruct RD; eauto). destruct Z as [o' Z].
        assert (NZ : n <> "") by (intros ->; apply NE; exact (List.in_map fst _ _ Iq)).
        destruct (Converted.field_node d n g f (IH _ PZ s eq_refl _ _ _ _ Z G) (proj1 (plain_read _ _ _ _ _ _ Z G)) NZ FA) as (E & _ & NM'). eauto. }
      apply every_iff. split; [split; [apply AL|]|].
      * eapply Forall_impl; [|exact X]. intros a [_ A]. exact A.
      * cbn [children]. eapply Forall_impl; [|exact X]. intros a [A _]. exact A.
  - inversion P as [o' d' s T B NN NM|d' l' T B ND DF NM|o' d' ps' T PS' ND NE RL RN P0 P1 NM|o' d' s T I P0 NM]; subst; try congruence.
    + assert (s = "array") as -> by congruence. cbn in B. intuition discriminate.
    + assert (s = y) as -> by congruence. apply every_iff. split; [split; [apply AL|exact Logic.I]|]. cbn [children]. constructor; [|constructor].
      eapply (IH (psize y)); eauto. eapply psize_dget; eauto.
  - destruct (scalar_flat _ _ _ _ SR) as [F (lo & L)]. eauto.
  - destruct (plain_read _ _ _ _ _ _ P H0) as [X _]. discriminate X.
Qed.
Lemma printed_again j J' t : plain false j -> (forall i, has_id j i -> ~ fragment i) -> names_apart t -> js_to strategy j [] = (J', Ok t) ->
  exists d, schema_output FJson t = Ok (ODocument d) /\ forall v, accepts j j v <-> accepts d d v.
Proof.
  intros P IDS NA H. pose proof H as H0. unfold js_to in H. apply jbind_Ok in H as (J1 & t' & H & E).
  assert (t' = t) as -> by (destruct t'; try discriminate E; now injection E as _ <-). clear E.
  destruct (json_printed builtin_aliases t (plain_node _ _ _ _ _ P H)) as [d D]. exists (PDict d). unfold schema_output. rewrite D. split; [reflexivity|].
  eapply again_written; eauto.
Qed.
End Strategy.

(** ** Schemas that print other documents *)
(** A definition that is a reference to itself accepts nothing. *)
Lemma loop_rejects doc r e : (forall s, target doc r s -> s = PDict e) -> dget "$ref" e = Some (PStr r) -> forall v, ~ accepts doc (PDict e) v.
Proof.
  intros ONE G.
  assert (X : (forall s v, accepts doc s v -> s <> PDict e) /\ (forall d k s v, keyword doc d k s v -> k = "$ref" -> s = PStr r -> False)
    /\ (forall s v, rejects doc s v -> True) /\ (forall d k s v, refuses doc d k s v -> True)).
  { apply validity_m; auto; try (intros; discriminate).
    - intros d v K IH E. injection E as ->. eapply IH; eauto.
    - intros d k r' s v O T A IH -> [= ->]. apply IH. now apply ONE.
    - intros d k s v N -> _. apply N. cbn. tauto. }
  intros v A. exact (proj1 X _ _ A eq_refl).
Qed.
