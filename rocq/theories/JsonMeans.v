(** A JSON schema is read as the type that it describes (C101). *)
From Coq Require Import String Ascii List NArith ZArith QArith Bool Lia.
From Verif Require Import PyVal PyValFacts RType Registry FromDict FromDictFacts RoundTrip Nullable NullableFacts
  SpecTypes Url BigQueryFacts JsonSchema JsonFacts SpecJson JsonRead JsonRefs SpecInstances SpecJsonSchema JsonAccepts JsonValues.
Import ListNotations.
Open Scope nat_scope.
Open Scope string_scope.
Open Scope list_scope.

Scheme means_m := Induction for means Sort Prop with means_all_m := Induction for means_all Sort Prop.

Section Strategy.
Variable strategy : string -> res string.
Notation parse := (js_parse strategy).
Definition aliased (i a : string) : Prop := strategy i = Ok a.
Definition same (l l' : list string) : Prop := forall i, In i l <-> In i l'.

(** ** Attributes *)
Lemma head_given d J J' x ids : js_head strategy d J = (J', Ok x) -> same ids J -> exists al ids', identified aliased ids d al ids' /\ same ids' J' /\
  (forall lo, given d lo al (js_common lo x)) /\
  (dmem "alias" x = false -> dget "$id" d = None /\ J' = J /\ forall a, given d PNone (PStr a) (mkC PNone (PStr a) (kwarg "doc" PNone x) (ddel "doc" x))).
Proof.
  intros H S. apply jbind_Ok in H as (J1 & al & H & E). injection E as <- <-. unfold js_id in H.
  destruct (dget "$id" d) as [v|] eqn:I.
  - destruct (match dget "$schema" d with Some _ => _ | None => _ end) eqn:SC; [discriminate|]. destruct v as [| | | |s| |]; try discriminate.
    injection H as <- H. apply rbind_Ok in H as (a & SA & H). injection H as <-.
    exists (PStr a), (without_hash s :: ids). rewrite <- hash_eq in *. split; [|split; [|split]].
    + apply id_some; auto. intros v E. rewrite E in SC. apply negb_false_iff in SC.
      destruct v as [|[]| | |s'| |]; try discriminate SC. cbn in SC. apply String.eqb_eq in SC. now rewrite SC.
    + intros i. destruct (str_in (without_hash s) _) eqn:IN; cbn; rewrite (S i); [|tauto]. apply str_in_iff in IN. split; [intros [<-|?]; auto|auto].
    + intros lo. unfold given, has_attrs, js_common, kwarg. cbn [c_logical c_alias c_doc c_extra].
      destruct (dget "description" d), (dget "default" d); repeat split; intros k;
        cbn; destruct (String.eqb k "default"), (String.eqb k "name"); reflexivity.
    + intros M. exfalso. revert M. unfold dmem. destruct (dget "description" d), (dget "default" d); discriminate.
  - injection H as <- <-. exists PNone, ids. split; [now constructor|]. split; [auto|]. split.
    + intros lo. unfold given, has_attrs, js_common, kwarg. cbn [c_logical c_alias c_doc c_extra].
      destruct (dget "description" d), (dget "default" d); repeat split; intros k;
        cbn; destruct (String.eqb k "default"), (String.eqb k "name"); reflexivity.
    + intros _. split; [auto|]. split; [auto|]. intros a. unfold given, has_attrs, kwarg. cbn [c_logical c_alias c_doc c_extra].
      destruct (dget "description" d), (dget "default" d); repeat split; intros k;
        cbn; destruct (String.eqb k "default"), (String.eqb k "name"); reflexivity.
Qed.
Lemma head_found d J ids al ids' : identified aliased ids d al ids' -> same ids J ->
  exists J' x, js_head strategy d J = (J', Ok x) /\ same ids' J' /\ (dget "$id" d = None -> J' = J /\ dmem "alias" x = false).
Proof.
  intros H S. destruct H as [I|i a I SC AL].
  - exists J. eexists. unfold js_head, js_id. rewrite I. cbn. split; [reflexivity|]. split; [auto|]. intros _. split; auto.
    unfold dmem. destruct (dget "description" d), (dget "default" d); reflexivity.
  - unfold js_head, js_id. rewrite I.
    replace (match dget "$schema" d with Some s => negb (py_eq s (PStr draft2020)) | None => false end) with false.
    2:{ destruct (dget "$schema" d) as [v|] eqn:E; auto. rewrite (SC v eq_refl). reflexivity. }
    unfold jbind. cbv zeta beta. unfold aliased in AL. rewrite hash_eq in AL. rewrite AL. cbn [rbind].
    eexists _, _. split; [reflexivity|]. rewrite hash_eq. split; [|discriminate].
    intros k. destruct (str_in _ J) eqn:IN; cbn; rewrite (S k); [|tauto]. apply str_in_iff in IN. split; [intros [<-|?]; auto|auto].
Qed.

(** ** Properties *)
Lemma bare_attr t k : bare t -> k <> "default" -> dget k (c_extra (get_c t)) = None.
Proof. intros B N. destruct (dget k _) eqn:E; auto. apply dget_In, (List.in_map fst) in E. apply B in E. contradiction. Qed.
Lemma named_attrs t n df : bare t -> (forall v, df = Some v -> True) ->
  (df = attr "default" t -> has_attrs (c_logical (get_c t)) (c_alias (get_c t)) (c_doc (get_c t)) df (Some n)
    (get_c (set_extra_key "name" (PStr n) t))).
Proof.
  intros B _ E. unfold set_extra_key. rewrite get_set. repeat split. intros k. cbn [c_extra]. rewrite dget_dset.
  destruct (String.eqb_spec k "name") as [->|N]; [reflexivity|].
  destruct (String.eqb_spec k "default") as [->|N']; [now rewrite E|]. now apply bare_attr.
Qed.
Lemma bare_default t : bare t -> bare (set_extra_key "default" PNone t).
Proof. intros B k I. unfold set_extra_key in I. rewrite get_set in I. cbn [c_extra] in I. apply dset_keys in I as [I|I]; [now apply B|auto]. Qed.
Lemma required_iff_list d n (RQ : forall v, dget "required" d = Some v -> exists l, v = PList l) :
  exists b, py_str_in n (kwarg "required" (PList []) d) = Ok b /\ (b = true <-> required_name d n).
Proof.
  unfold kwarg, required_name. destruct (dget "required" d) as [v|] eqn:R.
  - destruct (RQ v eq_refl) as [l ->]. rewrite str_in_list. eexists. split; [reflexivity|]. rewrite existsb_exists. split.
    + intros (y & I & E). apply py_eq_str in E. subst y. eauto.
    + intros (l' & [= <-] & I). exists (PStr n). split; auto. now apply py_eq_str.
  - eexists. split; [reflexivity|]. split; [discriminate|]. intros (l & ? & _). discriminate.
Qed.
Lemma bare_clash t : bare t -> no_clash t.
Proof. intros B k I M. apply B in I. subst k. destruct t; cbn in M; intuition discriminate. Qed.
Lemma bare_labels t : bare t -> ddel "name" (ddel "default" (c_extra (get_c t))) = [] /\
  union_labels t = [("default", match attr "default" t with Some v => v | None => PNone end)].
Proof.
  intros B. split.
  - destruct (ddel "name" _) as [|[k v] e] eqn:E; auto. exfalso.
    assert (I : In k (dkeys (ddel "name" (ddel "default" (c_extra (get_c t)))))) by (rewrite E; now left).
    apply ddel_keys in I as [I _]. apply ddel_keys in I as [I X]. apply B in I. congruence.
  - unfold union_labels, attr, kwarg. rewrite (bare_attr t "name") by (auto; discriminate). destruct (dget "default" _); reflexivity.
Qed.
Lemma property_as d n g : bare g -> (forall v, dget "required" d = Some v -> exists l, v = PList l) ->
  exists f, js_property d n g = Ok f /\ field_as d n g f.
Proof.
  intros B RQ. unfold js_property. destruct (required_iff_list d n RQ) as (b & -> & RB). cbn [rbind].
  assert (SK : forall t v k, set_extra_key k v t = set_c t (get_c (set_extra_key k v t))).
  { intros t v k. unfold set_extra_key. now rewrite get_set. }
  destruct b.
  - eexists. split; [reflexivity|]. rewrite SK. apply fa_required; [now apply RB|]. now apply named_attrs.
  - assert (NR : ~ required_name d n) by (intros X; apply RB in X; discriminate).
    destruct (is_nullable g) eqn:N.
    + cbn [rbind]. eexists. split; [reflexivity|]. apply nullable_iff in N. destruct (dmem "default" (c_extra (get_c g))) eqn:D.
      * rewrite SK. apply fa_nullable; auto. apply named_attrs; auto. unfold attr, or_null. unfold dmem in D. destruct (dget "default" _); congruence.
      * assert (AD : attr "default" g = None) by (unfold attr; unfold dmem in D; destruct (dget "default" _); congruence).
        set (h := set_extra_key "default" PNone g).
        replace (set_extra_key "name" (PStr n) h) with (set_c g (get_c (set_extra_key "name" (PStr n) h))).
        2:{ unfold h, set_extra_key. rewrite !get_set. cbn [c_logical c_alias c_doc c_extra]. destruct g; reflexivity. }
        apply fa_nullable; auto. rewrite AD. 
        pose proof (named_attrs h n (or_null None) (bare_default g B) ltac:(auto)) as X.
        assert (HG : get_c h = mkC (c_logical (get_c g)) (c_alias (get_c g)) (c_doc (get_c g)) (dset "default" PNone (c_extra (get_c g))))
          by (unfold h, set_extra_key; apply get_set).
        rewrite HG in X. cbn [c_logical c_alias c_doc] in X. apply X. unfold attr. rewrite HG. cbn [c_extra]. now rewrite dget_dset.
    + assert (NN : ~ nullable g) by (intros X; apply nullable_iff in X; congruence).
      destruct (bare_labels _ B) as [E2 UL]. set (dv := match attr "default" g with Some v => v | None => PNone end) in *.
      destruct (is_union g) eqn:U.
      * destruct g as [| | | | | | | | | |c ts|]; try discriminate U. rewrite make_nullable_union by (now apply bare_clash). cbn [get_c] in *.
        rewrite E2, UL. cbn [snd rbind app]. cbn in N. rewrite N. eexists. split; [reflexivity|].
        unfold dmem. cbn [get_c c_extra dget String.eqb Ascii.eqb Bool.eqb]. unfold set_extra_key. cbn [get_c set_c c_logical c_alias c_doc c_extra].
        eapply fa_union; eauto. repeat split.
      * rewrite make_nullable_other by (auto; now apply bare_clash). rewrite UL. cbn [snd rbind].
        assert (NU : is_null g = false) by (destruct g; auto; discriminate N). rewrite NU. eexists. split; [reflexivity|].
        unfold dmem. cbn [get_c c_extra dget String.eqb Ascii.eqb Bool.eqb]. unfold set_extra_key. cbn [get_c set_c c_logical c_alias c_doc c_extra].
        unfold plain. rewrite E2.
        eapply fa_other; eauto; repeat split.
        intros k. cbn. destruct (String.eqb k "default"), (String.eqb k "name"); auto.
Qed.

(** ** Reading *)
Lemma psize_dget d k v : dget k d = Some v -> psize v < psize (PDict d).
Proof. intros E. apply dsize_dget in E. rewrite psize_dict. lia. Qed.
Lemma psize_list_dict d k l x : dget k d = Some (PList l) -> In x l -> psize x < psize (PDict d).
Proof. intros E I. apply dsize_dget in E. rewrite psize_list in E. rewrite psize_dict. apply lsize_In in I. lia. Qed.
Lemma psize_dict_dict d k ps n x : dget k d = Some (PDict ps) -> In (n, x) ps -> psize x < psize (PDict d).
Proof. intros E I. apply dsize_dget in E. rewrite psize_dict in E. rewrite psize_dict. apply dsize_In in I. lia. Qed.
Lemma inside_sub d k v j : dget k d = Some v -> inside j v -> inside j (PDict d).
Proof. intros G I. econstructor; [apply dget_In; exact G|exact I]. Qed.
Lemma rl_sub d k v : required_lists (PDict d) -> dget k d = Some v -> required_lists v.
Proof. intros R G e w I. apply R. eapply inside_sub; eauto. Qed.
Lemma rl_list l x : required_lists (PList l) -> In x l -> required_lists x.
Proof. intros R G e w I. apply R. econstructor; eauto. Qed.
Lemma rl_dict d k x : required_lists (PDict d) -> In (k, x) d -> required_lists x.
Proof. intros R G e w I. apply R. econstructor; eauto. Qed.
Lemma rl_self d v : required_lists (PDict d) -> dget "required" d = Some v -> exists l, v = PList l.
Proof. intros R. apply R. constructor. Qed.

Definition reads_ok (j : pyval) : Prop := forall J J' t ids, parse j J = (J', Ok t) -> same ids J ->
  exists ids', means aliased ids j t ids' /\ same ids' J'.
Lemma scalar_basic d x ty t al : scalar_read d x ty t -> (forall lo, given d lo al (js_common lo x)) ->
  exists lo c, given d lo al c /\ basic ty (dget "format" d) lo c t.
Proof.
  intros H G. destruct H as [F|f lo F I|F| | | |]; try (eexists _, _; split; [apply G|constructor; auto]; fail).
  - eexists _, _. split; [apply G|]. rewrite F. constructor.
  - eexists _, _. split; [apply G|]. rewrite F. now constructor.
Qed.
Lemma all_read (f : pyval -> JM rtype) l : (forall x J J' t ids, In x l -> f x J = (J', Ok t) -> same ids J -> exists ids', means aliased ids x t ids' /\ same ids' J') ->
  forall J J' ts ids, jmap f l J = (J', Ok ts) -> same ids J -> exists ids', means_all aliased ids l ts ids' /\ same ids' J'.
Proof.
  induction l as [|x l IH]; intros H J J' ts ids E S; cbn [jmap] in E.
  - injection E as <- <-. exists ids. split; [constructor|auto].
  - apply jbind_Ok in E as (J1 & y & E1 & E). apply jbind_Ok in E as (J2 & zs & E2 & E). injection E as <- <-.
    apply (H x _ _ _ ids) in E1 as (ids1 & M1 & S1); [|now left|auto].
    apply (IH (fun x J J' t ids I => H x J J' t ids (or_intror I)) _ _ _ ids1) in E2 as (ids2 & M2 & S2); auto.
    exists ids2. split; [econstructor; eauto|auto].
Qed.
Lemma props_read d ps : (forall v, dget "required" d = Some v -> exists l, v = PList l) ->
  (forall k x, In (k, x) ps -> reads_ok x) ->
  forall J J' fs ids, jmap (field_read parse d) ps J = (J', Ok fs) -> same ids J ->
    exists gs ids', means_all aliased ids (map snd ps) gs ids' /\ fields_as d ps gs fs /\ same ids' J'.
Proof.
  intros RQ. induction ps as [|[n x] ps IH]; intros H J J' ts ids E S; cbn [jmap] in E.
  - injection E as <- <-. exists [], ids. split; [constructor|]. split; [constructor|auto].
  - apply jbind_Ok in E as (J1 & y & E1 & E). apply jbind_Ok in E as (J2 & zs & E2 & E). injection E as <- <-.
    unfold field_read in E1. apply jbind_Ok in E1 as (J3 & g & G & E1). injection E1 as -> E1. cbn [fst snd] in *.
    pose proof (parse_bare _ _ _ _ _ G) as B. destruct (property_as d n g B RQ) as (f & PF & FA). assert (f = y) by congruence. subst f.
    apply (H n x (or_introl eq_refl) _ _ _ ids) in G as (ids1 & M1 & S1); auto.
    apply (IH (fun k x I => H k x (or_intror I)) _ _ _ ids1) in E2 as (gs & ids2 & M2 & F2 & S2); auto.
    exists (g :: gs), ids2. split; [cbn; econstructor; eauto|]. split; [now constructor|auto].
Qed.
Lemma parse_means j : required_lists j -> reads_ok j.
Proof.
  remember (psize j) as n eqn:SZ. revert j SZ. induction n as [n IH] using lt_wf_ind. intros j SZ RL J J' t ids H S.
  apply parse_inv in H as (d & J1 & x & DJ & HD & H).
  assert (D : exists ids', means aliased ids (PDict d) t ids' /\ same ids' J').
  { destruct (head_given _ _ _ _ ids HD S) as (al & ids1 & ID & S1 & GV & NA).
    destruct DJ as [->|(s & -> & ->)].
    - destruct H as [l J2 ts T M|ps J2 fs T P M|y J2 t T I M|ty t T SR|k r a K G I SA NX NT].
      + apply (all_read _ _ (fun x J J' t ids I => IH (psize x) ltac:(subst n; eapply psize_list_dict; eauto) x eq_refl (rl_list _ _ (rl_sub _ _ _ RL T) I) J J' t ids) _ _ _ ids1) in M as (ids2 & M & S2); auto.
        exists ids2. split; [eapply me_types; eauto|auto].
      + apply (props_read d ps (fun v => rl_self d v RL)) with (ids := ids1) in M as (gs & ids2 & M & F & S2); auto.
        * exists ids2. split; [eapply me_object; eauto|auto].
        * intros k z I. apply (IH (psize z)); auto; [subst n; eapply psize_dict_dict; eauto|]. eapply rl_dict; [|exact I]. eapply rl_sub; eauto.
      + assert (RY : reads_ok y).
        { apply (IH (psize y)); auto; [subst n; eapply psize_dget; eauto|]. eapply rl_sub; eauto. }
        destruct (RY _ _ _ ids1 M S1) as (ids2 & M2 & S2). exists ids2. split; [eapply me_array; eauto|auto].
      + destruct (scalar_basic _ _ _ _ _ SR GV) as (lo & c & G & B). exists ids1. split; [eapply me_basic; eauto|auto].
      + destruct (NA NX) as (NI & E & GA). subst J1. exists ids. split; [|auto]. rewrite <- hash_eq in *.
        eapply me_ref; eauto; [destruct K as [-> |[-> K]]; [now left|now right]|now apply S].
    - destruct H as [l J2 ts T M|ps J2 fs T P M|y J2 t T I M|ty t T SR|k r a K G I SA NX NT]; [discriminate T|discriminate P|discriminate I| |].
      + destruct (scalar_basic _ _ _ _ _ SR GV) as (lo & c & G & B). exists ids1. split; [eapply me_basic; eauto|auto].
      + destruct K as [-> |[-> _]]; discriminate G. }
  destruct D as (ids' & M & S'). exists ids'. split; auto. destruct DJ as [->|(s & -> & ->)]; auto. now constructor.
Qed.

(** ** Acceptance *)
Lemma str_parse s J : parse (PStr s) J = parse (PDict [("type", PStr s)]) J.
Proof.
  rewrite parse_dict. unfold js_parse at 1. cbn [psize js_parse_f]. unfold jbind. destruct (js_head strategy _ J) as [J1 [x|]]; auto.
  unfold js_body. cbn [dget String.eqb Ascii.eqb Bool.eqb]. unfold dmem. cbn [dget String.eqb Ascii.eqb Bool.eqb].
  rewrite !andb_false_r. reflexivity.
Qed.
Definition accepted (ids : list string) (j : pyval) (t : rtype) (ids' : list string) : Prop :=
  forall J, same ids J -> required_lists j -> exists J' t', parse j J = (J', Ok t') /\ same ids' J' /\ (type_name t = "struct" -> type_name t' = "struct").
Definition accepted_all (ids : list string) (l : list pyval) (ids' : list string) : Prop :=
  forall J, same ids J -> Forall required_lists l -> exists J' ts, jmap parse l J = (J', Ok ts) /\ same ids' J'.
Lemma props_ok d ps : (forall v, dget "required" d = Some v -> exists l, v = PList l) ->
  forall J J' ts, jmap parse (map snd ps) J = (J', Ok ts) -> exists fs, jmap (field_read parse d) ps J = (J', Ok fs).
Proof.
  intros RQ. induction ps as [|[n x] ps IH]; intros J J' ts E; cbn [jmap map] in *; [injection E as <- <-; eexists; reflexivity|].
  apply jbind_Ok in E as (J1 & y & E1 & E). apply jbind_Ok in E as (J2 & zs & E2 & E). injection E as <- <-.
  apply IH in E2 as [fs E2]. destruct (property_as d n y (parse_bare _ _ _ _ _ E1) RQ) as (f & PF & _). exists (f :: fs).
  unfold jbind at 1. unfold field_read at 1. unfold jbind at 1. cbn [fst snd] in *. rewrite E1. unfold jlift. rewrite PF. unfold jbind. rewrite E2. reflexivity.
Qed.
Lemma means_accepted ids j t ids' : means aliased ids j t ids' -> accepted ids j t ids'.
Proof.
  intros H. induction H using means_m with (P0 := fun ids l _ ids' _ => accepted_all ids l ids'); intros J S RL.
  - rewrite str_parse. apply IHmeans; auto. intros e v I. inversion I as [|? ? I1 I2|? k v' I1 I2]; subst; [discriminate|].
    cbn in I1. destruct I1 as [[= <- <-]|[]]. inversion I2.
  - destruct (head_found _ _ _ _ _ i S) as (J1 & x & HD & S1 & _). rewrite parse_dict. unfold jbind. rewrite HD.
    unfold js_body. rewrite e. destruct b; cbn [String.eqb Ascii.eqb Bool.eqb andb]; unfold jret;
      try (eexists _, _; split; [reflexivity|split; [exact S1|try discriminate]]; fail).
    + destruct (String.eqb f "bytes"); eexists _, _; (split; [reflexivity|split; [exact S1|discriminate]]).
    + destruct f as [v|]; [destruct v as [| | | |f| |]; try destruct (String.eqb f "bytes")|];
        eexists _, _; (split; [reflexivity|split; [exact S1|discriminate]]).
  - destruct (head_found _ _ _ _ _ i S) as (J1 & x & HD & S1 & _). rewrite parse_dict. unfold jbind at 1. rewrite HD.
    unfold js_body. rewrite e. destruct (IHmeans J1 S1) as (J2 & ts' & E & S2).
    { apply Forall_forall. intros y I. eapply rl_list; [|exact I]. eapply rl_sub; eauto. }
    unfold jbind. rewrite E. eexists _, _. split; [reflexivity|]. split; [exact S2|discriminate].
  - destruct (head_found _ _ _ _ _ i S) as (J1 & x & HD & S1 & _). rewrite parse_dict. unfold jbind at 1. rewrite HD.
    unfold js_body. rewrite e. unfold dmem, kwarg. rewrite e0. change (String.eqb "object" "object" && true) with true. cbv iota zeta.
    destruct (IHmeans J1 S1) as (J2 & ts' & E & S2).
    { apply Forall_forall. intros y I. apply in_map_iff in I as ([k z] & <- & I). eapply rl_dict; [|exact I]. eapply rl_sub; eauto. }
    destruct (props_ok d ps (fun v => rl_self d v RL) _ _ _ E) as [fs' E'].
    unfold jbind at 1. change (fun p : string * pyval => (f0 <- parse (snd p);; jlift (js_property d (fst p) f0))%jm) with (field_read parse d).
    rewrite E'. eexists _, _. split; [reflexivity|]. split; [exact S2|reflexivity].
  - destruct (head_found _ _ _ _ _ i S) as (J1 & x & HD & S1 & _). rewrite parse_dict. unfold jbind at 1. rewrite HD.
    unfold js_body. rewrite e. unfold dmem, kwarg. rewrite e0. cbn [String.eqb Ascii.eqb Bool.eqb andb].
    destruct (IHmeans J1 S1) as (J2 & t' & E & S2 & _). { eapply rl_sub; eauto. }
    unfold jbind. rewrite E. eexists _, _. split; [reflexivity|]. split; [exact S2|discriminate].
  - destruct (head_found d J ids PNone ids) as (J1 & x & HD & S1 & NX); [now constructor|auto|]. destruct (NX e) as [-> NX'].
    rewrite parse_dict. unfold jbind at 1. rewrite HD. unfold js_body. cbv zeta.
    match goal with |- context [if String.eqb _ "null" then _ else ?r] => set (ref := r) end.
    assert (RR : exists J' t', ref J = (J', Ok t') /\ same ids J' /\ (type_name (TProxy c None) = "struct" -> type_name t' = "struct")).
    { unfold ref.
      assert (E0 : (let id := rstrip_char "#" r in if str_in id J then (a0 <- jlift (strategy id) ;; if dmem "alias" x then jfail TypeError
        else jret (TProxy (mkC PNone (PStr a0) (kwarg "doc" PNone x) (ddel "doc" x)) None))%jm J else (J, Err Unmodelled)) =
        (J, Ok (TProxy (mkC PNone (PStr a) (kwarg "doc" PNone x) (ddel "doc" x)) None))).
      { cbv zeta. rewrite <- hash_eq. apply S in i. apply str_in_iff in i. rewrite i. unfold jbind, jlift. unfold aliased in a0. rewrite a0. rewrite NX'. reflexivity. }
      destruct r0 as [E|[E N]].
      - rewrite E. eexists _, _. split; [exact E0|]. split; [auto|discriminate].
      - rewrite E. destruct (dget "$ref" d) as [v|] eqn:R1; [destruct v as [| | | |s'| |]; try (exfalso; exact (N _ eq_refl))|]; (eexists _, _; split; [exact E0|]; split; [auto|discriminate]). }
    clearbody ref. unfold SpecJsonSchema.typed in n. destruct (dget "type" d) as [v|] eqn:T; [|exact RR]. destruct v as [| | | |s|l|]; try exact RR.
    + unfold dmem. destruct (String.eqb_spec s "object") as [->|Q1]. 
      { destruct (dget "properties" d); [|exact RR]. destruct n. right. exists "object". split; auto. right. left. split; [auto|discriminate]. }
      destruct (String.eqb_spec s "array") as [->|Q2].
      { cbn [andb]. destruct (dget "items" d); [|exact RR]. destruct n. right. exists "array". split; auto. right. right. split; [auto|discriminate]. }
      cbn [andb].
      repeat (match goal with |- context [String.eqb s ?k] => destruct (String.eqb_spec s k) as [->|]; [exfalso; apply n; right; eexists; split; [reflexivity|]; left; cbn; tauto|] end).
      exact RR.
    + destruct n. left. eauto.
  - eexists _, _. split; [reflexivity|auto].
  - inversion RL; subst. destruct (IHmeans J S) as (J1 & t' & E & S1 & _); auto. destruct (IHmeans0 J1 S1) as (J2 & ts' & E2 & S2); auto.
    cbn [jmap]. unfold jbind. rewrite E, E2. eexists _, _. split; [reflexivity|auto].
Qed.
Lemma to_means j J' t : required_lists j -> js_to strategy j [] = (J', Ok t) ->
  (exists ids, means aliased [] j t ids) /\ exists c fs, t = TStruct c fs.
Proof.
  intros RL H. unfold js_to in H. apply jbind_Ok in H as (J1 & t' & P & H).
  destruct t' as [| | | | | | | |c fs| | |]; try discriminate. injection H as <- <-. split; [|eauto].
  destruct (parse_means j RL _ _ _ [] P) as (ids & M & _); [intros i; tauto|eauto].
Qed.
Lemma to_accepted j c fs ids : required_lists j -> means aliased [] j (TStruct c fs) ids -> exists J' t, js_to strategy j [] = (J', Ok t).
Proof.
  intros RL M. apply means_accepted in M. destruct (M []) as (J' & t & P & _ & ST); auto. { intros i. tauto. }
  specialize (ST eq_refl). unfold js_to, jbind. rewrite P. destruct t; try discriminate ST. eexists _, _. reflexivity.
Qed.
End Strategy.

(** ** Schemas inside a document *)
Definition each (P : attrs -> Prop) (j : pyval) : Prop := forall d, inside (PDict d) j -> P d.
Lemma each_dict (P : attrs -> Prop) d : P d -> Forall (fun p => each P (snd p)) d -> each P (PDict d).
Proof.
  intros H F e I. inversion I as [|? ? ? I2|? k x I1 I2]; subst; auto. rewrite Forall_forall in F. exact (F _ I1 _ I2).
Qed.
Lemma each_list (P : attrs -> Prop) l : Forall (each P) l -> each P (PList l).
Proof. intros F e I. inversion I as [|? x I1 I2|]; subst. rewrite Forall_forall in F. exact (F _ I1 _ I2). Qed.
Lemma each_other (P : attrs -> Prop) v : match v with PDict _ | PList _ => False | _ => True end -> each P v.
Proof. intros H e I. inversion I; subst; contradiction. Qed.
