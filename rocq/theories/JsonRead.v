(** Properties of the JSON Schema reader: fields of objects. *)
From Coq Require Import String Ascii List NArith ZArith QArith Bool Lia.
From Verif Require Import PyVal PyValFacts RType Registry FromDict FromDictFacts RoundTrip Nullable NullableFacts
  SpecTypes Url JsonSchema JsonFacts SpecJson.
Import ListNotations.
Open Scope nat_scope.
Open Scope string_scope.
Open Scope list_scope.

Lemma get_set t c : get_c (set_c t c) = c.
Proof. destruct t; reflexivity. Qed.
Lemma kids_set t c : children (set_c t c) = children t.
Proof. destruct t; reflexivity. Qed.
Lemma tname_set t c : type_name (set_c t c) = type_name t.
Proof. destruct t; reflexivity. Qed.
Lemma sets_extra k v t : sets k v t (set_extra_key k v t).
Proof.
  unfold set_extra_key. exists (dset k v (c_extra (get_c t))). split; [reflexivity|]. split.
  - now rewrite dget_dset, String.eqb_refl.
  - intros k' N. rewrite dget_dset. apply String.eqb_neq in N. now rewrite N.
Qed.

Section Strategy.
Variable strategy : string -> res string.

(** The only extra attribute of a type that is read is its default. *)
Definition bare (t : rtype) : Prop := forall k, In k (dkeys (c_extra (get_c t))) -> k = "default".
Lemma head_extra d J J' x lo : js_head strategy d J = (J', Ok x) ->
  forall k, In k (dkeys (c_extra (js_common lo x))) -> k = "default".
Proof.
  unfold js_head. intros H. apply jbind_Ok in H as (J1 & a & A & H). injection H as <- <-.
  assert (EA : forall k, In k (dkeys a) -> k = "alias").
  { unfold js_id in A. destruct (dget "$id" d) as [v|]; [|injection A as <- <-; intros k []].
    destruct (match dget "$schema" d with Some _ => _ | None => _ end); [discriminate|].
    destruct v; try discriminate. injection A as _ A. apply rbind_Ok in A as (y & _ & A). injection A as <-.
    intros k [<-|[]]. reflexivity. }
  intros k I. unfold js_common in I. cbn [c_extra] in I.
  apply ddel_keys in I as [I N1]. apply ddel_keys in I as [I N2].
  rewrite !dkeys_app, !in_app_iff in I. destruct I as [I|[I|I]].
  - destruct (dget "description" d); cbn in I; intuition congruence.
  - destruct (dget "default" d); cbn in I; intuition congruence.
  - apply EA in I. congruence.
Qed.
Lemma bare_proxy d J J' x a : js_head strategy d J = (J', Ok x) -> dmem "alias" x = false ->
  bare (TProxy (mkC PNone (PStr a) (kwarg "doc" PNone x) (ddel "doc" x)) None).
Proof.
  intros H NA k I. cbn in I. apply (head_extra _ _ _ _ PNone H). cbn [js_common c_extra].
  apply ddel_keys. split; auto. intros ->. apply ddel_keys in I as [I _].
  apply dmem_true in I. congruence.
Qed.
Lemma parse_bare j J J' t : js_parse strategy j J = (J', Ok t) -> bare t.
Proof.
  unfold js_parse. destruct (psize j) as [|n]; [discriminate|]. cbn [js_parse_f].
  assert (G : forall d J J', (x <- js_head strategy d ;; js_body strategy (js_parse_f strategy n) d x)%jm J = (J', Ok t) -> bare t).
  { clear. intros d J J' H. apply jbind_Ok in H as (J1 & x & HX & H).
    assert (B : forall lo t, get_c t = js_common lo x -> bare t).
    { intros lo t' E k. rewrite E. apply (head_extra _ _ _ _ lo HX). }
    unfold js_body in H. cbv zeta in H.
    set (ref := match dget "$ref" d with Some (PStr urn) => _ | _ => _ end) in H.
    assert (RR : ref J1 = (J', Ok t) -> bare t).
    { assert (RF : forall urn : string, (let id := rstrip_char "#" urn in
        if str_in id J1 then (a <- jlift (strategy id) ;; if dmem "alias" x then jfail TypeError
          else jret (TProxy (mkC PNone (PStr a) (kwarg "doc" PNone x) (ddel "doc" x)) None))%jm J1
        else (J1, Err Unmodelled)) = (J', Ok t) -> bare t).
      { intros urn. cbv zeta. destruct (str_in _ J1); [|discriminate]. intros E. apply jbind_Ok in E as (J2 & a & _ & E).
        destruct (dmem "alias" x) eqn:M; [discriminate|]. injection E as _ <-. eapply bare_proxy; eauto. }
      unfold ref. destruct (dget "$ref" d) as [v|]; [destruct v|]; try apply RF;
        destruct (dget "$dynamicRef" d) as [w|]; try discriminate; destruct w; try discriminate; apply RF. }
    clearbody ref. destruct (dget "type" d) as [ty|]; auto. destruct ty as [| | | |s|l|e]; auto.
    - destruct (String.eqb s "object" && _).
      + destruct (kwarg "properties" PNone d); try discriminate. apply jbind_Ok in H as (J2 & fs & _ & H). injection H as _ <-.
        apply (B PNone). reflexivity.
      + destruct (String.eqb s "array" && _).
        * apply jbind_Ok in H as (J2 & fs & _ & H). injection H as _ <-. apply (B PNone). reflexivity.
        * repeat match type of H with (if String.eqb s ?b then _ else _) _ = _ => destruct (String.eqb s b) end;
            try (injection H as _ <-; apply (B PNone); reflexivity); auto.
          destruct (dget "format" d) as [v|]; [|injection H as _ <-; apply (B PNone); reflexivity].
          destruct v as [| | | |f| |]; try (injection H as _ <-; apply (B PNone); reflexivity).
          destruct (String.eqb f "bytes"); injection H as _ <-; eapply B; reflexivity.
    - apply jbind_Ok in H as (J2 & fs & _ & H). injection H as _ <-. apply (B PNone). reflexivity. }
  destruct j as [| | | |s|l|d]; try discriminate; try apply G.
  repeat match goal with |- (if ?b then _ else _) _ = _ -> _ => destruct b end; discriminate.
Qed.

Lemma same_member (c : common) m : c_logical c = c_logical (get_c m) -> c_alias c = c_alias (get_c m) ->
  type_name m = type_name (set_c m c) /\ children m = children (set_c m c) /\
  c_logical (get_c m) = c_logical (get_c (set_c m c)) /\ c_alias (get_c m) = c_alias (get_c (set_c m c)).
Proof. intros L A. rewrite tname_set, kids_set, get_set. auto. Qed.
Lemma same_members ms : Forall2 (fun m m' => type_name m = type_name m' /\ children m = children m' /\
  c_logical (get_c m) = c_logical (get_c m') /\ c_alias (get_c m) = c_alias (get_c m')) ms ms.
Proof. induction ms; constructor; auto. Qed.
Lemma nullable_iff t : is_nullable t = true <-> nullable t.
Proof.
  destruct t as [| | | | | | | | | |c ts|]; cbn; try (split; [discriminate|tauto]); [split; auto|].
  rewrite existsb_exists. split.
  - intros (x & I & N). destruct x; try discriminate. eauto.
  - intros [c' I]. exists (TNull c'). auto.
Qed.
Lemma union_members c ts l : members (TUnion c ts) = l -> ts = l. Proof. auto. Qed.

Lemma property_nullable t g : bare t ->
  (if is_nullable t then Ok t else snd (make_nullable t)) = Ok g ->
  made_nullable t (if dmem "default" (c_extra (get_c g)) then g else set_extra_key "default" PNone g).
Proof.
  intros B. destruct (is_nullable t) eqn:N.
  - intros [= <-]. assert (NT : nullable t) by (now apply nullable_iff). unfold dmem. destruct (dget "default" (c_extra (get_c t))) as [v|] eqn:D.
    + split; [exact NT|]. split; [reflexivity|]. split; [unfold attr; now rewrite D|]. exists (members t). split; [apply same_members|now left].
    + unfold set_extra_key. split; [destruct t; exact NT|]. rewrite get_set. split; [reflexivity|].
      split; [unfold attr; rewrite get_set, D; cbn [c_extra]; now rewrite dget_dset, String.eqb_refl|].
      destruct t as [c| | | | | | | | | |c ts|]; try discriminate N.
      * eexists. split; [|left; reflexivity]. cbn [members]. constructor; [|constructor]. apply (same_member _ (TNull c)); reflexivity.
      * exists ts. split; [apply same_members|now left].
  - unfold make_nullable.
    assert (E2 : ddel "name" (ddel "default" (c_extra (get_c t))) = []).
    { destruct (ddel "name" _) as [|[k v] e] eqn:E; auto. exfalso.
      assert (I : In k (dkeys (ddel "name" (ddel "default" (c_extra (get_c t)))))) by (rewrite E; now left).
      apply ddel_keys in I as [I _]. apply ddel_keys in I as [I X]. apply B in I. congruence. }
    assert (NM : dget "name" (ddel "default" (c_extra (get_c t))) = None).
    { destruct (dget "name" _) eqn:E; auto. apply dget_In, (List.in_map fst) in E. apply ddel_keys in E as [E _]. apply B in E. discriminate. }
    cbv zeta. rewrite E2, NM. change (existsb (fun k : string => dmem k (@nil (string * pyval))) ?l) with (existsb (fun _ : string => false) l).
    replace (existsb (fun _ : string => false) ("self" :: "type_" :: ctor_attrs t)) with false
      by (symmetry; destruct t; reflexivity).
    assert (KD : kwarg "default" PNone (c_extra (get_c t)) = match attr "default" t with Some v => v | None => PNone end)
      by (unfold kwarg, attr; now destruct (dget _ _)).
    rewrite KD. set (dv := match attr "default" t with Some v => v | None => PNone end).
    destruct t as [c|c|c b s|c b|c b v|c b v|c v l va|c k v|c fs|c s|c ts|c rg]; cbn [is_null set_c] in *; try discriminate N;
      try (intros [= <-]; unfold dmem; cbn [c_extra get_c dget String.eqb Ascii.eqb Bool.eqb]; unfold made_nullable;
           split; [exists c0; now left|]; split; [reflexivity|]; split; [reflexivity|];
           eexists [_]; split; [constructor; [|constructor]|right; reflexivity]; repeat split; reflexivity).
    cbn in N. rewrite N. cbn [dmem dget app]. intros [= <-].
    unfold dmem; cbn [c_extra get_c dget String.eqb Ascii.eqb Bool.eqb]. unfold made_nullable.
    split; [exists c0; now left|]. split; [reflexivity|]. split; [reflexivity|].
    exists ts. split; [apply same_members|right; reflexivity].
Qed.

Lemma str_in_list n l : py_str_in n (PList l) = Ok (existsb (fun x => py_eq x (PStr n)) l).
Proof. reflexivity. Qed.
Lemma py_eq_str x s : py_eq x (PStr s) = true <-> x = PStr s.
Proof.
  destruct x as [|[]| | |s'| |]; cbn; try (split; discriminate). rewrite String.eqb_eq. split; congruence.
Qed.
Lemma object_read d ps J J' t : dget "type" d = Some (PStr "object") -> dget "properties" d = Some (PDict ps) ->
  (forall v, dget "required" d = Some v -> exists l, v = PList l) ->
  js_parse strategy (PDict d) J = (J', Ok t) ->
  exists c fs, t = TStruct c fs /\
    Forall2 (fun p f => exists J1 J2 g, js_parse strategy (snd p) J1 = (J2, Ok g) /\
      (required_name d (fst p) /\ sets "name" (PStr (fst p)) g f \/
       ~ required_name d (fst p) /\ exists h, made_nullable g h /\ sets "name" (PStr (fst p)) h f)) ps fs.
Proof.
  intros T P RQ H. rewrite parse_dict in H. apply jbind_Ok in H as (J1 & x & _ & H). unfold js_body in H. rewrite T in H.
  cbv zeta in H. unfold dmem, kwarg in H. rewrite P in H. change (String.eqb "object" "object" && true) with true in H. cbv iota in H.
  apply jbind_Ok in H as (J2 & fs & F & H). injection H as _ <-. eexists _, fs. split; [reflexivity|].
  apply jmap_Ok in F. clear - F RQ. induction F as [|[n p] f ps fs (J1 & J2 & Hf) F IH]; constructor; auto. cbn [fst snd] in *.
  apply jbind_Ok in Hf as (J3 & g & Hg & Hf). exists J1, J3, g. split; [exact Hg|].
  injection Hf as _ Hf. unfold js_property in Hf. apply rbind_Ok in Hf as (req & Q & Hf). apply rbind_Ok in Hf as (g' & G & Hf). injection Hf as <-.
  assert (QS : req = true <-> required_name d n).
  { unfold kwarg in Q. unfold required_name. destruct (dget "required" d) as [v|] eqn:R.
    - destruct (RQ v eq_refl) as [l ->]. rewrite str_in_list in Q. injection Q as <-. rewrite existsb_exists. split.
      + intros (y & I & E). apply py_eq_str in E. subst y. eauto.
      + intros (l' & [= <-] & I). exists (PStr n). split; auto. now apply py_eq_str.
    - injection Q as <-. split; [discriminate|]. intros (l & ? & _). discriminate. }
  destruct req.
  - left. split; [now apply QS|]. injection G as ->. apply sets_extra.
  - right. split; [intros X; apply QS in X; discriminate|]. apply rbind_Ok in G as (h & MN & G).
    apply property_nullable in MN; [|eapply parse_bare; eauto]. injection G as <-.
    eexists. split; [exact MN|]. apply sets_extra.
Qed.
End Strategy.
