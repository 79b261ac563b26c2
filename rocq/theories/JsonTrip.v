(** Recap types written as JSON Schema and read back (C78). *)
From Coq Require Import String Ascii List NArith ZArith QArith Bool Lia.
From Verif Require Import PyVal PyValFacts RType Registry FromDict FromDictFacts RoundTrip Nullable NullableFacts
  SpecTypes SpecAvro AvroProps Url JsonSchema JsonFacts JsonWrite JsonProps JsonRead SpecJson.
Import ListNotations.
Open Scope nat_scope.
Open Scope string_scope.
Open Scope list_scope.

(** The attributes that the labels of [u] are read as. *)
Definition label_c (u : rtype) : common :=
  mkC PNone PNone (if truthy (c_doc (get_c u)) then c_doc (get_c u) else PNone)
    (match dget "default" (c_extra (get_c u)) with Some v => [("default", v)] | None => [] end).
(** Content: no labels. *)
Definition content (e : dict) : Prop :=
  NoDup (dkeys e) /\ forall k, In k (dkeys e) -> k <> "default" /\ k <> "description" /\ k <> "$id" /\ k <> "$defs".

Lemma go_fields (P : rtype -> string -> Prop) fs : forall ns,
  (fix go (fs : list rtype) (ns : list string) : Prop :=
     match fs, ns with [], [] => True | f :: fs', n :: ns' => P f n /\ go fs' ns' | _, _ => False end) fs ns -> Forall2 P fs ns.
Proof. induction fs as [|f fs IH]; intros [|n ns] H; try tauto; constructor; [tauto|]. apply IH. tauto. Qed.

Section Trip.
Variable strategy : string -> res string.
Notation parse := (js_parse strategy).

Lemma dget_content e k : content e -> k = "default" \/ k = "description" \/ k = "$id" -> dget k e = None.
Proof.
  intros [_ C] K. destruct (dget k e) eqn:E; auto. apply dget_In, (List.in_map fst), C in E. cbn in E. intuition.
Qed.
Lemma labels_default u : dget "default" (js_labels u) = dget "default" (c_extra (get_c u)).
Proof.
  unfold js_labels. rewrite dget_dupd by (destruct (truthy _); repeat constructor; cbn; auto).
  destruct (truthy _); cbn; destruct (dget "default" (c_extra (get_c u))); reflexivity.
Qed.
Lemma labels_doc u : dget "description" (js_labels u) = if truthy (c_doc (get_c u)) then Some (c_doc (get_c u)) else None.
Proof.
  unfold js_labels. rewrite dget_dupd by (destruct (truthy _); repeat constructor; cbn; auto).
  destruct (truthy _); cbn; destruct (dget "default" (c_extra (get_c u))); reflexivity.
Qed.
Lemma head_labels u e J : content e -> exists x, js_head strategy (dupd (js_labels u) e) J = (J, Ok x) /\ dmem "alias" x = false /\ js_common PNone x = label_c u.
Proof.
  intros C. unfold js_head, js_id. rewrite (dget_dupd "$id") by apply C. rewrite (dget_content e "$id" C) by auto.
  destruct (dget "$id" (js_labels u)) eqn:I.
  { apply dget_In, (List.in_map fst), labels_keys in I as [I|I]; discriminate. }
  cbn [jbind jret]. unfold jbind, jret. eexists. split; [reflexivity|].
  rewrite !dget_dupd by apply C. rewrite !(dget_content e _ C) by auto. rewrite labels_default, labels_doc.
  unfold js_common, label_c. destruct (truthy (c_doc (get_c u))), (dget "default" (c_extra (get_c u))); split; reflexivity.
Qed.

(** What a type is written as, apart from its labels. *)
Definition trips (prox : rtype -> res dict) (R : registry) (t : rtype) : Prop :=
  exists e, content e /\
    (forall c, node prox (js_tree prox R true) R (set_c t c) = Ok (dupd (js_labels (set_c t c)) e)) /\
    (forall u J, parse (PDict (dupd (js_labels u) e)) J = (J, Ok (set_c t (label_c u)))).

Lemma scalar_trips prox R t e :
  content e ->
  (forall c, node prox (js_tree prox R true) R (set_c t c) = Ok (dupd (js_labels (set_c t c)) e)) ->
  (forall d x J, (forall k, k <> "default" -> k <> "description" -> dget k d = dget k e) ->
     js_body strategy parse d x J = (J, Ok (set_c t (js_common PNone x)))) -> trips prox R t.
Proof.
  intros C W P. exists e. split; [exact C|]. split; [exact W|]. intros u J. rewrite parse_dict.
  destruct (head_labels u e J C) as (x & H & _ & L). unfold jbind. rewrite H, P; [now rewrite L|].
  intros k K1 K2. apply dget_labelled; auto. apply C.
Qed.
Lemma content1 v : content [("type", v)].
Proof. split; [repeat constructor; auto|]. intros k [<-|[]]. repeat split; discriminate. Qed.

Definition jfield (prox : rtype -> res dict) (R : registry) (f : rtype) (n : string) : Prop :=
  n <> "" /\ dget "name" (c_extra (get_c f)) = Some (PStr n) /\ c_alias (get_c f) = PNone /\
  exists p g, js_tree prox R true f = Ok p /\ (forall J, parse (PDict p) J = (J, Ok g)) /\
    forall d, py_str_in n (kwarg "required" (PList []) d) = Ok (js_required f) -> js_property d n g = Ok f.

Lemma plain_free nm t : plain_attrs nm (get_c t) -> not_aliased t.
Proof. intros (_ & A & _) a E. congruence. Qed.
Lemma set_c_id t c : get_c t = c -> set_c t c = t.
Proof. intros <-. destruct t; reflexivity. Qed.
Lemma label_plain nm t : plain_attrs nm (get_c t) -> dget "default" nm = None ->
  label_c t = mkC PNone PNone (c_doc (get_c t)) (match dget "default" (c_extra (get_c t)) with Some v => [("default", v)] | None => [] end).
Proof. intros (_ & _ & [D|D] & _) _; unfold label_c; rewrite D; reflexivity. Qed.
Lemma common_eta c : mkC (c_logical c) (c_alias c) (c_doc c) (c_extra c) = c. Proof. now destruct c. Qed.
Lemma label_id t : plain_attrs [] (get_c t) -> label_c t = get_c t.
Proof.
  intros P. rewrite (label_plain [] t P eq_refl). destruct P as (L & A & _ & E). rewrite <- (common_eta (get_c t)) at 3.
  rewrite L, A. f_equal. destruct E as [->|[v ->]]; reflexivity.
Qed.

(** A field that is required. *)
Lemma field_required prox R f n : n <> "" -> plain_attrs [("name", PStr n)] (get_c f) -> is_union f = false ->
  trips prox R f -> jfield prox R f n.
Proof.
  intros N P U (e & C & W & RD). assert (DN : dget "name" (c_extra (get_c f)) = Some (PStr n)).
  { destruct P as (_ & _ & _ & [->|[v ->]]); reflexivity. }
  repeat split; auto; [apply P|]. exists (dupd (js_labels f) e), (set_c f (label_c f)). split; [|split].
  - rewrite tree_free by (right; eapply plain_free; eauto). rewrite <- (set_c_id f (get_c f) eq_refl) at 1 2. apply W.
  - apply RD.
  - intros d Q. unfold js_property. rewrite Q. assert (RQ : js_required f = true) by (destruct f; try reflexivity; discriminate).
    rewrite RQ. cbn [rbind]. f_equal. unfold set_extra_key. rewrite get_set.
    rewrite (label_plain _ f P eq_refl). cbn [c_logical c_alias c_doc c_extra].
    replace (set_c (set_c f _) _) with (set_c f (mkC PNone PNone (c_doc (get_c f))
      (dset "name" (PStr n) (match dget "default" (c_extra (get_c f)) with Some v => [("default", v)] | None => [] end)))) by (destruct f; reflexivity).
    apply set_c_id. destruct P as (L & A & _ & E). rewrite <- (common_eta (get_c f)) at 1. rewrite L, A. f_equal.
    destruct E as [->|[v ->]]; reflexivity.
Qed.
(** A field that is optional. *)
Lemma field_optional prox R c x n : n <> "" -> plain_attrs [("name", PStr n)] c -> dget "default" (c_extra c) <> None ->
  get_c x = c0 -> is_null x = false -> is_union x = false -> trips prox R x -> jfield prox R (TUnion c [TNull c0; x]) n.
Proof.
  intros N P D CX NX UX (e & C & W & RD). set (f := TUnion c [TNull c0; x]).
  assert (NE : rt_eq x (TNull c0) = false) by (destruct x; try reflexivity; discriminate).
  assert (OPT : is_optional c [TNull c0; x] = true).
  { unfold is_optional. cbn [existsb filter]. rewrite NE. change (rt_eq (TNull c0) (TNull c0)) with true. cbn [orb negb length Nat.eqb andb].
    unfold dmem. destruct (dget "default" (c_extra c)); [reflexivity|congruence]. }
  assert (DN : dget "name" (c_extra c) = Some (PStr n)).
  { destruct P as (_ & _ & _ & [->|[v ->]]); reflexivity. }
  repeat split; auto; [apply P|].
  exists (dupd (js_labels f) e), (set_c x (label_c f)). split; [|split].
  - unfold f. rewrite tree_free by (right; eapply (plain_free _ (TUnion c _)); exact P). cbn [node]. rewrite OPT. cbn [only_f is_null].
    rewrite NX. cbn [existsb]. rewrite tree_free by (right; intros a; rewrite CX; discriminate).
    pose proof (W c0) as W0. rewrite (set_c_id x c0 CX) in W0. rewrite W0. cbn [rbind].
    replace (js_labels x) with (@nil (string * pyval)) by (unfold js_labels; rewrite CX; reflexivity).
    rewrite (dupd_app [] e) by (try apply C; intros ? ? []). reflexivity.
  - apply RD.
  - intros d Q. unfold js_property. rewrite Q. unfold js_required, f at 1. rewrite OPT. cbn [rbind negb].
    assert (DV : exists v, c_extra c = [("default", v); ("name", PStr n)]).
    { destruct P as (_ & _ & _ & [E|E]); auto. rewrite E in D. cbn in D. congruence. }
    destruct DV as [v DV].
    assert (LB : label_c f = mkC PNone PNone (c_doc c) [("default", v)]).
    { unfold f. rewrite (label_plain [("name", PStr n)] (TUnion c _)) by (auto; exact P). cbn [get_c]. rewrite DV. reflexivity. }
    assert (NN : is_nullable (set_c x (label_c f)) = false) by (destruct x; try reflexivity; discriminate).
    rewrite NN, LB.
    assert (MN : snd (make_nullable (set_c x (mkC PNone PNone (c_doc c) [("default", v)]))) =
                 Ok (TUnion (mkC PNone PNone (c_doc c) [("default", v)]) [TNull c0; x])).
    { rewrite <- (set_c_id x c0 CX) at 2. destruct x; try discriminate NX; try discriminate UX; reflexivity. }
    rewrite MN. cbn [rbind get_c c_extra]. unfold dmem. cbn [dget String.eqb Ascii.eqb Bool.eqb rbind]. f_equal.
    unfold set_extra_key, f. cbn [get_c set_c c_logical c_alias c_doc c_extra]. f_equal.
    destruct P as (L & A & _). rewrite <- (common_eta c) at 2. rewrite L, A, DV. reflexivity.
Qed.

Lemma name_of f n : n <> "" -> dget "name" (c_extra (get_c f)) = Some (PStr n) -> js_name f = Ok n.
Proof. intros N D. apply name_iff. split; auto. Qed.
Lemma fields_write prox R fs : forall ns, Forall2 (jfield prox R) fs ns -> NoDup ns ->
  exists ds, length ds = length ns /\
    Forall2 (fun p q => fst q = fst p /\ exists g, (forall J, parse (snd q) J = (J, Ok g)) /\
       forall d, py_str_in (fst p) (kwarg "required" (PList []) d) = Ok (js_required (snd p)) -> js_property d (fst p) g = Ok (snd p))
      (combine ns fs) (combine ns (map PDict ds)) /\
    forall ps rq, (forall n, In n ns -> ~ In n (dkeys ps)) ->
      fields_f (js_tree prox R true) fs ps rq =
      Ok (ps ++ combine ns (map PDict ds), rq ++ map PStr (concat (map (fun p => req_of (fst p) (snd p)) (combine fs ns)))).
Proof.
  intros ns H. induction H as [|f n fs ns (N & DN & _ & p & g & W & RD & PR) H IH]; intros ND.
  - exists []. repeat split; [constructor|]. intros ps rq _. cbn. now rewrite !app_nil_r.
  - inversion ND as [|? ? NI ND']; subst. destruct (IH ND') as (ds & LE & F & WF). exists (p :: ds). split; [cbn; auto|]. split.
    + cbn [map combine]. constructor; auto. split; auto. exists g. split; auto.
    + intros ps rq DJ. cbn [fields_f]. rewrite (name_of f n N DN). cbn [rbind]. rewrite W. cbn [rbind].
      rewrite dset_new by (apply DJ; now left). rewrite WF.
      * f_equal. f_equal; [rewrite <- app_assoc; reflexivity|]. cbn [combine map concat fst snd]. rewrite map_app. unfold req_of at 2.
        destruct (js_required f); cbn; [now rewrite <- app_assoc|reflexivity].
      * intros m I. rewrite dkeys_app, in_app_iff. intros [X|[X|[]]]; [apply (DJ m); auto; now right|]. cbn in X. subst m. contradiction.
Qed.
Lemma required_known prox R fs ns : Forall2 (jfield prox R) fs ns -> NoDup ns -> forall f n, In (n, f) (combine ns fs) ->
  existsb (fun x => py_eq x (PStr n)) (map PStr (concat (map (fun p => req_of (fst p) (snd p)) (combine fs ns)))) = js_required f.
Proof.
  intros H ND f n I. apply eq_true_iff_eq. rewrite existsb_exists. split.
  - intros (y & Iy & E). apply py_eq_str in E. subst y. apply in_map_iff in Iy as (m & [= ->] & Iy).
    apply in_concat in Iy as (l & Il & Im). apply in_map_iff in Il as ((f' & n') & <- & Ip). cbn [fst snd] in Im. unfold req_of in Im.
    destruct (js_required f') eqn:RQ; [|destruct Im]. destruct Im as [->|[]].
    assert (f' = f); [|congruence].
    clear - H ND I Ip. induction H as [|g m fs ns Hg H IH]; [destruct I|]. inversion ND as [|? ? NI ND']; subst. cbn in I, Ip.
    destruct I as [I|I], Ip as [Ip|Ip].
    + congruence.
    + injection I as -> ->. apply in_combine_r in Ip. contradiction.
    + injection Ip as -> ->. apply in_combine_l in I. contradiction.
    + auto.
  - intros RQ. exists (PStr n). split; [|now apply py_eq_str]. apply List.in_map. apply in_concat. exists [n]. split; [|now left].
    apply in_map_iff. exists (f, n). cbn [fst snd]. unfold req_of. rewrite RQ. split; auto.
    clear - H I. induction H as [|g m fs ns Hg H IH]; cbn in *; [tauto|]. destruct I as [[= -> ->]|I]; auto.
Qed.
Lemma jmap_known {A} (f : A -> JM rtype) l ys J : Forall2 (fun x y => f x J = (J, Ok y)) l ys -> jmap f l J = (J, Ok ys).
Proof. induction 1 as [|x y l ys H F IH]; cbn [jmap]; [reflexivity|]. unfold jbind. rewrite H, IH. reflexivity. Qed.
Lemma combine_split {A B} (P : A -> B -> Prop) (l : list A) (l' : list B) : Forall2 P l l' -> map snd (combine l' l) = l.
Proof. induction 1; cbn; congruence. Qed.
Lemma struct_trips prox R c fs ns : Forall2 (jfield prox R) fs ns -> NoDup ns -> trips prox R (TStruct c fs).
Proof.
  intros H ND. destruct (fields_write prox R fs ns H ND) as (ds & LE & F & W).
  set (rq := map PStr (concat (map (fun p => req_of (fst p) (snd p)) (combine fs ns)))) in *.
  set (ps := combine ns (map PDict ds)) in *.
  set (e := ("type", PStr "object") :: ("properties", PDict ps) :: match rq with [] => [] | p :: l => [("required", PList (p :: l))] end).
  assert (C : content e).
  { unfold e. split; [destruct rq; repeat constructor; cbn; intuition discriminate|].
    intros k I. destruct rq; cbn in I; repeat match type of I with _ \/ _ => destruct I as [<-|I] end; try destruct I; repeat split; discriminate. }
  exists e. split; [exact C|]. split.
  - intros c'. cbn [set_c node]. rewrite (W [] []) by (intros ? ? []). cbn [app rbind fst snd]. fold rq. reflexivity.
  - intros u J. rewrite parse_dict. destruct (head_labels u e J C) as (x & HX & _ & L). unfold jbind. rewrite HX.
    assert (G : forall k, k <> "default" -> k <> "description" -> dget k (dupd (js_labels u) e) = dget k e)
      by (intros; apply dget_labelled; auto; apply C).
    set (D := dupd (js_labels u) e) in *. unfold js_body. rewrite L. unfold dmem, kwarg. rewrite !G by discriminate.
    change (dget "type" e) with (Some (PStr "object")). change (dget "properties" e) with (Some (PDict ps)). cbv iota beta.
    change (String.eqb "object" "object" && true) with true. cbv iota. unfold jbind.
    rewrite (jmap_known _ ps fs); [reflexivity|].
    assert (RQ : forall n f, In (n, f) (combine ns fs) -> py_str_in n (kwarg "required" (PList []) D) = Ok (js_required f)).
    { intros n f I. rewrite <- (required_known prox R fs ns H ND f n I). fold rq. unfold kwarg. rewrite G by discriminate.
      unfold e. destruct rq; reflexivity. }
    pose proof (combine_split _ _ _ H) as CS.
    assert (X : forall l l' fs, map snd l = fs ->
      (forall n f, In (n, f) l -> py_str_in n (kwarg "required" (PList []) D) = Ok (js_required f)) ->
      Forall2 (fun (p : string * rtype) (q : string * pyval) => fst q = fst p /\ exists g, (forall J, parse (snd q) J = (J, Ok g)) /\
       forall d, py_str_in (fst p) (kwarg "required" (PList []) d) = Ok (js_required (snd p)) -> js_property d (fst p) g = Ok (snd p)) l l' ->
      Forall2 (fun (x : string * pyval) y => jbind (parse (snd x)) (fun f => jlift (js_property D (fst x) f)) J = (J, Ok y)) l' fs).
    { clearbody D. clear. intros l l' fs E RQ F. revert fs E RQ. induction F as [|[n f] [n' v] l l' (E1 & g & P1 & P2) F IH]; intros fs E RQ; cbn in E; subst fs; constructor.
      - cbn [fst snd] in *. subst n'. unfold jbind. rewrite P1. unfold jlift. rewrite P2; auto. apply RQ. now left.
      - apply IH; auto. intros; apply RQ; now right. }
    apply (X (combine ns fs) ps fs CS RQ F).
Qed.

Lemma trip prox R : forall t nm, json_like nm t -> is_union t = false -> trips prox R t.
Proof.
  assert (S : forall t, (forall nm, json_like nm t -> is_union t = false -> trips prox R t) /\
                        (forall n, n <> "" -> json_like [("name", PStr n)] t -> jfield prox R t n)).
  { induction t as [c|c|c b s|c b|c b v|c b v|c v l va IH|c k v IHk IHv|c fs IH|c s|c ts IH|c r] using rtype_ind'.
    all: match goal with |- _ /\ (forall n, _ -> json_like _ (TUnion _ _) -> _) => split; [discriminate|] | |- ?A /\ _ =>
      assert (T : A); [intros nm JL _; cbn [json_like] in JL; destruct JL as [PL JL] |
        split; [exact T|]; intros n N JL; apply field_required; auto;
          [cbn [json_like] in JL; apply JL|eapply T; [exact JL|reflexivity]]] end.
    all: try (destruct JL; fail).
    - eapply scalar_trips; [apply (content1 (PStr "null"))|reflexivity|]. intros d x J G. unfold js_body, dmem. rewrite !G by discriminate. reflexivity.
    - eapply scalar_trips; [apply (content1 (PStr "boolean"))|reflexivity|]. intros d x J G. unfold js_body, dmem. rewrite !G by discriminate. reflexivity.
    - destruct JL as [-> ->]. eapply scalar_trips; [apply (content1 (PStr "integer"))|reflexivity|]. intros d x J G. unfold js_body, dmem. rewrite !G by discriminate. reflexivity.
    - subst b. eapply scalar_trips; [apply (content1 (PStr "number"))|reflexivity|]. intros d x J G. unfold js_body, dmem. rewrite !G by discriminate. reflexivity.
    - destruct JL as [-> ->]. eapply scalar_trips; [apply (content1 (PStr "string"))|reflexivity|]. intros d x J G. unfold js_body, dmem. rewrite !G by discriminate. reflexivity.
    - destruct JL as (JV & -> & ->).
      assert (UV : is_union v = false).
      { destruct v; auto. cbn in JV. destruct JV as (_ & X & _). congruence. }
      assert (PV : plain_attrs [] (get_c v)) by (destruct v; apply JV).
      destruct (proj1 IH [] JV UV) as (e & C & W & RD). set (p := dupd (js_labels v) e).
      assert (WV : js_tree prox R true v = Ok p).
      { rewrite tree_free by (right; eapply plain_free; eauto). pose proof (W (get_c v)) as W0. rewrite (set_c_id v _ eq_refl) in W0. exact W0. }
      assert (RV : forall J, parse (PDict p) J = (J, Ok v)).
      { intros J. unfold p. rewrite RD, (label_id v PV). now rewrite set_c_id. }
      apply (scalar_trips prox R _ [("type", PStr "array"); ("items", PDict p)]).
      + split; [repeat constructor; cbn; intuition discriminate|]. intros k [<-|[<-|[]]]; repeat split; discriminate.
      + intros c'. cbn [set_c node]. rewrite WV. reflexivity.
      + intros d x J G. unfold js_body, dmem, kwarg. rewrite !G by discriminate. cbn [dget String.eqb Ascii.eqb Bool.eqb andb]. unfold jbind. rewrite RV. reflexivity.
    - destruct JL as (ns & ND & NE & GO). apply go_fields in GO. apply (struct_trips prox R c fs ns); auto.
      clear - IH NE GO. revert IH NE. induction GO as [|f n fs ns Hf GO IHg]; intros IH NE; constructor.
      + inversion IH as [|? ? IHf _]; subst. apply IHf; auto. intros ->. apply NE. now left.
      + inversion IH; subst. apply IHg; auto. intros X. apply NE. now right.
    - intros n N JL. cbn [json_like] in JL. destruct JL as (PL & _ & D & JX). cbn [get_c] in PL.
      destruct ts as [|z [|x [|]]]; try tauto. destruct JX as (-> & CX & NX & UX & JX).
      inversion IH as [|? ? _ IH']; subst. inversion IH' as [|? ? [IHx _] _]; subst.
      apply field_optional; auto. eapply IHx; eauto. }
  intros t nm. apply S.
Qed.
End Trip.

Lemma like_no_alias conv : forall t nm, json_like nm t -> js_defs conv t = Ok [].
Proof.
  intros t. induction t as [t IH] using shown_ind'. intros nm J. rewrite js_defs_eq.
  assert (A : c_alias (get_c t) = PNone) by (destruct t; apply J). unfold own_defs. rewrite A. cbn [truthy rbind].
  assert (G : forall x, In x (shown_children t) -> js_defs conv x = Ok []).
  { intros x I. destruct t as [c|c|c b s|c b|c b v|c b v|c v l va|c k v|c fs|c s|c ts|c r]; try (destruct I; fail); cbn [json_like] in J; destruct J as [_ J].
    - destruct I as [<-|[]]. eapply (IH v); [now left|exact (proj1 J)].
    - destruct J.
    - destruct J as (ns & _ & _ & GO). apply go_fields in GO.
      assert (X : exists n, json_like [("name", PStr n)] x).
      { clear - GO I. cbn in I. induction GO as [|f n fs ns Hf GO IHg]; [destruct I|]. destruct I as [<-|I]; eauto. }
      destruct X as [n X]. exact (IH x I _ X).
    - destruct J as (_ & _ & J). destruct ts as [|z [|y [|]]]; try tauto. destruct J as (-> & _ & _ & _ & JX).
      destruct I as [<-|[<-|[]]]; [reflexivity|]. eapply IH; [right; now left|exact JX]. }
  induction (shown_children t) as [|x l IHl]; [reflexivity|]. cbn [defs_f]. rewrite G by (now left). cbn [rbind dupd fold_left].
  apply IHl; [intros; eapply IH; eauto; now right|intros; apply G; now right].
Qed.
Lemma json_round_trip R c fs : json_like [] (TStruct c fs) ->
  exists d, js_from R (TStruct c fs) = Ok d /\ forall strategy J, js_to strategy (PDict d) J = (J, Ok (TStruct c fs)).
Proof.
  intros JL. assert (PL : plain_attrs [] c) by apply JL.
  assert (T : forall strategy prox, trips strategy prox R (TStruct c fs)) by (intros; eapply trip; eauto).
  unfold js_from, js_field. cbn [js_field_f].
  set (prox := fun t' => js_field_f _ R true t').
  destruct (T (fun s => Ok s) prox) as (e & C & W & _).
  pose proof (W c) as W0. cbn [set_c] in W0.
  rewrite tree_free by (right; eapply (plain_free _ (TStruct c fs)); exact PL). rewrite W0. cbn [rbind].
  rewrite (like_no_alias _ _ _ JL). cbn [rbind]. eexists. split; [reflexivity|]. intros strategy J.
  destruct (T strategy prox) as (e' & C' & W' & RD). pose proof (W' c) as W1. cbn [set_c] in W1. rewrite W0 in W1.
  assert (E : dupd (js_labels (TStruct c fs)) e = dupd (js_labels (TStruct c fs)) e') by congruence.
  unfold js_to, jbind. rewrite E, RD. cbn [set_c]. rewrite (label_id (TStruct c fs) PL). reflexivity.
Qed.
