(** JSON schemas that are read and written again accept the same documents (C126). *)
From Coq Require Import String Ascii List NArith ZArith QArith Bool Lia.
From Verif Require AvroProps.
From Verif Require Import PyVal PyValFacts RType Registry FromDict FromDictFacts RoundTrip Nullable NullableFacts
  SpecTypes Url BigQueryFacts JsonSchema JsonFacts SpecJson JsonRead JsonRefs JsonWrite JsonProps SpecInstances SpecJsonSchema
  JsonAccepts JsonValues JsonMeans JsonFits SpecReprint.
Import ListNotations.
Open Scope nat_scope.
Open Scope string_scope.
Open Scope list_scope.

(** ** Keywords *)
Lemma only_more ks d : only ks d -> no_more ks d.
Proof.
  intros H k K G. destruct (H k G) as [I|I]; auto. exfalso. cbn in K, I. intuition (subst; discriminate).
Qed.
Section Keywords.
Variable doc : pyval.
Lemma acc_get d k s v : accepts doc (PDict d) v -> dget k d = Some s -> keyword doc d k s v.
Proof. intros A. inversion A; subst. auto. Qed.
Lemma type_iff d s v : dget "type" d = Some (PStr s) -> no_more ["type"] d -> (accepts doc (PDict d) v <-> has_type v s).
Proof.
  intros T O. split.
  - intros A. apply acc_get with (2 := T) in A. inversion A; subst; auto; try either. other.
  - intros H. eapply acc_type; eauto. intros k K N. destruct (dget k d) eqn:G; auto. destruct N. 
    assert (I : In k ["type"]) by (apply O; congruence). cbn in I. intuition.
Qed.
Lemma types_iff d l v : dget "type" d = Some (PList (map PStr l)) -> no_more ["type"] d ->
  (accepts doc (PDict d) v <-> exists s, In s l /\ has_type v s).
Proof.
  intros T O. split.
  - intros A. apply acc_get with (2 := T) in A. inversion A; subst; try either; try other.
    match goal with I : In (PStr ?s) (map PStr l) |- _ => apply in_map_iff in I as (s' & [= ->] & I); exists s; auto end.
  - intros (s & I & H). constructor. intros k x G. destruct (string_dec k "type") as [->|N].
    + rewrite T in G. injection G as <-. eapply kw_types; [apply List.in_map; exact I|exact H].
    + destruct (in_dec string_dec k keywords) as [K|K]; [|now apply kw_other].
      destruct N. assert (J : In k ["type"]) by (apply O; congruence). cbn in J. intuition.
Qed.
Lemma array_iff d s v : dget "type" d = Some (PStr "array") -> dget "items" d = Some s -> no_more ["type"; "items"] d ->
  (accepts doc (PDict d) v <-> exists l, v = PList l /\ forall x, In x l -> accepts doc s x).
Proof.
  intros T I O. split.
  - intros A. pose proof (acc_get _ _ _ _ A T) as KT. pose proof (acc_get _ _ _ _ A I) as KI.
    inversion KT; subst; try either; try other. match goal with H : has_type _ _ |- _ => inversion H; subst end.
    inversion KI; subst; try either; try other. exists l. split; auto. intros x X.
    match goal with H : forall l x, _ |- _ => exact (H l x eq_refl X) end.
  - intros (l & -> & H). constructor. intros k x G. destruct (in_dec string_dec k keywords) as [K|K]; [|now apply kw_other].
    assert (J : In k ["type"; "items"]) by (apply O; congruence). destruct J as [<-|[<-|[]]].
    + rewrite T in G. injection G as <-. apply kw_type. econstructor; reflexivity.
    + rewrite I in G. injection G as <-. apply kw_items. intros l' y [= <-] Y. auto.
Qed.
Lemma object_iff d ps v : dget "type" d = Some (PStr "object") -> dget "properties" d = Some (PDict ps) ->
  (forall w, dget "required" d = Some w -> exists l, w = PList l) -> no_more ["type"; "properties"; "required"] d ->
  (accepts doc (PDict d) v <-> exists o, v = PDict o /\
     (forall k s x, In (k, s) ps -> dget k o = Some x -> accepts doc s x) /\ (forall n, required_name d n -> dget n o <> None)).
Proof.
  intros T P RL O. split.
  - intros A. pose proof (acc_get _ _ _ _ A T) as KT. pose proof (acc_get _ _ _ _ A P) as KP.
    inversion KT; subst; try either; try other. match goal with H : has_type _ _ |- _ => inversion H; subst end.
    inversion KP; subst; try either; try other. exists o. split; auto. split.
    + intros k s x I G. match goal with H : forall o k s x, _ |- _ => exact (H o k s x eq_refl I G) end.
    + intros n (l & R & I). pose proof (acc_get _ _ _ _ A R) as KR. inversion KR; subst; try either; try other.
      match goal with H : forall o n, _ |- _ => exact (H o n eq_refl I) end.
  - intros (o & -> & H & N). constructor. intros k x G. destruct (in_dec string_dec k keywords) as [K|K]; [|now apply kw_other].
    assert (J : In k ["type"; "properties"; "required"]) by (apply O; congruence). destruct J as [<-|[<-|[<-|[]]]].
    + rewrite T in G. injection G as <-. apply kw_type. econstructor; reflexivity.
    + rewrite P in G. injection G as <-. apply kw_properties. intros o' m s y [= <-]. apply H.
    + destruct (RL _ G) as [l ->]. apply kw_required. intros o' n [= <-] I. apply N. exists l. auto.
Qed.
Lemma more_iff e e' v : (forall k, In k keywords -> dget k e' = dget k e) -> (accepts doc (PDict e) v <-> accepts doc (PDict e') v).
Proof. intros E. split; intros A; (eapply acc_more; [exact A|]); intros k K; [auto|symmetry; auto]. Qed.
Lemma labels_iff t e v : NoDup (dkeys e) -> (accepts doc (PDict e) v <-> accepts doc (PDict (dupd (js_labels t) e)) v).
Proof. intros N. apply more_iff. intros k K. apply dget_labelled; auto; intros ->; cbn in K; intuition discriminate. Qed.
Lemma flat_no_more prox go R t d ty : flat t = Some ty -> node prox go R t = Ok d -> dget "type" d = Some (PStr ty) /\ no_more ["type"] d.
Proof.
  intros S H. pose proof (node_type _ _ _ _ _ _ (flat_simple _ _ S) H) as T. split; auto. intros k K G.
  destruct (string_dec k "type") as [->|NT]; [now left|]. destruct G.
  assert (D : forall e, NoDup (dkeys e) -> Ok (dupd (js_labels t) e) = Ok d -> dget k e = None -> dget k d = None).
  { intros e N E X. assert (d = dupd (js_labels t) e) as -> by congruence. rewrite dget_labelled; auto; intros ->; cbn in K; intuition discriminate. }
  destruct t as [c|c|c b s|c b|c b vv|c b vv|c vv l va|c kk vv|c fs|c s|c ts|c rg]; cbn in S; try discriminate S; injection S as <-; cbn [node] in H;
    (eapply D; [|exact H|]; [cbn; repeat constructor; cbn; intuition discriminate|]);
    cbn in K; repeat (destruct K as [<-|K]; [try reflexivity; congruence|]); destruct K.
Qed.
End Keywords.

(** ** Lists of basic types *)
Section Strategy.
Variable strategy : string -> res string.
Notation parse := (js_parse strategy).
Lemma same_refl l : same l l. Proof. intros i. tauto. Qed.
Lemma scalar_flat d x ty t : scalar_read d x ty t -> flat t = Some ty /\ exists lo, get_c t = js_common lo x.
Proof. intros SR. destruct SR; split; try reflexivity; cbn [get_c]; eauto. Qed.
Lemma basic_read s J J' t : parse (PStr s) J = (J', Ok t) -> flat t = Some s /\ not_aliased t.
Proof.
  intros HP. apply parse_inv in HP as (d & J1 & x & DJ & HD & H). destruct DJ as [E|(s' & E & ->)]; [discriminate|]. injection E as <-.
  destruct (head_given strategy _ _ _ _ J HD (same_refl J)) as (al & ids1 & ID & S1 & GV & NA).
  inversion ID as [I|i a I]; [subst|discriminate I].
  inversion H as [? ? ? E|? ? ? ? E|? ? ? ? E|ty ? E SR|k ? ? K E]; subst; try (cbn in E; discriminate E).
  - cbn in E. injection E as <-. destruct (scalar_flat _ _ _ _ SR) as [F (lo & L)]. split; auto. intros a A. rewrite L in A.
    destruct (GV lo) as (_ & AL & _). congruence.
  - destruct K as [-> |[-> _]]; discriminate E.
Qed.
Lemma basics_read l : forall J J' ts, jmap parse (map PStr l) J = (J', Ok ts) -> Forall2 (fun s t => flat t = Some s /\ not_aliased t) l ts.
Proof.
  induction l as [|s l IH]; intros J J' ts H; cbn [map jmap] in H; [injection H as <- <-; constructor|].
  apply jbind_Ok in H as (J1 & y & E1 & H). apply jbind_Ok in H as (J2 & zs & E2 & H). injection H as <- <-.
  constructor; [eapply basic_read; eauto|eapply IH; eauto].
Qed.
Lemma broad_class s : broad s = class s. Proof. reflexivity. Qed.

(** What is read for a property that is not required is neither null nor a union. *)
Lemma plain_read o j J J' g : plain o j -> parse j J = (J', Ok g) -> is_proxy g = false /\
  (o = true -> ~ nullable g /\ is_union g = false).
Proof.
  intros P H. apply parse_inv in H as (d & J1 & x & DJ & HD & H).
  destruct DJ as [->|(s & -> & _)]; [|inversion P].
  inversion P as [o' d' s T B NN NM|d' l T B ND DF NM|o' d' ps T PS ND NEM RL RN P0 P1 NM|o' d' s T I P0 NM]; subst.
  - inversion H as [? ? ? T'|? ? ? T'|? ? ? T'|ty ? T' SR|k ? ? K G IJ SA NX NT]; subst; try congruence.
    + assert (s = "object") as -> by congruence. cbn in B. intuition discriminate.
    + assert (s = "array") as -> by congruence. cbn in B. intuition discriminate.
    + assert (ty = s) as -> by congruence. destruct (scalar_flat _ _ _ _ SR) as [F _].
      split; [destruct g; auto; discriminate F|]. intros O. specialize (NN O). split; [|destruct g; auto; discriminate F].
      destruct g; cbn in *; auto; congruence.
    + destruct NT. right. exists s. auto.
  - inversion H as [? ? ? T'|? ? ? T'|? ? ? T'|ty ? T' SR|k ? ? K G IJ SA NX NT]; subst; try congruence; [split; [reflexivity|discriminate]|].
    destruct NT. left. eauto.
  - inversion H as [? ? ? T'|? ? ? T'|? ? ? T'|ty ? T' SR|k ? ? K G IJ SA NX NT]; subst; try congruence.
    + split; [reflexivity|]. cbn. auto.
    + assert (ty = "object") as -> by congruence. inversion SR.
    + destruct NT. right. exists "object". split; auto. right. left. split; congruence.
  - inversion H as [? ? ? T'|? ? ? T'|? ? ? T'|ty ? T' SR|k ? ? K G IJ SA NX NT]; subst; try congruence.
    + split; [reflexivity|]. cbn. auto.
    + assert (ty = "array") as -> by congruence. inversion SR.
    + destruct NT. right. exists "array". split; auto. right. right. split; congruence.
Qed.
(** A list of types is read as a union that is not optional. *)
Lemma plain_required j J J' g c : plain false j -> parse j J = (J', Ok g) ->
  (is_union g = true -> dget "default" (c_extra c) = attr "default" g) -> js_required (set_c g c) = true.
Proof.
  intros P H D. destruct (js_required (set_c g c)) eqn:RQ; auto. exfalso.
  apply required_iff in RQ as (c1 & l1 & x & l2 & E & DF & NX & NE & NU).
  apply parse_inv in H as (d & J1 & y & DJ & HD & H).
  destruct DJ as [->|(s & -> & _)]; [|inversion P].
  destruct (head_given strategy _ _ _ _ J HD (same_refl J)) as (al & ids1 & ID & S1 & GV & NA).
  assert (NF : forall ty, flat g = Some ty -> False) by (intros ty F; destruct g; try discriminate F; discriminate E).
  inversion H as [l J2 ts T' M|? ? ? T'|? ? ? T'|ty ? T' SR|k ? ? K G IJ SA NX' NT]; subst; try discriminate E.
  2:{ destruct (scalar_flat _ _ _ _ SR) as [F _]. eauto. }
  cbn [set_c] in E. injection E as -> ->. specialize (D eq_refl).
  inversion P as [o' d' s T B NN NM|d' l' T B ND DFL NM|o' d' ps T PS ND NEM RL RN P0 P1 NM|o' d' s T I P0 NM]; subst; try congruence.
  rewrite T in T'. injection T' as <-. apply basics_read in M.
  destruct DFL as [DFL|DFL].
  - apply DF. rewrite D. unfold attr. cbn [get_c]. destruct (GV PNone) as (_ & _ & _ & GE). rewrite GE. exact DFL.
  - assert (Z : exists z, In z (l1 ++ l2)) by (destruct (l1 ++ l2) as [|z]; [congruence|exists z; now left]). destruct Z as [z Z].
    rewrite Forall_forall in NU. pose proof (NU _ Z) as Ez. subst z.
    assert (Z' : In (TNull c0) (l1 ++ x :: l2)) by (apply in_app_iff in Z; apply in_app_iff; cbn; tauto).
    clear - M Z' DFL. induction M as [|s t l ts [F _] M IH]; [destruct Z'|]. destruct Z' as [->|Z'].
    + cbn in F. injection F as <-. apply DFL. now left.
    + apply IH; auto. intros I. apply DFL. now right.
Qed.

(** ** Schemas *)
Section Document.
Variables (doc0 doc : pyval) (R : registry) (T : rtype).
Hypothesis DEFS : forall s a, shown s T -> defines s a -> exists n e, target doc ("#/$defs/" ++ a) (PDict e) /\ js_field_f n R false s = Ok e.
Hypothesis ONE : forall a s s', target doc ("#/$defs/" ++ a) s -> target doc ("#/$defs/" ++ a) s' -> s = s'.
Notation acc := (accepts doc).

Lemma unaliased n t : not_aliased t -> js_field_f n R true t = js_field_f n R false t.
Proof. intros N. destruct n as [|n]; cbn [js_field_f]; rewrite !tree_free; auto. Qed.
Lemma ref_iff a e v : target doc ("#/$defs/" ++ a) (PDict e) -> (acc (PDict e) v <-> acc (PDict [("$ref", PStr ("#/$defs/" ++ a)%string)]) v).
Proof.
  intros TG. split; [intros A; eapply acc_ref; eauto|]. intros A. eapply acc_get with (k := "$ref") in A; [|reflexivity].
  inversion A; subst; try other. match goal with H : target doc _ ?s, B : accepts doc ?s v |- _ => assert (X : s = PDict e) by exact (ONE a _ _ H TG); rewrite <- X; exact B end.
Qed.
Lemma alias_step (A : Prop) t v : is_proxy t = false -> shown t T ->
  (forall n d, js_field_f n R false t = Ok d -> (A <-> acc (PDict d) v)) ->
  forall n u d, js_field_f n R u t = Ok d -> (A <-> acc (PDict d) v).
Proof.
  intros P S H n u d E. destruct u; [|eauto].
  assert (CASE : not_aliased t \/ exists a, defines t a).
  { destruct (c_alias (get_c t)) as [| | | |a| |] eqn:X; try (left; intros ? ?; congruence). right. exists a. split; auto. }
  destruct CASE as [N|[a D]].
  - rewrite unaliased in E by auto. eauto.
  - rewrite (ref_written _ _ _ _ _ D E). destruct (DEFS _ _ S D) as (m & e & TG & C). rewrite <- (ref_iff _ _ _ TG). eauto.
Qed.
Lemma flat_set t c : flat (set_c t c) = flat t. Proof. destruct t; reflexivity. Qed.

(** A union of basic types that are told apart. *)
Lemma union_iff n l ts ds c e v : Forall2 (fun s t => flat t = Some s /\ not_aliased t) l ts -> NoDup (map broad l) ->
  Forall2 (fun x w => exists d, js_field_f n R true x = Ok d /\ w = PDict d) ts ds ->
  e = dupd (js_labels (TUnion c ts)) [("oneOf", PList ds)] ->
  (acc (PDict e) v <-> exists s, In s l /\ has_type v s).
Proof.
  intros F ND D ->. rewrite <- labels_iff by (cbn; repeat constructor; auto).
  assert (M : Forall2 (fun s w => exists d, w = PDict d /\ dget "type" d = Some (PStr s) /\ no_more ["type"] d) l ds).
  { clear ND. revert ds D. induction F as [|s t l ts [Fl NA] F IH]; intros ds D; inversion D as [|? w ? ds' (d & E & ->) D']; subst; constructor; auto.
    exists d. split; auto. apply field_node in E as (prox & E & _); [|auto]. eapply flat_no_more; eauto. }
  split.
  - intros A. eapply acc_get with (k := "oneOf") in A; [|reflexivity]. inversion A as [| | | | | | |? l1 s l2 ? As Rs| |]; subst; try either; try other.
    destruct (Forall2_in_r _ _ _ s M) as (ty & I & d & -> & TY & NM); [apply in_app_iff; cbn; auto|]. exists ty. split; auto.
    now apply (type_iff doc d ty v TY NM).
  - intros (s & I & H). constructor. intros k x G. cbn in G. destruct (String.eqb k "oneOf") eqn:K; [|discriminate].
    apply String.eqb_eq in K. subst k. injection G as <-. apply in_split in I as (l1 & l2 & ->).
    apply Forall2_app_inv_l in M as (d1 & d2' & F1 & F2 & ->). inversion F2 as [|? ? ? d2 (d & -> & TY & NM) F2']; subst.
    apply kw_one; [now apply (type_iff doc d s v TY NM)|].
    rewrite map_app in ND. cbn [map] in ND. apply NoDup_remove_2 in ND. rewrite <- map_app in ND.
    assert (FA := Forall2_app F1 F2'). intros s' I. destruct (Forall2_in_r _ _ _ _ FA I) as (ty & It & d' & -> & TY' & _).
    eapply rej_type; [|exact TY']. intros H'. apply ND. apply type_class in H. apply type_class in H'.
    assert (E : broad s = broad ty) by exact (eq_trans H (eq_sym H')). rewrite E. now apply List.in_map.
Qed.

(** What is written for a struct. *)
Lemma struct_iff n c fs d v : js_field_f n R false (TStruct c fs) = Ok d ->
  exists ns ds, Forall2 named fs ns /\ Forall2 (fun f p => js_field_f n R true f = Ok p) fs ds /\
    (NoDup ns -> (acc (PDict d) v <-> exists o, v = PDict o /\
       (forall f m p x, In (f, (m, p)) (combine fs (combine ns ds)) -> dget m o = Some x -> acc (PDict p) x) /\
       (forall f m, In (f, m) (combine fs ns) -> js_required f = true -> dget m o <> None))).
Proof.
  intros H. apply field_node in H as (prox & H & _); [|auto]. cbn [node] in H.
  apply rbind_Ok in H as ((ps & rq) & FS & H). cbn [fst snd] in H.
  apply fields_spec in FS as (ns & ds & N & D & E1 & E2). cbn [app] in E2.
  exists ns, ds. split; [exact N|]. split; [exact D|]. intros ND.
  set (e := ("type", PStr "object") :: ("properties", PDict ps) :: match rq with [] => [] | p :: l => [("required", PList (p :: l))] end).
  change (Ok (dupd (js_labels (TStruct c fs)) e) = Ok d) in H. assert (HD : d = dupd (js_labels (TStruct c fs)) e) by congruence. rewrite HD. clear H HD.
  assert (NDE : NoDup (dkeys e)).
  { unfold e. destruct rq; cbn; repeat (constructor; [cbn; intuition discriminate|]); constructor. }
  rewrite <- labels_iff by auto.
  assert (L1 : length fs = length ns) by (eapply Forall2_len; eauto). assert (L2 : length fs = length ds) by (eapply Forall2_len; eauto).
  assert (RQ : dget "required" e = match rq with [] => None | _ => Some (PList rq) end) by (unfold e; destruct rq; reflexivity).
  rewrite (object_iff doc e ps v); [|reflexivity|reflexivity| |].
  2:{ intros w. rewrite RQ. destruct rq; [discriminate|]. intros [= <-]. eauto. }
  2:{ intros k K G. destruct (dget k e) as [w|] eqn:X; [|congruence]. apply dget_In in X. unfold e in X. cbn [In] in X.
      destruct X as [[= <- _]|[[= <- _]|X]]; [now left|right; now left|]. destruct rq; [destruct X|]. destruct X as [[= <- _]|[]]. cbn. auto. }
  assert (RN : forall m, required_name e m <-> exists f, In (f, m) (combine fs ns) /\ js_required f = true).
  { intros m. unfold required_name. rewrite RQ.
    transitivity (In (PStr m) rq).
    - split; [intros (l & E & I)|intros I].
      + destruct rq; [discriminate|]. injection E as <-. exact I.
      + exists rq. split; auto. destruct rq; [destruct I|reflexivity].
    - rewrite E2. split.
      + intros I. apply in_map_iff in I as (m' & [= ->] & I). apply in_concat in I as (l & I & IN). apply in_map_iff in I as ([f m'] & <- & I).
        cbn [fst snd] in IN. unfold req_of in IN. destruct (js_required f) eqn:Q; [|destruct IN]. destruct IN as [<-|[]]. eauto.
      + intros (f & I & Q). apply List.in_map. apply in_concat. exists (req_of f m). split; [|unfold req_of; rewrite Q; now left].
        apply in_map_iff. exists (f, m). auto. }
  assert (PS : forall k s, In (k, s) ps <-> exists f p, In (f, (k, p)) (combine fs (combine ns ds)) /\ s = PDict p).
  { intros k s. rewrite E1.
    assert (X : In (k, s) (dupd [] (combine ns (map PDict ds))) <-> In (k, s) (combine ns (map PDict ds))).
    { split; [intros I; apply In_dupd in I as [[]|I]; auto|]. intros I.
      assert (NK : NoDup (dkeys (combine ns (map PDict ds)))) by (rewrite dkeys_combine; auto; rewrite map_length; exact (eq_trans (eq_sym L1) L2)).
      apply dget_In. rewrite AvroProps.dget_dupd by auto. now rewrite (In_dget _ _ _ NK I). }
    rewrite X. clear - L1 L2. revert ns ds L1 L2. induction fs as [|f fs IH]; intros [|m ns] [|p ds] L1 L2; try discriminate; cbn [combine map In].
    - split; [intros []|intros (? & ? & [] & _)].
    - rewrite IH by (cbn in *; lia). split.
      + intros [[= <- <-]|(f' & p' & I & ->)]; [exists f, p; auto|exists f', p'; auto].
      + intros (f' & p' & [[= <- <- <-]|I] & ->); [left; auto|right; eauto]. }
  split.
  - intros (o & -> & P & Q). exists o. split; auto. split.
    + intros f m p x I G. eapply (P m (PDict p)); eauto. apply PS. eauto.
    + intros f m I RF. apply Q. apply RN. eauto.
  - intros (o & -> & P & Q). exists o. split; auto. split.
    + intros k s x I G. apply PS in I as (f & p & I & ->). eauto.
    + intros m I. apply RN in I as (f & I & RF). eauto.
Qed.

(** The fields that are read from properties. *)
Lemma props_inv d ps : (forall v, dget "required" d = Some v -> exists l, v = PList l) ->
  forall J J' fs, jmap (field_read parse d) ps J = (J', Ok fs) ->
  Forall2 (fun q f => exists J1 J2 g, parse (snd q) J1 = (J2, Ok g) /\ field_as d (fst q) g f) ps fs.
Proof.
  intros RQ. induction ps as [|[n x] ps IH]; intros J J' ts E; cbn [jmap] in E.
  - injection E as <- <-. constructor.
  - apply jbind_Ok in E as (J1 & y & E1 & E). apply jbind_Ok in E as (J2 & zs & E2 & E). injection E as <- <-.
    unfold field_read in E1. apply jbind_Ok in E1 as (J3 & g & G & E1). injection E1 as -> E1. cbn [fst snd] in *.
    destruct (property_as d n g (parse_bare _ _ _ _ _ G) RQ) as (f & PF & FA). assert (f = y) by congruence. subst f.
    constructor; [|eapply IH; eauto]. exists J, J1, g. auto.
Qed.

Definition again (j : pyval) : Prop := forall o J J' g c n u d, plain o j -> parse j J = (J', Ok g) ->
  c_alias c = c_alias (get_c g) -> (is_union g = true -> dget "default" (c_extra c) = attr "default" g) ->
  shown (set_c g c) T -> js_field_f n R u (set_c g c) = Ok d -> forall v, accepts doc0 j v <-> acc (PDict d) v.

(** A property and the field that is read from it. *)
Lemma field_again d q f J1 J2 g n p : again (snd q) -> (required_name d (fst q) -> plain false (snd q)) ->
  (~ required_name d (fst q) -> plain true (snd q)) -> parse (snd q) J1 = (J2, Ok g) -> field_as d (fst q) g f ->
  shown f T -> js_field_f n R true f = Ok p ->
  (js_required f = true <-> required_name d (fst q)) /\ forall v, accepts doc0 (snd q) v <-> acc (PDict p) v.
Proof.
  intros A P0 P1 G FA S H. destruct FA as [c RN HA|c NR NU HA|c1 ts c NR NU -> HA|c c' NR NN NU HA HA'].
  - destruct HA as (_ & AL & _ & EX).
    assert (DF : dget "default" (c_extra c) = attr "default" g) by (rewrite EX; reflexivity).
    split; [|eapply A; eauto]. split; auto. intros _. eapply plain_required; eauto.
  - destruct (plain_read _ _ _ _ _ (P1 NR) G) as [_ X]. destruct (X eq_refl) as [X1 X2]. contradiction.
  - destruct (plain_read _ _ _ _ _ (P1 NR) G) as [_ X]. destruct (X eq_refl) as [X1 X2]. discriminate.
  - destruct HA as (_ & AL & _ & EX). destruct HA' as (_ & AL' & _ & EX').
    assert (NG : set_c g c' <> TNull c0) by (destruct g; try discriminate; exfalso; apply NN; exact Logic.I).
    assert (OU : optional_union (TUnion c [TNull c0; set_c g c'])).
    { exists c, [TNull c0], (set_c g c'), []. split; [reflexivity|]. split; [rewrite EX; discriminate|]. split; [exact NG|]. split; [discriminate|]. repeat constructor. }
    apply required_iff in OU. split; [split; [rewrite OU; discriminate|contradiction]|].
    apply field_node in H as (prox & H & _); [|right; left; intros a E; cbn in E; congruence]. cbn [node] in H.
    cbn [js_required] in OU. apply negb_false_iff in OU. rewrite OU in H. apply rbind_Ok in H as (e & E & H).
    assert (p = dupd (js_labels (TUnion c [TNull c0; set_c g c'])) e) as -> by congruence.
    apply only_spec in E as (l1 & x & l2 & EL & Nx & E & ALL).
    assert (x = set_c g c') as ->.
    { destruct l1 as [|a [|b l1]]; cbn in EL; injection EL; intros; subst; auto; try discriminate Nx. destruct l1; discriminate. }
    intros v. rewrite <- labels_iff by (eapply field_nodup; eauto).
    eapply (A true _ _ g c'); eauto; [intros X; congruence|].
    eapply shown_step'; [|exact S]. cbn. auto.
Qed.
Lemma combine_at {A B} (l : list A) (l' : list B) a b P : Forall2 P l l' -> In (a, b) (combine l l') -> P a b.
Proof. induction 1; cbn; [intros []|]. intros [[= <- <-]|I]; auto. Qed.

Lemma again_all j : again j.
Proof.
  remember (psize j) as z eqn:SZ. revert j SZ. induction z as [z IH] using lt_wf_ind. intros j SZ o J J' g c n u d' P H AL DF S E v.
  revert n u d' E. apply alias_step; auto.
  { rewrite proxy_set. eapply plain_read; eauto. }
  intros n d' E. pose proof H as H0.
  apply parse_inv in H as (d & J1 & x & DJ & HD & H). destruct DJ as [->|(s & -> & _)]; [|inversion P].
  destruct (head_given strategy _ _ _ _ J HD (same_refl J)) as (al & ids1 & ID & S1 & GV & NA).
  inversion P as [o' d1 s TY B NN NM|d1 l TY B ND DFL NM|o' d1 ps TY PS ND NEM RL RN P0 P1 NM|o' d1 s TY I P0 NM]; subst.
  - inversion H as [? ? ? T'|? ? ? T'|? ? ? T'|ty ? T' SR|k ? ? K G IJ SA NX NT]; subst; try congruence.
    + assert (s = "object") as -> by congruence. cbn in B. intuition discriminate.
    + assert (s = "array") as -> by congruence. cbn in B. intuition discriminate.
    + assert (ty = s) as -> by congruence. destruct (scalar_flat _ _ _ _ SR) as [F _]. rewrite <- (flat_set _ c) in F.
      apply field_node in E as (prox & E & _); [|auto]. destruct (flat_no_more _ _ _ _ _ _ F E) as [T2 N2].
      rewrite (type_iff doc0 d s v TY (only_more _ _ NM)), (type_iff doc d' s v T2 N2). tauto.
    + destruct NT. right. exists s. auto.
  - inversion H as [l' J2 ts T' M|? ? ? T'|? ? ? T'|ty ? T' SR|k ? ? K G IJ SA NX NT]; subst; try congruence.
    2:{ destruct NT. left. eauto. }
    assert (l' = map PStr l) as -> by congruence. apply basics_read in M.
    pose proof (plain_required _ _ _ _ _ P H0 DF) as RQ. cbn [set_c] in RQ, E. cbn [js_required] in RQ. apply negb_true_iff in RQ.
    apply field_node in E as (prox & E & _); [|auto]. cbn [node] in E. rewrite RQ in E. apply rbind_Ok in E as (ds & D & E).
    apply all_refs in D. rewrite (types_iff doc0 d l v TY (only_more _ _ NM)). rewrite (union_iff n l ts ds c d' v M ND D); [tauto|congruence].
  - inversion H as [? ? ? T'|ps' J2 fs T' PS' M|? ? ? T'|ty ? T' SR|k ? ? K G IJ SA NX NT]; subst; try congruence.
    2:{ assert (ty = "object") as -> by congruence. inversion SR. }
    2:{ destruct NT. right. exists "object". split; auto. right. left. split; congruence. }
    assert (ps' = ps) as -> by congruence. clear T' PS'.
    apply (props_inv d ps RL) in M. cbn [set_c] in E, S.
    destruct (struct_iff n c fs d' v E) as (ns & ds & N & D & X).
    assert (NS : ns = map fst ps).
    { clear - M N. revert ns N. induction M as [|q f ps fs (J1 & J2 & g & G & FA) M IHM]; intros ns N; inversion N as [|? m ? ns' Nf N']; subst; [reflexivity|].
      cbn [map]. f_equal; [|now apply IHM]. destruct Nf as [Nf _]. unfold attr in Nf.
      assert (Z : dget "name" (c_extra (get_c f)) = Some (PStr (fst q))).
      { destruct FA as [c RN HA|c NR NU HA|c1 ts c NR NU -> HA|c c' NR NN NU HA HA']; destruct HA as (_ & _ & _ & EX); rewrite ?get_set; cbn [get_c]; apply EX. }
      congruence. }
    rewrite X by (rewrite NS; exact ND). clear X.
    rewrite (object_iff doc0 d ps v TY PS RL (only_more _ _ NM)).
    assert (EACH : forall q f p, In (q, f) (combine ps fs) -> In (f, p) (combine fs ds) -> (js_required f = true <-> required_name d (fst q)) /\
                     forall w, accepts doc0 (snd q) w <-> acc (PDict p) w).
    { intros q f p Iq If. pose proof (combine_at _ _ _ _ _ M Iq) as (J3 & J4 & g & G & FA). pose proof (combine_at _ _ _ _ _ D If) as Ef.
      assert (IQ : In (fst q, snd q) ps) by (destruct q; eapply in_combine_l; eauto).
      refine (field_again d q f J3 J4 g n p _ (P0 _ _ IQ) (P1 _ _ IQ) G FA _ Ef).
      - apply (IH (psize (snd q))); auto. eapply psize_dict_dict; eauto.
      - eapply shown_step'; [|exact S]. cbn. eapply in_combine_r; eauto. }
    (* the properties, the fields and what is written stand in the same places *)
    assert (Z1 : forall f m p, In (f, (m, p)) (combine fs (combine ns ds)) -> In (f, p) (combine fs ds) /\ exists s, In ((m, s), f) (combine ps fs)).
    { rewrite NS. clear - M. revert ds. induction M as [|q f ps fs _ M IHM]; intros ds f' m p I; [destruct I|].
      destruct ds as [|p0 ds]; [destruct I|]. cbn [map combine In] in I. destruct I as [[= <- <- <-]|I].
      - split; [now left|]. exists (snd q). left. now destruct q.
      - apply IHM in I as [I (s & Is)]. split; [now right|]. exists s. now right. }
    assert (Z2 : forall m s, In (m, s) ps -> exists f p, In ((m, s), f) (combine ps fs) /\ In (f, p) (combine fs ds) /\ In (f, (m, p)) (combine fs (combine ns ds)) /\ In (f, m) (combine fs ns)).
    { rewrite NS. assert (L := Forall2_len _ _ _ D). clear - M L. revert ds L. induction M as [|q f ps fs _ M IHM]; intros ds L m s I; [destruct I|].
      destruct ds as [|p0 ds]; [discriminate|]. destruct I as [->|I].
      - exists f, p0. cbn. auto 10.
      - destruct (IHM ds ltac:(cbn in L; lia) _ _ I) as (f' & p & ? & ? & ? & ?). exists f', p. cbn. auto 10. }
    assert (Z3 : forall f m, In (f, m) (combine fs ns) -> exists s p, In ((m, s), f) (combine ps fs) /\ In (f, p) (combine fs ds)).
    { rewrite NS. assert (L := Forall2_len _ _ _ D). clear - M L. revert ds L. induction M as [|q f ps fs _ M IHM]; intros ds L f' m I; [destruct I|].
      destruct ds as [|p0 ds]; [discriminate|]. cbn [map combine In] in I. destruct I as [[= <- <-]|I].
      - exists (snd q), p0. destruct q. cbn. auto.
      - destruct (IHM ds ltac:(cbn in L; lia) _ _ I) as (s & p & ? & ?). exists s, p. cbn. auto. }
    split; intros (ob & -> & PP & QQ); exists ob; (split; [reflexivity|]); split.
    + intros f m p y I Gy. apply Z1 in I as [I (s & Is)]. destruct (EACH _ _ _ Is I) as [_ W]. apply W. cbn [snd].
      eapply PP; [|exact Gy]. eapply in_combine_l; exact Is.
    + intros f m I RF. apply Z3 in I as (s & p & Is & Ip). destruct (EACH _ _ _ Is Ip) as [W _]. apply QQ. now apply W.
    + intros k s y I Gy. apply Z2 in I as (f & p & I1 & I2 & I3 & _). destruct (EACH _ _ _ I1 I2) as [_ W]. apply W. eauto.
    + intros m RM. pose proof (RN m RM) as I. apply in_map_iff in I as ([m' s] & Em & I). cbn in Em. subst m'. apply Z2 in I as (f & p & I1 & I2 & _ & I4).
      destruct (EACH _ _ _ I1 I2) as [W _]. eapply QQ; [exact I4|]. now apply W.
  - inversion H as [? ? ? T'|? ? ? T'|y J2 t T' IT M|ty ? T' SR|k ? ? K G IJ SA NX NT]; subst; try congruence.
    2:{ assert (ty = "array") as -> by congruence. inversion SR. }
    2:{ destruct NT. right. exists "array". split; auto. right. right. split; congruence. }
    assert (y = s) as -> by congruence. clear T' IT. cbn [set_c] in E, S.
    apply field_node in E as (prox & E & _); [|auto]. cbn [node] in E. apply rbind_Ok in E as (e & E & HD').
    assert (d' = dupd (js_labels (TList c t PNone (PBool true))) [("type", PStr "array"); ("items", PDict e)]) as -> by congruence.
    rewrite <- labels_iff by (cbn; repeat constructor; cbn; intuition discriminate).
    rewrite (array_iff doc0 d s v TY I (only_more _ _ NM)).
    rewrite (array_iff doc [("type", PStr "array"); ("items", PDict e)] (PDict e) v); [|reflexivity|reflexivity|].
    2:{ intros k K G. cbn in G. destruct (String.eqb_spec k "type") as [->|]; [now left|]. destruct (String.eqb_spec k "items") as [->|]; [right; now left|congruence]. }
    assert (A : forall w, accepts doc0 s w <-> acc (PDict e) w).
    { assert (SE : set_c t (get_c t) = t) by (destruct t; reflexivity).
      eapply (IH (psize s)) with (c := get_c t); eauto; [eapply psize_dget; eauto| |rewrite SE; exact E].
      rewrite SE. eapply shown_step'; [|exact S]. cbn. auto. }
    split; intros (l & -> & W); exists l; (split; [reflexivity|]); intros w Iw; apply A; auto.
Qed.
End Document.
End Strategy.

(** ** The document that is written *)
Section Written.
Variable strategy : string -> res string.
Notation parse := (js_parse strategy).
(** Neither a reference nor an enum, and its attributes are found in [j0]. *)
Definition found (j0 w : pyval) : Prop := w = PNone \/ inside w j0.
Definition tame (j0 : pyval) (s : rtype) : Prop :=
  is_proxy s = false /\ (forall c l, s <> TEnum c l) /\
  (forall w, attr "default" s = Some w -> found j0 w) /\ found j0 (c_doc (get_c s)).
Lemma inside_trans a b c : inside a b -> inside b c -> inside a c.
Proof. intros H1 H2. revert H1. induction H2; intros H1; auto; econstructor; eauto. Qed.
Lemma found_get d k j0 : inside (PDict d) j0 -> found j0 (match dget k d with Some v => v | None => PNone end).
Proof. intros I. destruct (dget k d) as [v|] eqn:G; [|now left]. right. eapply inside_trans; [|exact I]. econstructor; [apply dget_In; exact G|constructor]. Qed.
Lemma tame_given d lo al c j0 : inside (PDict d) j0 -> given d lo al c -> (forall w, dget "default" (c_extra c) = Some w -> found j0 w) /\ found j0 (c_doc c).
Proof.
  intros I (_ & _ & D & E). rewrite D. split; [|now apply found_get]. intros w W. rewrite E in W. cbn in W.
  pose proof (found_get d "default" j0 I) as F. now rewrite W in F.
Qed.
Definition tame_all (j0 : pyval) (t : rtype) : Prop := forall s, shown s t -> tame j0 s.
Lemma tame_node j0 t : tame j0 t -> Forall (tame_all j0) (shown_children t) -> tame_all j0 t.
Proof. intros H F s S. inversion S as [|? c I S']; subst; auto. rewrite Forall_forall in F. exact (F _ I _ S'). Qed.
Lemma tame_set j0 t c : tame_all j0 t -> (forall w, dget "default" (c_extra c) = Some w -> found j0 w) -> found j0 (c_doc c) -> tame_all j0 (set_c t c).
Proof.
  intros H D O. apply tame_node.
  - destruct (H t (shown_self _)) as (P & E & _ & _). split; [now rewrite proxy_set|]. split.
    + intros c1 l X. destruct t; try discriminate X. injection X as _ ->. eapply E. reflexivity.
    + unfold attr. rewrite get_set. auto.
  - rewrite shown_set. apply Forall_forall. intros x I s S. apply H. econstructor; eauto.
Qed.
Lemma tame_field j0 d n g f : tame_all j0 g -> field_as d n g f -> tame_all j0 f.
Proof.
  intros H FA. pose proof (H g (shown_self _)) as (P & E & D & O).
  assert (OD : forall w, or_null (attr "default" g) = Some w -> found j0 w).
  { unfold or_null. intros w [= <-]. destruct (attr "default" g); [auto|now left]. }
  assert (TN : tame_all j0 (TNull c0)).
  { apply tame_node; [|constructor]. split; [reflexivity|]. split; [discriminate|]. split; [discriminate|now left]. }
  destruct FA as [c RN HA|c NR NU HA|c1 ts c NR NU -> HA|c c' NR NN NU HA HA']; destruct HA as (_ & _ & DC & EX).
  - apply tame_set; auto; [|now rewrite DC]. intros w W. rewrite EX in W. auto.
  - apply tame_set; auto; [|now rewrite DC]. intros w W. rewrite EX in W. auto.
  - apply tame_node.
    + split; [reflexivity|]. split; [discriminate|]. unfold attr. cbn [get_c]. rewrite DC. split; auto. intros w W. rewrite EX in W. auto.
    + cbn [shown_children]. constructor; auto. apply Forall_forall. intros x I s S. apply H. econstructor; eauto.
  - destruct HA' as (_ & _ & DC' & EX'). apply tame_node.
    + split; [reflexivity|]. split; [discriminate|]. unfold attr. cbn [get_c]. rewrite DC. split; auto. intros w W. rewrite EX in W. auto.
    + cbn [shown_children]. constructor; auto. constructor; auto. apply tame_set; auto; [|rewrite DC'; now left]. intros w W. rewrite EX' in W. discriminate.
Qed.
Lemma tame_read j0 j : forall o J J' g, plain o j -> inside j j0 -> parse j J = (J', Ok g) -> tame_all j0 g.
Proof.
  remember (psize j) as z eqn:SZ. revert j SZ. induction z as [z IH] using lt_wf_ind. intros j SZ o J J' g P IN H.
  apply parse_inv in H as (d & J1 & x & DJ & HD & H). destruct DJ as [->|(s & -> & _)]; [|inversion P].
  destruct (head_given strategy _ _ _ _ J HD (fun i => iff_refl _)) as (al & ids1 & ID & S1 & GV & NA).
  assert (TG : forall lo, (forall w, dget "default" (c_extra (js_common lo x)) = Some w -> found j0 w) /\ found j0 (c_doc (js_common lo x))).
  { intros lo. eapply tame_given; [exact IN|apply GV]. }
  assert (NT : SpecJsonSchema.typed d).
  { inversion P as [o' d' s T B NN NM|d' l T B ND DF NM|o' d' ps T PS ND NEM RL RN P0 P1 NM|o' d' s T I P0 NM]; subst; [right; exists s; auto|left; eauto| |].
    - right. exists "object". split; auto. right. left. split; congruence.
    - right. exists "array". split; auto. right. right. split; congruence. }
  assert (SUB : forall k v, dget k d = Some v -> inside v j0).
  { intros k v G. eapply inside_trans; [|exact IN]. econstructor; [apply dget_In; exact G|constructor]. }
  inversion H as [l J2 ts T' M|ps J2 fs T' PS M|y J2 t T' IT M|ty ? T' SR|k ? ? K G IJ SA NX NT']; subst; [| | | |contradiction].
  - inversion P as [o' d' s T B NN NM|d' l' T B ND DF NM|o' d' ps T PS ND NEM RL RN P0 P1 NM|o' d' s T I P0 NM]; subst; try congruence.
    assert (l = map PStr l') as -> by congruence. clear - M TG.
    apply tame_node; [split; [reflexivity|]; split; [discriminate|]; apply TG|]. cbn [shown_children].
    revert J1 J' ts M. induction l' as [|s l IH]; intros J J' ts M; cbn [map jmap] in M; [injection M as <- <-; constructor|].
    apply jbind_Ok in M as (J1 & y & E1 & M). apply jbind_Ok in M as (J2 & zs & E2 & M). injection M as <- <-.
    constructor; [|eapply IH; eauto]. clear - E1.
    apply parse_inv in E1 as (d & J2 & x & DJ & HD & H). destruct DJ as [E|(s' & E & ->)]; [discriminate|]. injection E as <-.
    destruct (head_given strategy _ _ _ _ J HD (fun i => iff_refl _)) as (al & ids1 & ID & S1 & GV & NA).
    inversion H as [? ? ? E|? ? ? ? E|? ? ? ? E|ty ? E SR|k ? ? K E]; subst; try (cbn in E; discriminate E).
    2:{ destruct K as [-> |[-> _]]; discriminate E. }
    destruct (scalar_flat _ _ _ _ SR) as [F (lo & L)]. destruct (GV lo) as (_ & _ & DC & EX).
    apply tame_node; [|destruct y; try discriminate F; constructor].
    split; [destruct y; auto; discriminate F|]. split; [intros c l' ->; discriminate F|]. unfold attr. rewrite L, DC. split; [|now left].
    intros w W. rewrite EX in W. discriminate.
  - inversion P as [o' d' s T B NN NM|d' l' T B ND DF NM|o' d' ps' T PS' ND NEM RL RN P0 P1 NM|o' d' s T I P0 NM]; subst; try congruence.
    + assert (s = "object") as -> by congruence. cbn in B. intuition discriminate.
    + assert (ps' = ps) as -> by congruence. apply (props_inv strategy d ps RL) in M.
      apply tame_node; [split; [reflexivity|]; split; [discriminate|]; apply TG|]. cbn [shown_children].
      apply Forall_forall. intros f If. destruct (Forall2_in_r _ _ _ _ M If) as ([n s] & Iq & J3 & J4 & g & G & FA). cbn [fst snd] in *.
      eapply tame_field; [|exact FA].
      assert (I0 : inside s j0). { eapply inside_trans; [|exact (SUB _ _ PS)]. econstructor; [exact Iq|constructor]. }
      assert (PZ : psize s < psize (PDict d)) by (eapply psize_dict_dict; eauto).
      assert (RD : required_name d n \/ ~ required_name d n).
      { destruct (required_iff_list d n RL) as ([] & _ & RB); [left; now apply RB|right; intros X; apply RB in X; discriminate]. }
      destruct RD as [RD|RD]; [eapply (IH (psize s) PZ s eq_refl false)|eapply (IH (psize s) PZ s eq_refl true)]; eauto.
  - inversion P as [o' d' s T B NN NM|d' l' T B ND DF NM|o' d' ps' T PS' ND NEM RL RN P0 P1 NM|o' d' s T I P0 NM]; subst; try congruence.
    + assert (s = "array") as -> by congruence. cbn in B. intuition discriminate.
    + assert (s = y) as -> by congruence.
      apply tame_node; [split; [reflexivity|]; split; [discriminate|]; apply TG|]. cbn [shown_children]. constructor; auto.
      eapply (IH (psize y)); eauto. eapply psize_dget; eauto.
  - destruct (scalar_flat _ _ _ _ SR) as [F (lo & L)]. apply tame_node; [|destruct g; try discriminate F; constructor].
    split; [destruct g; auto; discriminate F|]. split; [intros c l' ->; discriminate F|]. unfold attr. rewrite L. apply TG.
Qed.

(** The ids in what is written for a tame type are found in [j0]. *)
Definition id_free (j0 v : pyval) : Prop := forall e i, inside (PDict e) v -> dget "$id" e = Some (PStr i) -> inside (PDict e) j0.
Lemma free_found j0 w : found j0 w -> id_free j0 w.
Proof. intros [->|I] e i X _; [inversion X|]. eapply inside_trans; eauto. Qed.
Lemma free_str j0 s : id_free j0 (PStr s). Proof. intros e i X. inversion X. Qed.
Lemma free_list j0 l : Forall (id_free j0) l -> id_free j0 (PList l).
Proof. intros F e i X G. inversion X as [|? y I X'|]; subst. rewrite Forall_forall in F. eapply F; eauto. Qed.
Lemma free_dict j0 d : (forall i, dget "$id" d <> Some (PStr i)) -> (forall k v, In (k, v) d -> id_free j0 v) -> id_free j0 (PDict d).
Proof. intros N F e i X G. inversion X as [|?|? k y I X']; subst; [destruct (N i G)|]. eapply F; eauto. Qed.
Definition free_attrs (j0 : pyval) (d : attrs) : Prop :=
  (forall i, dget "$id" d <> Some (PStr i)) /\ forall k v, In (k, v) d -> id_free j0 v.
Lemma free_of j0 d : free_attrs j0 d -> id_free j0 (PDict d).
Proof. intros [N F]. now apply free_dict. Qed.
Lemma free_labels j0 t e : tame j0 t -> NoDup (dkeys e) -> free_attrs j0 e -> free_attrs j0 (dupd (js_labels t) e).
Proof.
  intros (_ & _ & D & O) N [A F]. split.
  - intros i. rewrite dget_labelled by (auto; discriminate). apply A.
  - intros k v I. apply In_dupd in I as [I|I]; [|eauto]. unfold js_labels in I. apply In_dupd in I as [I|I].
    + unfold attr in D. destruct (dget "default" _) as [w|]; [|destruct I]. destruct I as [[= <- <-]|[]]. now apply free_found, D.
    + destruct (truthy _); [|destruct I]. destruct I as [[= <- <-]|[]]. now apply free_found.
Qed.
Lemma free_written j0 R t : tame_all j0 t -> forall n u d, js_field_f n R u t = Ok d -> free_attrs j0 d.
Proof.
  induction t as [t IH] using shown_ind'. intros TM n u d H.
  assert (SUB : forall x m p, In x (shown_children t) -> js_field_f m R true x = Ok p -> free_attrs j0 p).
  { intros x m p I. apply IH; auto. intros s S. apply TM. econstructor; eauto. }
  pose proof (TM t (shown_self _)) as T0.
  assert (NODE : forall u, (u = false \/ not_aliased t) -> js_field_f n R u t = Ok d -> free_attrs j0 d).
  { clear u H. intros u U H. apply field_node in H as (prox & H & _); [|tauto].
    assert (L : forall e, NoDup (dkeys e) -> free_attrs j0 e -> Ok (dupd (js_labels t) e) = Ok d -> free_attrs j0 d).
    { intros e N F E. assert (d = dupd (js_labels t) e) as -> by congruence. now apply free_labels. }
    assert (L1 : forall ty, Ok (dupd (js_labels t) [("type", PStr ty)]) = Ok d -> free_attrs j0 d).
    { intros ty. apply L; [cbn; repeat constructor; auto|]. split; [discriminate|]. intros k v [[= <- <-]|[]]. apply free_str. }
    assert (L2 : forall ty k v, k <> "type" -> k <> "$id" -> id_free j0 v -> Ok (dupd (js_labels t) [("type", PStr ty); (k, v)]) = Ok d -> free_attrs j0 d).
    { intros ty k v N1 N2 F. apply L; [cbn; constructor; [cbn; intuition|repeat constructor; auto]|]. split.
      - intros i. cbn [dget]. change (String.eqb "$id" "type") with false. cbv iota. destruct (String.eqb_spec "$id" k); [congruence|discriminate].
      - intros k' v' [[= <- <-]|[[= <- <-]|[]]]; [apply free_str|auto]. }
    destruct t as [c|c|c b s|c b|c b v|c b v|c x l va|c k x|c fs|c s|c ts|c rg]; cbn [node] in H; try (eapply L1; exact H).
    - eapply L2; [| | |exact H]; try discriminate. apply free_str.
    - apply rbind_Ok in H as (e & E & H). eapply L2; [| | |exact H]; try discriminate. apply free_of. eapply SUB; eauto. now left.
    - apply rbind_Ok in H as (e & E & H). eapply L2; [| | |exact H]; try discriminate. apply free_of. eapply SUB; eauto. now left.
    - apply rbind_Ok in H as ((ps & rq) & FS & H). cbn [fst snd] in H. apply fields_spec in FS as (ns & ds & N & D & E1 & E2). cbn [app] in E2.
      eapply L; [| |exact H].
      { destruct rq; cbn; repeat (constructor; [cbn; intuition discriminate|]); constructor. }
      assert (FP : id_free j0 (PDict ps)).
      { assert (Z : forall k v, In (k, v) ps -> exists p, v = PDict p /\ free_attrs j0 p).
        { intros k v I. rewrite E1 in I. apply In_dupd in I as [[]|I]. apply in_combine_r in I. apply in_map_iff in I as (p & <- & I).
          destruct (Forall2_in_r _ _ _ _ D I) as (f & If & Ef). exists p. split; auto. eapply SUB; eauto. }
        apply free_dict.
        - intros i G. apply dget_In, Z in G as (p & G & _). discriminate.
        - intros k v I. apply Z in I as (p & -> & F). now apply free_of. }
      assert (FR : id_free j0 (PList rq)).
      { apply free_list. rewrite E2. apply Forall_forall. intros v I. apply in_map_iff in I as (m & <- & _). apply free_str. }
      split; [destruct rq; discriminate|]. intros k v I. cbn [In] in I. destruct I as [[= <- <-]|[[= <- <-]|I]]; [apply free_str|auto|].
      destruct rq; [destruct I|]. destruct I as [[= <- <-]|[]]. auto.
    - destruct T0 as (_ & NE & _). destruct (NE _ _ eq_refl).
    - destruct (is_optional c ts).
      + apply rbind_Ok in H as (e & E & H). apply only_spec in E as (l1 & x & l2 & -> & _ & E & _).
        eapply L; [| |exact H]; [eapply field_nodup; eauto|]. eapply SUB; eauto. cbn. apply in_app_iff. cbn. auto.
      + apply rbind_Ok in H as (l & E & H). eapply L; [| |exact H]; [cbn; repeat constructor; auto|]. split; [discriminate|].
        intros k v [[= <- <-]|[]]. apply free_list. apply all_refs in E. apply Forall_forall. intros w I.
        destruct (Forall2_in_r _ _ _ _ E I) as (x & Ix & p & Ep & ->). apply free_of. eapply SUB; eauto.
    - destruct T0 as (P & _). discriminate P. }
  destruct u; [|eapply NODE; eauto].
  destruct (c_alias (get_c t)) as [| | | |a| |] eqn:A; try (eapply NODE; [right; intros ? ?; congruence|exact H]).
  assert (DF : defines t a) by (split; auto; apply T0). rewrite (ref_written _ _ _ _ _ DF H).
  split; [discriminate|]. intros k v [[= <- <-]|[]]. apply free_str.
Qed.
Lemma hash_pointer a : exists r, without_hash ("#/$defs/" ++ a) = String "#" (String "/" r).
Proof. rewrite hash_eq. cbn. destruct (rstrip_char "#" a); cbn; eexists; reflexivity. Qed.
Lemma hash_fragment r i : without_hash i = String "#" (String "/" r) -> fragment i.
Proof.
  destruct i as [|c i]; [discriminate|]. rewrite hash_eq. cbn [rstrip_char]. rewrite <- hash_eq.
  destruct (Ascii.eqb c "#") eqn:E; [apply Ascii.eqb_eq in E; subst c; intros _; eexists; reflexivity|].
  destruct (without_hash i); cbn; intros H; try discriminate; injection H as -> H; exfalso; discriminate E.
Qed.

Lemma again_written R j J' t d : plain false j -> (forall i, has_id j i -> ~ fragment i) -> names_apart t ->
  js_to strategy j [] = (J', Ok t) -> js_from R t = Ok d ->
  forall v, accepts j j v <-> accepts (PDict d) (PDict d) v.
Proof.
  intros P IDS [UN ONE] H W v. unfold js_to in H. apply jbind_Ok in H as (J1 & t' & H & E).
  assert (t' = t) as -> by (destruct t'; try discriminate E; now injection E as _ <-). clear E.
  pose proof (tame_read j j _ _ _ _ P (inside_self _) H) as TM.
  unfold js_from in W. apply rbind_Ok in W as (m & M & W). apply rbind_Ok in W as (defs & D & W).
  assert (HD : d = match defs with [] => m | _ => dset "$defs" (PDict defs) m end) by congruence. clear W.
  apply defs_spec in D as (N & A & BD).
  assert (DEFS : forall s a, shown s t -> defines s a -> exists n e, target (PDict d) ("#/$defs/" ++ a) (PDict e) /\ js_field_f n R false s = Ok e).
  { intros s a S DF. destruct (UN _ _ S DF) as [U TK].
    assert (Y : dget a defs <> None) by (eapply (A s a); eauto; [exists t; cbn; auto|apply DF]).
    destruct (dget a defs) as [v0|] eqn:E; [|congruence]. pose proof (BD a v0 E) as (t' & s' & e & [<-|[]] & S' & AL & _ & C & -> & _).
    assert (s' = s) as ->. { eapply ONE; eauto. split; auto. apply (TM _ S'). }
    unfold js_field in C. eexists _, e. split; [|exact C]. eapply target_def; [reflexivity| |exact TK|exact E].
    rewrite HD. destruct defs as [|p defs]; [discriminate|]. now rewrite dget_dset, String.eqb_refl. }
  assert (FREE : id_free j (PDict d)).
  { pose proof (free_written j R t TM _ _ _ M) as FM. rewrite HD. destruct defs as [|p0 defs']; [now apply free_of|]. set (defs := p0 :: defs') in *.
    apply free_dict.
    - intros i. rewrite dget_dset. cbn [String.eqb Ascii.eqb Bool.eqb]. apply FM.
    - intros k w I. apply In_dset in I as [I|I]; [exact (proj2 FM _ _ I)|]. injection I as -> ->.
      apply free_dict.
      + intros i G. pose proof (BD _ _ G) as (t' & s' & e & _ & _ & _ & _ & _ & X & _). discriminate X.
      + intros a w I. apply In_dget in I; [|exact N]. pose proof (BD _ _ I) as (t' & s' & e & [<-|[]] & S' & _ & _ & C & -> & _).
        apply free_of. eapply free_written; [|exact C]. intros s S. apply TM. clear - S S'. induction S'; auto. econstructor; eauto. }
  assert (ONET : forall a s s', target (PDict d) ("#/$defs/" ++ a) s -> target (PDict d) ("#/$defs/" ++ a) s' -> s = s').
  { assert (TD : forall a s, target (PDict d) ("#/$defs/" ++ a) s -> exists e, dget "$defs" d = Some (PDict e) /\ dget a e = Some s).
    { intros a s T. remember ("#/$defs/" ++ a)%string as r eqn:Er. destruct T as [d' e a' s ED G TK X|d' i r I G WH].
      - injection ED as <-. cbn in Er. injection Er as ->. eauto.
      - exfalso. subst r. pose proof (FREE _ _ I G) as IJ. apply (IDS i); [exists d'; auto|].
        destruct (hash_pointer a) as [q Q]. eapply hash_fragment. rewrite <- WH. exact Q. }
    intros a s s' T1 T2. apply TD in T1 as (e1 & G1 & X1). apply TD in T2 as (e2 & G2 & X2). congruence. }
  assert (SE : set_c t (get_c t) = t) by (destruct t; reflexivity).
  rewrite <- (more_iff (PDict d) m d v).
  - eapply (again_all strategy j (PDict d) R t DEFS ONET j false _ _ t (get_c t)); eauto; rewrite SE; [constructor|exact M].
  - intros k K. rewrite HD. destruct defs; auto. rewrite dget_dset. destruct (String.eqb k "$defs") eqn:X; auto.
    apply String.eqb_eq in X. subst k. cbn in K. intuition discriminate.
Qed.
End Written.
