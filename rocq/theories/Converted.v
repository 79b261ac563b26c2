(** Proofs for C124: schemas that are read in one format and printed in another. *)
From Coq Require Import String Ascii List NArith ZArith Bool Lia.
From Verif Require Import PyVal PyValFacts RType Registry SpecTypes SpecJson SpecInstances SpecJsonSchema JsonMeans SpecAvro SpecAvroSchema SpecProto SpecConverted
  FromDict ToDict Url HiveFacts JsonSchema JsonWrite Avro AvroProps AvroSchema Proto ProtoRead ProtoFrame ProtoShape Commands PrintedFormats.
Import ListNotations.
Open Scope nat_scope.
Open Scope string_scope.
Open Scope list_scope.

(** ** Types with a text that is too long to be written *)
Section Blocked.
  Variable leaf : rtype -> Prop.
  Inductive blocked : rtype -> Prop :=
  | bl_leaf t : leaf t -> blocked t
  | bl_list c t n v : blocked t -> blocked (TList c t n v)
  | bl_map c k t : blocked t -> blocked (TMap c k t)
  | bl_struct c fs f : In f fs -> blocked f -> blocked (TStruct c fs)
  | bl_union c ts t : In t ts -> blocked t -> blocked (TUnion c ts).
  Hypothesis leaf_set : forall t c, leaf t -> leaf (set_c t c).
  Lemma blocked_set t c : blocked t -> blocked (set_c t c).
  Proof. destruct 1; cbn [set_c]; [apply bl_leaf, leaf_set, H|apply bl_list|apply bl_map|eapply bl_struct|eapply bl_union]; eauto. Qed.
End Blocked.

(** Protobuf has no texts of 2 GiB. *)
Definition long (t : rtype) : Prop :=
  exists c b v, (t = TString c b v \/ t = TBytes c b v) /\ match Proto.int_of b with Some z => (2147483647 < z)%Z | None => True end.
Lemma long_set t c : long t -> long (set_c t c).
Proof. intros (c' & b & v & [->| ->] & L); exists c, b, v; cbn [set_c]; auto. Qed.
Lemma long_write t n e : long t -> pr_write t n <> Ok e.
Proof.
  intros (c & b & v & [->| ->] & L) H; cbn [pr_write] in H; destruct (Proto.int_of b) as [z|]; try discriminate;
    (destruct (Z.leb z 2147483647) eqn:Z; [apply Z.leb_le in Z; lia|discriminate]).
Qed.
Lemma struct_gather c fs D : pr_gather (TStruct c fs) = Ok D -> forall f, In f fs -> (exists n e, pr_write f n = Ok e) /\ exists D', pr_gather f = Ok D'.
Proof.
  cbn [pr_gather]. destruct (c_alias c); try discriminate. destruct (substr_in "." s); [|discriminate]. destruct (rsplit_dot s) as [p n].
  intros H. apply rbind_Ok in H as (ed & H & _). revert ed H. generalize 1. induction fs as [|x fs IH]; intros i ed H f I; [destruct I|].
  apply rbind_Ok in H as (e & E & H). apply rbind_Ok in H as (d & G & H). apply rbind_Ok in H as (ed' & H & _).
  destruct I as [<-|I]; [eauto 6|eapply IH; eauto].
Qed.
Lemma blocked_write t : blocked long t -> (match t with TStruct _ _ => False | _ => True end /\ forall n e, pr_write t n <> Ok e) \/ forall D, pr_gather t <> Ok D.
Proof.
  induction 1 as [t L|c t n v B IH|c k t B IH|c fs f I B IH|c ts t I B IH].
  - left. split; [destruct L as (c & b & v & [->| ->] & _); exact Logic.I|]. intros n e. now apply long_write.
  - destruct IH as [[_ IH]|IH]; [left|right].
    + split; auto. intros m e H. cbn [pr_write] in H. apply rbind_Ok in H as (f & F & _). eapply IH; eauto.
    + intros D H. cbn [pr_gather] in H. eapply IH; eauto.
  - destruct IH as [[_ IH]|IH]; [left|right].
    + split; auto. intros m e H. cbn [pr_write] in H. apply rbind_Ok in H as (f & F & H). apply rbind_Ok in H as (g & G & _). eapply IH; eauto.
    + intros D H. cbn [pr_gather] in H. apply rbind_Ok in H as (f & F & H). apply rbind_Ok in H as (g & G & _). eapply IH; eauto.
  - right. intros D H. destruct (struct_gather _ _ _ H f I) as [(n & e & W) (D' & G)]. destruct IH as [[_ IH]|IH]; [eapply IH|eapply IH]; eauto.
  - assert (NN : is_null t = false) by (destruct B as [t (c' & b & v & [->| ->] & _)| | | |]; reflexivity).
    destruct IH as [[_ IH]|IH]; [left|right].
    + split; auto. intros m e H. cbn [pr_write] in H. apply rbind_Ok in H as (es & H & _). revert m es H. induction ts as [|x ts IHt]; intros m es H; [destruct I|].
      destruct I as [->|I].
      * rewrite NN in H. apply rbind_Ok in H as (f & F & _). eapply IH; eauto.
      * destruct (is_null x); [eapply IHt; eauto|]. apply rbind_Ok in H as (f & F & H). apply rbind_Ok in H as (fs & G & _). eapply IHt; eauto.
    + intros D H. cbn [pr_gather] in H. revert D H. induction ts as [|x ts IHt]; intros D H; [destruct I|].
      apply rbind_Ok in H as (d & G & H). apply rbind_Ok in H as (d' & G' & _). destruct I as [->|I]; [eapply IH; eauto|eapply IHt; eauto].
Qed.
Lemma blocked_protobuf c fs o : blocked long (TStruct c fs) -> schema_output FProtobuf (TStruct c fs) <> Ok o.
Proof.
  intros B H. unfold schema_output in H. apply rbind_Ok in H as (l & H & _). unfold pr_from in H. cbn [get_c] in H. apply rbind_Ok in H as (D & H & _).
  apply blocked_write in B as [[[] _]|B]. destruct (c_alias c); try discriminate; eapply B; eauto.
Qed.

(** Avro has no texts without a length. *)
Lemma unlimited_set t c : unlimited t -> unlimited (set_c t c).
Proof. intros (c' & v & [->| ->]); exists c, v; cbn [set_c]; auto. Qed.
Lemma unlimited_long t : unlimited t -> long t.
Proof. intros (c & v & [->| ->]); exists c, PNone, v; split; auto; exact Logic.I. Qed.
Lemma unlimited_never prox R t v : unlimited t -> avro_tree prox R t <> Ok v.
Proof.
  intros (c & va & [->| ->]) H; cbn [avro_tree get_c] in H; apply rbind_Ok in H as (d & _ & H); destruct c as [lo al dc ex]; cbn [c_logical] in H;
    destruct lo; try discriminate H; apply rbind_Ok in H as (? & H & _); cbn [avro_logical as_int get_c] in H; try discriminate H; destruct va as [|[|]| | | | |]; discriminate H.
Qed.
Lemma blocked_tree prox R t : blocked unlimited t -> forall v, avro_tree prox R t <> Ok v.
Proof.
  assert (NL : forall c t, get_c t = c -> match t with TList _ _ _ _ | TMap _ _ _ | TStruct _ _ | TUnion _ _ => True | _ => False end ->
     forall l, avro_logical t <> Ok l).
  { intros c u _ S l. destruct u; try contradiction; cbn [avro_logical]; discriminate. }
  induction 1 as [t L|c t n v B IH|c k t B IH|c fs f I B IH|c ts t I B IH]; intros w H.
  - eapply unlimited_never; eauto.
  - cbn [avro_tree get_c] in H. apply rbind_Ok in H as (d & _ & H).
    destruct (c_logical c); try discriminate H; (apply rbind_Ok in H as (? & H & _); eapply IH; eassumption).
  - cbn [avro_tree get_c] in H. apply rbind_Ok in H as (d & _ & H).
    destruct (c_logical c); try discriminate H; (destruct k; try discriminate H; apply rbind_Ok in H as (? & H & _); eapply IH; eassumption).
  - cbn [avro_tree get_c] in H. apply rbind_Ok in H as (d & _ & H).
    assert (G : exists l, (fix all (l : list rtype) : res (list pyval) :=
                    match l with
                    | [] => Ok []
                    | x :: r => (v <- avro_tree prox R x ;; w <- avro_field v ;; ws <- all r ;; Ok (w :: ws))%res
                    end) fs = Ok l).
    { destruct (c_logical c); try discriminate H; (apply rbind_Ok in H as (? & H & _); eexists; exact H). }
    clear H. destruct G as [l H]. revert l H I. induction fs as [|x fs IHf]; intros l H I; [destruct I|].
    apply rbind_Ok in H as (y & Y & H). apply rbind_Ok in H as (y' & _ & H). apply rbind_Ok in H as (ys & H & _). destruct I as [<-|I]; [eapply IH; eauto|]. eapply IHf; eauto.
  - cbn [avro_tree get_c] in H. apply rbind_Ok in H as (d & _ & H).
    assert (G : exists l, (fix all (l : list rtype) : res (list pyval) :=
                    match l with
                    | [] => Ok []
                    | x :: r => (v <- avro_tree prox R x ;; ws <- all r ;; Ok (v :: ws))%res
                    end) ts = Ok l).
    { destruct (c_logical c); try discriminate H; (apply rbind_Ok in H as (? & H & _); eexists; exact H). }
    clear H. destruct G as [l H]. revert l H I. induction ts as [|x fs IHf]; intros l H I; [destruct I|].
    apply rbind_Ok in H as (y & Y & H). apply rbind_Ok in H as (ys & H & _). destruct I as [<-|I]; [eapply IH; eauto|]. eapply IHf; eauto.
Qed.
Lemma blocked_avro t o : blocked unlimited t -> schema_output FAvro t <> Ok o.
Proof.
  intros B H. unfold schema_output in H. apply rbind_Ok in H as (w & H & _). unfold avro_from in H. apply rbind_Ok in H as (u & H & _). cbn [avro_from_f] in H.
  eapply blocked_tree; eauto.
Qed.
Lemma blocked_mono (P Q : rtype -> Prop) t : (forall t, P t -> Q t) -> blocked P t -> blocked Q t.
Proof. intros M. induction 1; [apply bl_leaf; auto|apply bl_list|apply bl_map|eapply bl_struct|eapply bl_union]; eauto. Qed.

(** ** JSON schemas *)
Lemma means_all_at alias ids l ts ids' j : means_all alias ids l ts ids' -> In j l -> exists i i' t, In t ts /\ means alias i j t i'.
Proof. induction 1; intros []; [subst; eauto 8 using in_eq|]. destruct IHmeans_all as (i & i' & t' & I & M); auto. eauto 8 using in_cons. Qed.
Lemma field_blocked d n g f : blocked unlimited g -> field_as d n g f -> blocked unlimited f.
Proof.
  intros B F. destruct F as [c _ _|c _ _ _|c0' ts c _ _ -> _|c c' _ _ _ _ _]; try (apply blocked_set; auto using unlimited_set).
  - inversion B as [? (cc & v & [X|X])| | | |? ? t I Bt]; subst; try discriminate. apply (bl_union _ _ _ t); [now right|auto].
  - eapply bl_union; [right; left; reflexivity|]. apply blocked_set; auto using unlimited_set.
Qed.
Lemma fields_blocked d ps gs fs g : fields_as d ps gs fs -> In g gs -> blocked unlimited g -> exists f, In f fs /\ blocked unlimited f.
Proof.
  induction 1 as [|n s ps g' gs f fs F _ IH]; intros I B; [destruct I|]. destruct I as [->|I]; [exists f; split; [now left|eapply field_blocked; eauto]|].
  destruct IH as (f' & I' & B'); auto. exists f'. split; [now right|auto].
Qed.
Lemma text_blocked alias j : json_text j -> forall ids t ids', means alias ids j t ids' -> blocked unlimited t.
Proof.
  assert (ST : forall d ids t ids', dget "type" d = Some (PStr "string") -> means alias ids (PDict d) t ids' -> blocked unlimited t).
  { intros d ids t ids' T M. inversion M; subst; try congruence.
    - apply bl_leaf. assert (s = "string") by congruence; subst s. match goal with B : SpecJsonSchema.basic _ _ _ _ _ |- _ => inversion B; subst end; unfold unlimited; eauto.
    - exfalso. match goal with H : ~ SpecJsonSchema.typed d |- _ => apply H end. right. exists "string". split; auto. left. now left. }
  induction 1 as [|d T|d l j T I _ IH|d ps n j T P I _ IH|d j T P _ IH]; intros ids t ids' M.
  - inversion M; subst. eapply ST; [|eassumption]. reflexivity.
  - eapply ST; eauto.
  - inversion M; subst; try congruence.
    + assert (l0 = l) by congruence; subst l0. match goal with A : means_all _ _ l _ _ |- _ => destruct (means_all_at _ _ _ _ _ _ A I) as (i & i' & u & J & N) end.
      eapply bl_union; eauto.
    + exfalso. match goal with H : ~ SpecJsonSchema.typed d |- _ => apply H end. left. eauto.
  - inversion M; subst; try congruence.
    + assert (s = "object") by congruence; subst s. match goal with B : SpecJsonSchema.basic _ _ _ _ _ |- _ => inversion B end.
    + assert (ps0 = ps) by congruence; subst ps0.
      match goal with A : means_all _ _ (map snd ps) _ _ |- _ => destruct (means_all_at _ _ _ _ _ j A) as (i & i' & u & J & N) end; [apply (List.in_map snd) in I; exact I|].
      apply IH in N. match goal with F : fields_as _ _ _ _ |- _ => destruct (fields_blocked _ _ _ _ _ F J N) as (f & If & Bf) end. eapply bl_struct; eauto.
    + exfalso. match goal with H : ~ SpecJsonSchema.typed d |- _ => apply H end. right. exists "object". split; auto. right. left. split; auto. congruence.
  - inversion M; subst; try congruence.
    + assert (s = "array") by congruence; subst s. match goal with B : SpecJsonSchema.basic _ _ _ _ _ |- _ => inversion B end.
    + assert (j0 = j) by congruence; subst j0. apply bl_list. eauto.
    + exfalso. match goal with H : ~ SpecJsonSchema.typed d |- _ => apply H end. right. exists "array". split; auto. right. right. split; auto. congruence.
Qed.
Lemma json_texts strategy j J' t : required_lists j -> js_to strategy j [] = (J', Ok t) -> json_text j ->
  forall o, schema_output FAvro t <> Ok o /\ schema_output FProtobuf t <> Ok o.
Proof.
  intros RL H T o. destruct (to_means _ _ _ _ RL H) as [[ids M] (c & fs & ->)]. pose proof (text_blocked _ _ T _ _ _ M) as B. split.
  - now apply blocked_avro.
  - apply blocked_protobuf. eapply blocked_mono; [|exact B]. apply unlimited_long.
Qed.
Lemma json_names strategy j J' t v : required_lists j -> js_to strategy j [] = (J', Ok t) -> schema_output FAvro t = Ok (ODocument v) ->
  exists o, v = PDict o /\ dget "name" o = None.
Proof.
  intros RL H S. destruct (to_means _ _ _ _ RL H) as [[ids M] (c & fs & ->)].
  unfold schema_output in S. apply rbind_Ok in S as (w & S & E). injection E; intros; subst w. destruct (from_dicts _ _ _ S) as [o ->]. exists o. split; auto.
  rewrite (name_written builtin_aliases (TStruct c fs) o); auto. cbn [get_c].
  assert (G : forall d lo al, SpecJsonSchema.given d lo al c -> dget "name" (c_extra c) = None).
  { intros d lo al (_ & _ & _ & X). rewrite X. reflexivity. }
  clear S H. assert (X : dget "name" (c_extra c) = None).
  { remember (TStruct c fs) as t eqn:Et. clear RL. induction M; try discriminate; auto.
    - match goal with B : SpecJsonSchema.basic _ _ _ _ _ |- _ => inversion B; subst; discriminate end.
    - injection Et; intros; subst. eapply G; eauto. }
  now rewrite X.
Qed.

(** What can be written as JSON again. *)
Lemma no_extra (l : list (string * pyval)) : (forall k, dget k l = None) -> l = [].
Proof. destruct l as [|[k v] l]; auto. intros H. specialize (H k). cbn [dget] in H. now rewrite String.eqb_refl in H. Qed.
Lemma given_alias d lo al c ids ids' alias : SpecJsonSchema.given d lo al c -> identified alias ids d al ids' -> c_alias c = PNone \/ exists a, c_alias c = PStr a.
Proof. intros (_ & A & _ & _) I. rewrite A. destruct I; eauto. Qed.
Lemma inside_trans u v w : SpecJson.inside u v -> SpecJson.inside v w -> SpecJson.inside u w.
Proof. intros H. induction 1; auto; [eapply inside_list|eapply inside_dict]; eauto. Qed.
Lemma dget_in {V} k (d : list (string * V)) v : dget k d = Some v -> In (k, v) d.
Proof. apply dget_In. Qed.
Lemma get_of_set t c : get_c (set_c t c) = c.
Proof. destruct t; reflexivity. Qed.
Lemma set_node t c : json_node t -> (c_alias c = PNone \/ exists a, c_alias c = PStr a) -> is_proxy t = false -> json_node (set_c t c).
Proof. intros [A K] AC P. split; [now rewrite get_of_set|]. destruct t; try exact K. discriminate. Qed.
Lemma children_set t c : children (set_c t c) = children t.
Proof. destruct t; reflexivity. Qed.
Lemma every_set t c : every json_node t -> (c_alias c = PNone \/ exists a, c_alias c = PStr a) -> is_proxy t = false -> every json_node (set_c t c).
Proof. intros E A P. apply every_iff in E as [N K]. apply every_iff. split; [now apply set_node|]. now rewrite children_set. Qed.
Lemma every_alias t : every json_node t -> c_alias (get_c t) = PNone \/ exists a, c_alias (get_c t) = PStr a.
Proof. intros E. apply every_iff in E as [[A _] _]. exact A. Qed.
Lemma c0_node : every json_node (TNull c0).
Proof. apply every_iff. split; [split; [now left|exact Logic.I]|constructor]. Qed.
Lemma field_node d n g f : every json_node g -> is_proxy g = false -> n <> "" -> field_as d n g f -> every json_node f /\ is_proxy f = false /\ SpecJson.named f n.
Proof.
  intros E P NE F. pose proof (every_alias g E) as A.
  assert (NM : forall lo al dc df c, has_attrs lo al dc df (Some n) c -> dget "name" (c_extra c) = Some (PStr n)).
  { intros lo al dc df c (_ & _ & _ & X). rewrite X. reflexivity. }
  destruct F as [c _ H|c _ _ H|c0' ts c _ _ -> H|c c' _ NN NU H H'].
  - pose proof H as (_ & HA & _ & _). split; [apply every_set; auto; now rewrite HA|]. split; [now destruct g|]. split; auto. unfold attr. rewrite get_of_set. eapply NM; eauto.
  - pose proof H as (_ & HA & _ & _). split; [apply every_set; auto; now rewrite HA|]. split; [now destruct g|]. split; auto. unfold attr. rewrite get_of_set. eapply NM; eauto.
  - pose proof H as (_ & HA & _ & _). cbn [get_c] in *. apply every_iff in E as [[_ K] CH]. cbn [children] in *. split; [|split; [reflexivity|split; auto; eapply NM; eauto]].
    apply every_iff. split; [split|]; [cbn [get_c]; now rewrite HA| |].
    + intros x [<-|I]; auto.
    + cbn [children]. constructor; [apply c0_node|auto].
  - pose proof H as (_ & HA & _ & _). pose proof H' as (_ & HA' & _ & _). split; [|split; [reflexivity|split; auto; eapply NM; eauto]].
    assert (NL : is_null g = false). { destruct g; try reflexivity. elim NN. exact Logic.I. }
    apply every_iff. split; [split|]; [cbn [get_c]; now left| |].
    + intros x [<-|[<-|[]]] IX; auto. destruct g; discriminate.
    + cbn [children]. constructor; [apply c0_node|]. constructor; [|constructor]. apply every_set; auto. now rewrite HA'.
Qed.

Lemma self_inside i j : self_contained j -> SpecJson.inside i j -> self_contained i.
Proof. intros C I d D. apply C. eapply inside_trans; eauto. Qed.
Lemma null_given s al c ids ids' alias : identified alias ids [("type", PStr s)] al ids' -> SpecJsonSchema.given [("type", PStr s)] PNone al c -> c = c0.
Proof.
  intros I (L & A & D & X). cbn in D. assert (E : c_extra c = []). { apply no_extra. intros k. rewrite X. cbn. destruct (String.eqb k "default"), (String.eqb k "name"); reflexivity. }
  inversion I; subst; [|discriminate]. destruct c; cbn in *; subst. reflexivity.
Qed.
Lemma name_null alias ids s t ids' : means alias ids (PStr s) t ids' -> is_null t = true -> t = TNull c0.
Proof.
  intros M N. inversion M as [? ? ? ? M'| | | | |]; subst. inversion M' as [|? ? ? ? ? ? ? ? I T G B|? ? ? ? ? ? ? ? I T|? ? ? ? ? ? ? ? ? I T P|? ? ? ? ? ? ? ? I T P| ? ? ? ? ? U R]; subst; try discriminate.
  inversion B; subst; try discriminate. f_equal. eapply null_given; eauto.
Qed.
Scheme means_ind2 := Induction for means Sort Prop with means_all_ind2 := Induction for means_all Sort Prop.
Lemma self_printed alias : forall ids j t ids', means alias ids j t ids' -> self_contained j -> every json_node t /\ is_proxy t = false.
Proof.
  apply (means_ind2 alias (fun _ j t _ _ => self_contained j -> every json_node t /\ is_proxy t = false)
    (fun _ l ts _ _ => (forall j, In j l -> self_contained j) -> Forall (fun t => every json_node t /\ is_proxy t = false) ts)); intros.
  - apply H. intros d D. inversion D as [E| |? k j IN D']; subst.
    + repeat split; try reflexivity; cbn; intros; discriminate.
    + destruct IN as [E|[]]. injection E; intros; subst. inversion D'.
  - split; [|destruct b; reflexivity]. apply every_iff. pose proof (given_alias _ _ _ _ _ _ _ g i) as A. split; [split|].
    + destruct b; exact A.
    + destruct b; exact Logic.I.
    + destruct b; constructor.
  - split; [|reflexivity]. rename e into T, H0 into C. assert (CJ : forall j, In j l -> self_contained j).
    { intros j J. eapply self_inside; [exact C|]. eapply inside_dict; [apply dget_in; exact T|]. eapply inside_list; [exact J|constructor]. }
    specialize (H CJ). apply every_iff. split; [split|].
    + eapply given_alias; eauto.
    + destruct (C d (inside_self _)) as (_ & _ & TL & _). assert (ST : forall x, In x l -> exists s, x = PStr s) by (intros x; exact (TL l x T)). clear - m ST. induction m as [|? ? ? ? ? ? ? M1 M2 IHM]; intros x [].
      * subst. intros N. destruct (ST j (or_introl eq_refl)) as [s ->]. eapply name_null; eauto.
      * apply IHM; auto. intros y Y. apply ST. now right.
    + cbn [children]. eapply Forall_impl; [|exact H]. intros x [X _]. exact X.
  - split; [|reflexivity]. rename H0 into C. assert (CJ : forall j, In j (map snd ps) -> self_contained j).
    { intros j J. apply in_map_iff in J as ([n j'] & <- & J). eapply self_inside; [exact C|]. eapply inside_dict; [apply dget_in; eassumption|]. eapply inside_dict; [exact J|constructor]. }
    specialize (H CJ). destruct (C d (inside_self _)) as (_ & _ & _ & NE). specialize (NE ps ltac:(assumption)).
    assert (F : Forall (fun t => every json_node t /\ exists n, SpecJson.named t n) fs).
    { clear - H NE f. induction f; constructor.
      - inversion H as [|? ? [E P] ?]; subst. destruct (field_node _ _ _ _ E P (fun Z => NE (or_introl Z)) H0) as (E' & _ & N). eauto.
      - apply IHf; [inversion H; auto|]. intros Z. apply NE. now right. }
    apply every_iff. split; [split|].
    + eapply given_alias; eauto.
    + eapply Forall_impl; [|exact F]. intros x [_ X]. exact X.
    + cbn [children]. eapply Forall_impl; [|exact F]. intros x [X _]. exact X.
  - split; [|reflexivity]. rename H0 into C. destruct H as [E P].
    { eapply self_inside; [exact C|]. eapply inside_dict; [apply dget_in; eassumption|constructor]. }
    apply every_iff. split; [split|]; [eapply given_alias; eauto|exact Logic.I|]. cbn [children]. constructor; [exact E|constructor].
  - destruct (H d (inside_self _)) as (R1 & R2 & _). destruct r0 as [X|[X _]]; congruence.
  - constructor.
  - constructor; [apply H, H1; now left|]. apply H0. intros. apply H1. now right.
Qed.
Lemma json_contained strategy j J' t : required_lists j -> js_to strategy j [] = (J', Ok t) -> self_contained j ->
  exists v, schema_output FJson t = Ok (ODocument v).
Proof.
  intros RL H C. destruct (to_means _ _ _ _ RL H) as [[ids M] _]. destruct (self_printed _ _ _ _ _ M C) as [E _].
  destruct (json_printed builtin_aliases t E) as [d D]. exists (PDict d). unfold schema_output. rewrite D. reflexivity.
Qed.

(** ** Avro schemas *)
Lemma longest_long c v : long (TString c (PInt longest) v) /\ long (TBytes c (PInt longest) v).
Proof. split; exists c, (PInt longest), v; (split; [auto|]); cbn; unfold longest; lia. Qed.
Lemma reads_unlogical ns d t : dget "logicalType" d = None -> reads ns (PDict d) t -> exists ns' nm, reads_as ns' d nm t.
Proof. intros L R. inversion R; subst; [eauto|congruence]. Qed.
Lemma reads_text ns d nm t s : reads_as ns d nm t -> dget "type" d = Some (PStr s) -> s = "string" \/ s = "bytes" -> long t.
Proof.
  intros R T [->| ->]; inversion R; subst; try congruence;
    match goal with
    | A : dget "type" _ = Some (PStr ?x), P : primitive ?x _ = Some _ |- _ => rewrite T in A; injection A; intros; subst x; injection P; intros; subst; apply longest_long
    | A : _ \/ _ |- _ => destruct A as [A|[A _]]; congruence
    | A : dget "type" _ = Some (PStr ?x), P : ~ In ?x avro_prims |- _ => rewrite T in A; injection A; intros; subst x; elim P; cbn; tauto
    end.
Qed.
Ltac not_this T R := exfalso;
  match goal with
  | A : dget "type" _ = Some (PStr ?x), P : primitive ?x _ = Some _ |- _ => rewrite T in A; injection A; intros; subst x; discriminate P
  | A : _ \/ _ |- _ => destruct A as [A|[A _]]; congruence
  | A : dget "type" _ = Some (PStr ?x), P : ~ complex ?x _ |- _ =>
      rewrite T in A; injection A; intros; subst x; apply P; unfold complex, needs;
      eexists _, _; split; [|split; [eassumption|intros; discriminate]]; cbn; tauto
  end.
Lemma reads_member {A B} (P : A -> B -> Prop) l l' x : Forall2 P l l' -> In x l -> exists y, In y l' /\ P x y.
Proof. induction 1; intros []; [subst; eexists; split; [now left|eauto]|]. destruct IHForall2 as (z & Z & K); auto. exists z. split; [now right|auto]. Qed.
Lemma avro_blocked j : avro_text j -> forall ns t, reads ns j t -> blocked long t.
Proof.
  induction 1 as [s S|d s L T S|d l j L T F I A IH|d j L T F A IH|d j L T F A IH|d l j L T I A IH|d e L T A IH]; intros ns t R.
  - inversion R as [? ? R'| |]; subst. destruct (reads_unlogical ns [("type", PStr s)] t eq_refl R') as (ns' & nm & RA). apply bl_leaf. eapply reads_text; eauto. reflexivity.
  - destruct (reads_unlogical ns _ _ L R) as (ns' & nm & RA). apply bl_leaf. eapply reads_text; eauto.
  - destruct (reads_unlogical ns _ _ L R) as (ns' & nm & RA). inversion RA; subst; try congruence; try (not_this T F).
    match goal with X : dget "fields" d = Some ?v, Y : py_iter ?v = Ok ?k, Z : Forall2 _ ?k _ |- _ =>
      rewrite F in X; injection X; intros; subst v; cbn [py_iter] in Y; injection Y; intros; subst k; destruct (reads_member _ _ _ _ Z I) as (f & FI & FR) end.
    eapply bl_struct; eauto.
  - destruct (reads_unlogical ns _ _ L R) as (ns' & nm & RA). inversion RA; subst; try congruence; try (not_this T F).
    apply bl_list. match goal with X : dget "items" d = Some ?v |- _ => rewrite F in X; injection X; intros; subst v end. eauto.
  - destruct (reads_unlogical ns _ _ L R) as (ns' & nm & RA). inversion RA; subst; try congruence; try (not_this T F).
    apply bl_map. match goal with X : dget "values" d = Some ?v |- _ => rewrite F in X; injection X; intros; subst v end. eauto.
  - destruct (reads_unlogical ns _ _ L R) as (ns' & nm & RA). inversion RA; subst; try congruence.
    match goal with X : _ \/ _, Z : Forall2 _ ?k _ |- _ => destruct X as [X|[X _]]; [|congruence]; rewrite T in X; injection X; intros; subst k; destruct (reads_member _ _ _ _ Z I) as (f & FI & FR) end.
    eapply bl_union; eauto.
  - destruct (reads_unlogical ns _ _ L R) as (ns' & nm & RA). inversion RA; subst; try congruence.
    { match goal with X : _ \/ _ |- _ => destruct X as [X|[X _]]; congruence end. }
    apply blocked_set; [exact long_set|]. match goal with X : dget "type" d = Some (PDict ?v) |- _ => rewrite T in X; injection X; intros; subst v end. eauto.
Qed.
Lemma avro_texts j start ns R R' t : namespaced j ->
  start = PStr ns \/ (start = PNone /\ ns = "" /\ exists d nm, j = PDict d /\ dget "name" d = Some (PStr nm)) ->
  avro_to j start R = (R', Ok t) -> avro_text j -> forall o, schema_output FProtobuf t <> Ok o.
Proof.
  intros N S H T o. destruct (to_reads _ _ _ _ _ _ N S H) as [RD (c & fs & ->)]. apply blocked_protobuf. eapply avro_blocked; eauto.
Qed.

(** ** Proto files *)
Lemma proto_names l p s t v : first_package l = Some p -> snd (pr_to l s) = Ok t -> schema_output FAvro t = Ok (ODocument v) ->
  exists o, v = PDict o /\ dget "name" o = None.
Proof.
  intros P H S. unfold pr_to in H. rewrite (parse_packaged _ _ s P) in H.
  destruct (pr_elements (Some p) l None (reg s)) as [R [[u|]|e]] eqn:E; cbn [fst snd reg] in H; try discriminate.
  apply rbind_Ok in H as (w & V & H). apply elements_root in E as [E|(_ & n & els & R0 & R2 & F & M)]; [discriminate|].
  rewrite pr_message_eq in M. unfold mbind in M. destruct (read_elements (Some p) els R0) as [R3 [fs|e]] eqn:RE; [|discriminate].
  cbn [lift qualify] in M. cbv zeta in M. destruct (register_alias _ _) as [R4 [x|e]]; [|discriminate]. injection M as <- <-.
  apply resolve_follows in V as (fs' & -> & F2). injection H as <-.
  unfold schema_output in S. apply rbind_Ok in S as (y & S & X). injection X; intros; subst y. destruct (from_dicts _ _ _ S) as [o ->]. exists o. split; auto.
  erewrite (name_written builtin_aliases _ o); [| |exact S]; reflexivity.
Qed.
