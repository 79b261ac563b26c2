(** Proofs for C124: flat Avro records that are read and printed again. *)
From Coq Require Import String Ascii List NArith ZArith Bool Lia.
From Verif Require Import PyVal PyValFacts RType Registry SpecTypes SpecDb SpecRows SpecAvro SpecAvroSchema SpecAvroData SpecConverted
  FromDict ToDict Avro AvroProps AvroSchema AvroData AvroDataWritten JsonSchema HiveFacts Commands PrintedFormats Converted.
Import ListNotations.
Open Scope nat_scope.
Open Scope string_scope.
Open Scope list_scope.

(** ** Flat Avro records *)
Inductive simple : rtype -> Prop :=
| si_null c : simple (TNull c)
| si_bool c : simple (TBool c)
| si_int c n : n = 32%Z \/ n = 64%Z -> simple (TInt c (PInt n) (PBool true))
| si_float c n : n = 32%Z \/ n = 64%Z -> simple (TFloat c (PInt n))
| si_bytes c : simple (TBytes c (PInt longest) (PBool true))
| si_string c : simple (TString c (PInt longest) (PBool true)).
Definition flatly (c : common) : Prop := c_logical c = PNone /\ sized_alias c.
Lemma primitive_simple s c t : primitive s c = Some t -> simple t /\ get_c t = c.
Proof.
  unfold primitive. cbn [dget]. repeat (destruct (String.eqb s _); [intros [= <-]; split; [constructor; auto|reflexivity]|]). discriminate.
Qed.
Lemma described_flatly d nm x c : described d nm PNone (full_of nm) x c -> flatly c.
Proof. intros [L A _ _]. split; auto. unfold sized_alias. rewrite A. destruct nm as [[f b]|]; cbn; eauto. Qed.
Lemma not_logical_flatly c : flatly c -> not_logical c.
Proof. intros [L _] s. rewrite L. discriminate. Qed.
Lemma simple_writes t : simple t -> flatly (get_c t) -> exists o, writes t (PDict o).
Proof.
  intros S F. pose proof (not_logical_flatly _ F) as N.
  assert (W : exists b, written_as t b).
  { destruct S as [c|c|c n B|c n B|c|c]; cbn [get_c] in *.
    - eexists. now apply wa_null.
    - eexists. now apply wa_bool.
    - destruct B as [->| ->]; eexists; (eapply wa_int; [exact N|left; reflexivity|]).
      + apply ib_int. lia.
      + apply ib_long. lia.
    - destruct B as [->| ->]; eexists; [eapply wa_float|eapply wa_double]; try exact N; try (left; reflexivity); lia.
    - eexists. eapply wa_bytes; [exact N|left; reflexivity|lia].
    - eexists. eapply wa_string; [exact N|left; reflexivity|lia]. }
  destruct W as [b W]. exists (written_labels t ++ b). eapply writes_object; eauto.
Qed.
Lemma simple_proper t : simple t -> flatly (get_c t) -> proper t.
Proof. intros S [_ A]. destruct S; apply proper_intro; try exact A; try exact Logic.I; constructor. Qed.
Lemma simple_fit b t : simple t -> flatly (get_c t) -> fit b t.
Proof. intros S [L _]. destruct S; constructor; auto; lia. Qed.
(** What a field of a flat record is read as. *)
Definition flat_read (t : rtype) : Prop :=
  flatly (get_c t) /\ (simple t \/ exists c ts, t = TUnion c ts /\ Forall (fun u => simple u /\ flatly (get_c u)) ts).
Lemma flat_ok t : flat_read t -> proper t /\ (forall b, fit b t) /\ exists o, writes t (PDict o).
Proof.
  intros [F [S|(c & ts & -> & U)]].
  - split; [now apply simple_proper|]. split; [intros; now apply simple_fit|]. now apply simple_writes.
  - cbn [get_c] in F. split; [|split].
    + apply proper_intro; [apply F|exact Logic.I|]. cbn [children]. eapply Forall_impl; [|exact U]. intros u [S G]. now apply simple_proper.
    + intros b. apply fit_union; [apply F|]. rewrite Forall_forall in U. intros u I. destruct (U u I). now apply simple_fit.
    + assert (W : exists l, Forall2 writes ts l).
      { clear F. induction U as [|u ts [S G] U [l IH]]; [exists []; constructor|]. destruct (simple_writes u S G) as [o O]. exists (PDict o :: l). now constructor. }
      destruct W as [l W]. eexists. eapply writes_object; [|reflexivity]. eapply wa_union; [now apply not_logical_flatly|exact W].
Qed.
Lemma reads_as_prim ns d nm t s : reads_as ns d nm t -> dget "type" d = Some (PStr s) -> In s avro_prims -> simple t /\ flatly (get_c t).
Proof.
  intros R T I. inversion R; subst; try congruence;
    try (match goal with A : dget "type" _ = Some (PStr ?x) |- _ => rewrite T in A; injection A; intros; subst end; cbn in I; intuition discriminate).
  - match goal with P : primitive _ _ = Some _ |- _ => destruct (primitive_simple _ _ _ P) as [S <-] end. split; auto. eapply described_flatly; eauto.
  - match goal with A : _ \/ _ |- _ => destruct A as [A|[A _]]; [congruence|] end. rewrite T in *. match goal with A : Some _ = Some _ |- _ => injection A; intros; subst end. cbn in I. intuition discriminate.
Qed.
Lemma reads_prim ns s t : reads ns (PStr s) t -> In s avro_prims -> simple t /\ flatly (get_c t).
Proof.
  intros R I. inversion R as [? ? R'| |]; subst. destruct (reads_unlogical ns [("type", PStr s)] t eq_refl R') as (ns' & nm & RA).
  eapply reads_as_prim; eauto. reflexivity.
Qed.
Lemma field_flat ns j f : flat_field j -> reads ns j f -> flat_read f /\ has_name f.
Proof.
  intros (o & n & ty & -> & N & NE & ND & NS & L & T & F) R. inversion R as [|? ns' nm ? NA _ RA|]; subst; [|congruence].
  assert (NM : exists f', nm = Some (f', n)).
  { destruct (named_fun _ _ _ _ _ _ NA (named_simple ns o n N ND)) as [_ ->]. eauto. }
  destruct NM as [f' ->].
  assert (HN : forall c, described o (Some (f', n)) PNone (full_of (Some (f', n))) [] c -> exists m, dget "name" (c_extra c) = Some (PStr m) /\ m <> "").
  { intros c [_ _ _ X]. exists n. rewrite X. auto. }
  destruct F as [(s & -> & I)|(l & -> & I)].
  - destruct (reads_as_prim _ _ _ _ _ RA T I) as [S G]. split; [split; auto|].
    inversion RA; subst; try congruence; try (match goal with A : dget "type" _ = Some (PStr ?x) |- _ => rewrite T in A; injection A; intros; subst end; cbn in I; intuition discriminate).
    + match goal with P : primitive _ _ = Some _ |- _ => destruct (primitive_simple _ _ _ P) as [_ E] end. unfold has_name, extra. rewrite E. eapply HN; eauto.
    + apply (HN c). assumption.
  - inversion RA; subst; try congruence. match goal with A : _ \/ _ |- _ => destruct A as [A|[A _]]; [|congruence] end.
    rewrite T in *. match goal with A : Some _ = Some _ |- _ => injection A; intros; subst end. split; [|apply (HN c); assumption].
    split; [eapply described_flatly; eauto|]. right. eexists _, _. split; [reflexivity|].
    match goal with A : Forall2 _ (map PStr l) ts |- _ => clear - A I; revert ts A end.
    induction l as [|s l IH]; intros ts A; inversion A; subst; constructor.
    + eapply reads_prim; eauto. apply I. now left.
    + apply IH; auto. intros s' X. apply I. now right.
Qed.
Lemma record_flat ns j t : flat_record j -> reads ns j t -> exists c fs, t = TStruct c fs /\ flatly c /\ has_name t /\ Forall (fun f => flat_read f /\ has_name f) fs.
Proof.
  intros (d & n & b & l & -> & T & L & N & NB & ND & NE & F & A) R. inversion R as [|? ns' nm ? NA _ RA|]; subst; [|congruence].
  assert (NM : exists f', nm = Some (f', b)).
  { destruct NB as [->|[a ->]].
    - destruct (named_fun _ _ _ _ _ _ NA (named_simple ns d b N ND)) as [_ ->]. eauto.
    - destruct (named_fun _ _ _ _ _ _ NA (named_full ns d a b N ND)) as [_ ->]. eauto. }
  destruct NM as [f' ->]. inversion RA; subst; try congruence; try (exfalso; not_this T F).
  match goal with X : dget "fields" d = Some ?v, Y : py_iter ?v = Ok ?k, Z : Forall2 _ ?k ?fs |- _ =>
    rewrite F in X; injection X; intros; subst v; cbn [py_iter] in Y; injection Y; intros; subst k; exists c, fs; rename Z into FZ end.
  match goal with D : described _ _ _ _ _ c |- _ => rename D into DC end. split; [reflexivity|]. split; [eapply described_flatly; eauto|]. split.
  - exists b. destruct DC as [_ _ _ X]. unfold extra. cbn [get_c]. rewrite X. auto.
  - clear - FZ A. revert A. induction FZ; intros A; constructor; inversion A; subst; eauto using field_flat.
Qed.
Lemma flat_printed R ns j t : flat_record j -> reads ns j t -> proper t /\ fit false t /\ exists v, avro_from R t = Ok v.
Proof.
  intros F RD. destruct (record_flat _ _ _ F RD) as (c & fs & -> & FC & HN & A).
  assert (P : proper (TStruct c fs)).
  { apply proper_intro; [apply FC|exact Logic.I|]. cbn [children]. eapply Forall_impl; [|exact A]. intros f [X _]. apply flat_ok, X. }
  split; auto. split.
  - apply fit_struct; [apply FC|exact HN|]. rewrite Forall_forall in A. intros f I. destruct (A f I) as [X Y]. split; auto. apply flat_ok, X.
  - assert (W : exists l, Forall2 (fun f o => writes f (PDict o)) fs l).
    { clear - A. induction A as [|f fs [X _] A [l IH]]; [exists []; constructor|]. destruct (flat_ok f X) as (_ & _ & o & O). exists (o :: l). now constructor. }
    destruct W as [l W]. eapply writes_from; [exact P|]. eapply writes_object; [|reflexivity]. eapply wa_struct; [now apply not_logical_flatly|exact W].
Qed.
(** The parts of a flat record. *)
Lemma flat_part start doc ns j : flat_record doc -> part start doc ns j -> j = doc \/ flat_type j.
Proof.
  intros (d & n & b & l & -> & T & L & N & NB & ND & NE & F & A). induction 1 as [|ns d' ns' nm l' o j PA IH E NA F' I EJ|ns d' j PA IH E F'|ns d' j PA IH E F'|ns l' j PA IH I|ns d' j PA IH E NN].
  - now left.
  - right. destruct IH as [IH|[(s & IH & _)|(l0 & IH & _)]]; try discriminate. injection IH; intros; subst d'. rewrite F in F'. injection F'; intros; subst l'.
    rewrite Forall_forall in A. destruct (A _ I) as (o' & m & ty & X & _ & _ & _ & _ & _ & TY & FT). injection X; intros; subst o'. congruence.
  - destruct IH as [IH|[(s & IH & _)|(l0 & IH & _)]]; try discriminate. injection IH; intros; subst d'. congruence.
  - destruct IH as [IH|[(s & IH & _)|(l0 & IH & _)]]; try discriminate. injection IH; intros; subst d'. congruence.
  - right. destruct IH as [IH|[(s & IH & _)|(l0 & IH & K)]]; try discriminate. injection IH; intros; subst l'. apply in_map_iff in I as (s & <- & I). left. eauto.
  - destruct IH as [IH|[(s & IH & _)|(l0 & IH & _)]]; try discriminate. injection IH; intros; subst d'. rewrite T in E. injection E; intros; subst. elim (NN "record" eq_refl). cbn. tauto.
Qed.
Lemma flat_tidy start doc : flat_record doc -> tidy start doc /\ plain_references start doc.
Proof.
  intros FR. pose proof FR as (d & n & b & l & -> & T & L & N & NB & ND & NE & F & A). split; [split|].
  - intros ns d' PA. destruct (flat_part _ _ _ _ FR PA) as [E|[(s & E & _)|(l0 & E & _)]]; try discriminate. injection E; intros; subst d'. split.
    + unfold meant_here. now rewrite L.
    + intros H. elim (H "record"); [cbn; tauto|exact T].
  - intros ns d' l' o PA E' F' I. destruct (flat_part _ _ _ _ FR PA) as [E|[(s & E & _)|(l0 & E & _)]]; try discriminate. injection E; intros; subst d'.
    rewrite F in F'. injection F'; intros; subst l'. rewrite Forall_forall in A. destruct (A _ I) as (o' & m & ty & X & NM & _ & NDM & NS & LO & _). injection X; intros; subst o'.
    split; [eauto|auto].
  - intros ns s ns' d' PS [RF _] DF. destruct (flat_part _ _ _ _ FR PS) as [E|[(s' & E & I)|(l0 & E & _)]]; try discriminate. injection E; intros; subst s'. contradiction.
Qed.
Lemma avro_flat j start ns R R' t : namespaced j ->
  start = PStr ns \/ (start = PNone /\ ns = "" /\ exists d nm, j = PDict d /\ dget "name" d = Some (PStr nm)) ->
  avro_to j start R = (R', Ok t) -> flat_record j ->
  exists v, schema_output FAvro t = Ok (ODocument v) /\ forall x, SpecAvroData.data ns j ns j x -> SpecAvroData.data "" v "" v x.
Proof.
  intros N S H F. destruct (to_reads _ _ _ _ _ _ N S H) as [RD _]. destruct (flat_printed builtin_aliases _ _ _ F RD) as (P & FT & v & V).
  destruct (flat_tidy ns _ F) as [TI PR].
  exists v. unfold schema_output. rewrite V. split; [reflexivity|]. intros x D. eapply data_written; eauto. eapply data_kept; eauto.
Qed.

(** *** As JSON Schema *)
Lemma plain_null ns s t : reads ns (PStr s) t -> In s avro_prims -> is_null t = true -> t = TNull c0.
Proof.
  intros R I NU. inversion R as [? ? R'| |]; subst. inversion R' as [|? ns' nm ? NA _ RA|]; subst; [|discriminate].
  inversion NA; subst; try discriminate.
  inversion RA; subst; try discriminate.
  match goal with P : primitive _ _ = Some _ |- _ => destruct (primitive_simple _ _ _ P) as [S E] end.
  destruct t; try discriminate. cbn [get_c] in E. subst. f_equal.
  match goal with D : described _ _ _ _ _ ?c |- _ => destruct D as [L A DO X]; cbn in A, DO; assert (Z : c_extra c = []) end.
  { apply no_extra. intros k. rewrite X. unfold label. destruct (String.eqb k "name"), (String.eqb k "default"); reflexivity. }
  destruct c; cbn in *; subst. reflexivity.
Qed.
Lemma simple_node t : simple t -> flatly (get_c t) -> every json_node t.
Proof. intros S [_ A]. destruct S; apply every_iff; (split; [split; [exact A|exact Logic.I]|constructor]). Qed.
Lemma field_json ns j f : flat_field j -> reads ns j f -> every json_node f.
Proof.
  intros FF R. destruct (field_flat _ _ _ FF R) as [[G [S|(c & ts & -> & U)]] _]; [now apply simple_node|].
  destruct FF as (o & n & ty & -> & N & NE & ND & NS & L & T & F). destruct (reads_unlogical ns _ _ L R) as (ns' & nm & RA).
  apply every_iff. split; [split; [apply G|]|].
  - cbv beta iota. destruct F as [(s & -> & I)|(l & -> & I)].
    + destruct (reads_as_prim _ _ _ _ _ RA T I) as [S _]. inversion S.
    + inversion RA; subst; try congruence.
      match goal with A : _ \/ _ |- _ => destruct A as [A|[A _]]; [|congruence] end.
      rewrite T in *. match goal with A : Some _ = Some _ |- _ => injection A; clear A; intro A; subst end.
      match goal with A : Forall2 _ (map PStr l) ts |- _ => clear - A I; revert ts A end.
      induction l as [|s l IH]; intros ts A; inversion A; subst; [intros z []|]; intros z IZ NU; destruct IZ as [IZ|IZ].
      * subst z. eapply plain_null; eauto. apply I. now left.
      * apply IH with (ts := l'); auto. intros s' X. apply I. now right.
  - cbn [children]. eapply Forall_impl; [|exact U]. intros u [S X]. now apply simple_node.
Qed.
Lemma flat_json ns j t : flat_record j -> reads ns j t -> exists v, schema_output FJson t = Ok (ODocument v).
Proof.
  intros F RD. destruct (record_flat _ _ _ F RD) as (c & fs & -> & FC & HN & A).
  assert (E : every json_node (TStruct c fs)).
  { apply every_iff. split; [split; [apply FC|]|].
    - eapply Forall_impl; [|exact A]. intros f [_ (n & X & Y)]. exists n. split; auto.
    - cbn [children]. destruct F as (d & n & b & l & -> & T & L & N & NB & ND & NE & F & FL). destruct (reads_unlogical ns _ _ L RD) as (ns' & nm & RA).
      inversion RA; subst; try congruence.
      { match goal with P : primitive _ _ = Some _ |- _ => destruct (primitive_simple _ _ _ P) as [S _]; inversion S end. }
      match goal with X : dget "fields" d = Some ?v, Y : py_iter ?v = Ok ?k, Z : Forall2 _ ?k _ |- _ =>
        rewrite F in X; injection X; intros; subst v; cbn [py_iter] in Y; injection Y; intros; subst k; rename Z into FZ end.
      clear - FZ FL. induction FZ; constructor; inversion FL; subst; eauto using field_json. }
  destruct (json_printed builtin_aliases _ E) as [d D]. exists (PDict d). unfold schema_output. rewrite D. reflexivity.
Qed.
