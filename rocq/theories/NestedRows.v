(** Proofs for C130: rows of BigQuery and Hive tables as JSON objects. *)
From Coq Require Import String Ascii List NArith ZArith QArith Bool Lia.
From Verif Require Import PyVal PyValFacts RType SpecTypes Url Dbapi SpecDb BigQuery SpecBigQuery Hive HiveFacts SpecInstances SpecPrinted Commands
  SpecRows SpecTableJson SpecNested SpecNestedJson RowBigQuery NestedJson.
Import ListNotations.
Open Scope nat_scope.
Open Scope string_scope.
Open Scope list_scope.

(** ** BigQuery *)
Lemma leaf_json d x : nested_json d x -> match d with DNull | DList _ | DMap _ | DRow _ => False | _ => True end -> json_datum d x.
Proof. intros N M. inversion N; subst; auto; destruct M. Qed.
Lemma whole d x : nested_json d x -> (exists n, d = DInt n) \/ (exists n k, d = DInstant n k) \/ (exists n k, d = DClock n k) \/ (exists n, d = DDay n) -> has_type x "integer".
Proof.
  intros N [(n & ->)|[(n & k & ->)|[(n & k & ->)|(n & ->)]]]; apply leaf_json in N; try exact I; cbn in N.
  - now apply ty_integer with n.
  - destruct N as (z & N). now apply ty_integer with z.
  - destruct N as (z & N). now apply ty_integer with z.
  - destruct N as (z & N). now apply ty_integer with z.
Qed.
Lemma textual d x : nested_json d x -> (exists s, d = DText s) \/ (exists s, d = DBytes s) \/ (exists u k, d = DNumber u k) -> has_type x "string".
Proof.
  intros N [(n & ->)|[(n & ->)|(n & k & ->)]]; apply leaf_json in N; try exact I; cbn in N.
  - now apply ty_string with n.
  - destruct N as (z & N). now apply ty_string with z.
  - destruct N as (z & N). now apply ty_string with z.
Qed.
Lemma big_leaf_value n m dc df t d x : big_legal n t -> big_readable n t -> (forall y fs, t <> BigRecord y fs) -> big_leaf t d -> nested_json d x ->
  bq_value (big_reported n m dc df t) x.
Proof.
  intros [_ L] R NR B N. destruct t as [[k|]|[k|]|y|y|y|y| | |b y l| |y|y fs]; cbn [big_leaf] in B; try contradiction R.
  - destruct B as (s & -> & _). apply bqv_scalar with "string"; [apply bj_text; cbn; tauto|]. eapply textual; eauto.
  - destruct B as (s & ->). apply bqv_scalar with "string"; [apply bj_text; cbn; tauto|]. eapply textual; eauto.
  - destruct B as (s & -> & _). apply bqv_scalar with "string"; [apply bj_text; cbn; tauto|]. eapply textual; eauto.
  - destruct B as (s & ->). apply bqv_scalar with "string"; [apply bj_text; cbn; tauto|]. eapply textual; eauto.
  - destruct B as (z & -> & _). apply bqv_scalar with "integer"; [apply bj_whole; cbn in *; tauto|]. eapply whole; eauto.
  - destruct B as (q & -> & _). apply bqv_scalar with "number"; [apply bj_number; cbn in *; tauto|]. apply leaf_json in N; [|exact I]. now apply ty_number with q.
  - destruct B as (b & ->). cbn in R. subst y. apply bqv_scalar with "boolean"; [constructor|]. apply leaf_json in N; [|exact I]. now apply ty_boolean with b.
  - assert (X : exists n k, d = DInstant n k) by (destruct B as (? & -> & _); eauto). destruct X as (a & k & ->). apply bqv_scalar with "integer"; [apply bj_whole; cbn in *; tauto|]. eapply whole; eauto 6.
  - destruct B as (z & -> & _). apply bqv_scalar with "integer"; [apply bj_whole; cbn; tauto|]. eapply whole; eauto 6.
  - destruct B as (z & -> & _). apply bqv_scalar with "integer"; [apply bj_whole; cbn; tauto|]. eapply whole; eauto 6.
  - assert (T : In y ["STRING"; "JSON"; "BYTES"; "NUMERIC"; "DECIMAL"; "BIGNUMERIC"; "BIGDECIMAL"]) by (clear - L; destruct L as [L _], b; cbn [big_names In] in *; tauto).
    assert (X : exists u k, d = DNumber u k).
    { destruct b, l as [[p s]|]; destruct B as (u & -> & _); eauto. }
    destruct l as [[p [s|]]|]; (apply bqv_scalar with "string"; [now apply bj_text|eapply textual; eauto]).
  - destruct B as (s & ->). apply bqv_scalar with "string"; [apply bj_text; cbn; tauto|]. eapply textual; eauto.
  - exfalso. eapply NR. reflexivity.
Qed.
Definition big_sound (t : big_type) : Prop := forall n m dc df d x, everywhere big_legal n t -> everywhere big_readable n t ->
  big_all big_leaf t d -> nested_json d x -> bq_value (big_reported n m dc df t) x.
Lemma big_member n m dc df t d x : big_sound t -> everywhere big_legal n t -> everywhere big_readable n t -> by_mode m (big_all big_leaf t) d -> d <> DNull ->
  nested_json d x -> bq_member (big_reported n m dc df t) x.
Proof.
  intros S L R B NN N. destruct (reported_mode n m dc df t) as [EM _]. destruct m; cbn [by_mode mode_text] in *.
  - apply bqm_single; [rewrite EM; discriminate|]. eapply S; eauto.
  - destruct B as [B|B]; [contradiction|]. apply bqm_single; [rewrite EM; discriminate|]. eapply S; eauto.
  - destruct B as (l & -> & B). inversion N as [|? ? J|? xs F| |]; subst; [destruct J|]. apply bqm_repeated; [exact EM|].
    intros y Y. clear -S L R B F Y. induction F as [|d z l xs N F IH]; [destruct Y|]. destruct Y as [<-|Y].
    + eapply S; eauto. apply B. now left.
    + apply IH; auto. intros w W. apply B. now right.
Qed.
Lemma big_fields_object fs row o : Forall (fun f : big_field_decl => big_sound (snd f)) fs -> all_fields big_legal fs -> all_fields big_readable fs ->
  big_row big_leaf fs row -> nested_object row o -> bq_object (map big_reports fs) o.
Proof.
  intros S L R B O. inversion O as [? ? O1 O2]; subst.
  assert (W : forall g, In g (map big_reports fs) -> forall n, bq_name g = PStr n -> exists v, In (n, v) row /\
    (bq_mode g <> "NULLABLE" -> v <> DNull) /\ forall x, v <> DNull -> nested_json v x -> bq_member g x).
  { clear O O1 O2. induction B as [|[[[[a m] dc] df] t] [b v] fs row [H1 H2] B IH]; intros g I n N; [destruct I|].
    cbn [fst snd] in H1, H2. subst b. inversion S; inversion L; inversion R; subst. cbn [fst snd] in *. destruct I as [<-|I].
    - cbn [big_reports] in *. destruct (reported_mode a m dc df t) as [EM EN]. rewrite EN in N. injection N as <-.
      exists v. split; [now left|]. split.
      + intros M ->. rewrite EM in M. destruct m; cbn [mode_text by_mode] in *; [|now apply M|destruct H2 as (l & [=] & _)].
        clear - H2. revert H2. destruct t as [[k|]|[k|]|y|y|y|y| | |b y l| |y|y fs]; cbn [big_all big_leaf]; intros H;
          try (destruct H as (? & [=] & _)); try (destruct H as (? & [=])); try (destruct H as (? & ? & [=] & _)); auto; try (destruct b, l as [[? ?]|]; destruct H as (? & [=] & _)).
      + intros x NN NJ. eapply big_member; eauto.
    - destruct (IH ltac:(assumption) ltac:(assumption) ltac:(assumption) g I n N) as (w & IW & P). exists w. split; [now right|exact P]. }
  constructor.
  - intros g n I N M. destruct (W g I n N) as (v & IV & NN & _). destruct (O2 n v IV (NN M)) as (x & G & _). congruence.
  - intros g n x I N G. destruct (W g I n N) as (v & IV & _ & MB).
    assert (NN : v <> DNull) by (intros ->; rewrite (O1 n IV) in G; discriminate).
    destruct (O2 n v IV NN) as (x' & G' & NJ). apply MB; auto. congruence.
Qed.
Lemma big_all_sound t : big_sound t.
Proof.
  induction t as [t NR|y fs IH] using big_ind'; intros n m dc df d x L R B N.
  - pose proof (everywhere_here _ _ _ L). pose proof (everywhere_here _ _ _ R). eapply big_leaf_value; eauto.
    destruct t; try exact B. exfalso. eapply NR. reflexivity.
  - apply big_all_record in B as (row & -> & B). apply everywhere_record in L as [[_ L0] L]. apply everywhere_record in R as [_ R].
    inversion N as [|? ? J| | |? o O]; subst; [destruct J|]. apply bqv_record; [exact L0|]. apply big_fields_object with row; auto.
Qed.
Theorem big_rows_accepted fs t d row o : all_fields big_legal fs -> bq_apart (map big_reports fs) -> bq_to_recap (map big_reports fs) = Ok t ->
  schema_output FJson t = Ok (ODocument (PDict d)) -> big_row big_leaf fs row -> nested_object row o -> accepts (PDict d) (PDict d) (PDict o).
Proof.
  intros L AP H S B O. apply (bq_accepts _ _ _ _ AP H S). exists o. split; auto. apply big_fields_object with row; auto.
  - apply Forall_forall. intros f _. apply big_all_sound.
  - apply (bigquery_readable fs L). eauto.
Qed.

(** ** Hive *)
Lemma hive_leaf_value h v x : hive_apart h -> match h with HList _ | HMap _ _ | HStruct _ _ | HUnion _ => False | _ => True end -> hive_stored h v -> nested_json v x -> hive_value h x.
Proof.
  intros A M S N. destruct h as [p|p s|k|k|h1 h2|h|hs|ns hs|]; try destruct M; [|..|inversion A].
  - destruct p; cbn [hive_stored] in S; try contradiction S;
      try (destruct S as (z & -> & _)); try (destruct S as (z & ->));
      try (apply hvj_scalar with "integer"; [apply hj_whole; cbn; tauto|eapply whole; eauto 6]; fail);
      try (apply hvj_scalar with "string"; [apply hj_text; cbn; tauto|eapply textual; eauto 6]; fail).
    + apply leaf_json in N; [|exact I]. apply hvj_scalar with "boolean"; [constructor|now apply ty_boolean with z].
    + apply leaf_json in N; [|exact I]. apply hvj_scalar with "number"; [apply hj_number; cbn; tauto|now apply ty_number with z].
    + apply leaf_json in N; [|exact I]. apply hvj_scalar with "number"; [apply hj_number; cbn; tauto|now apply ty_number with z].
  - destruct S as (u & -> & _). apply hvj_scalar with "string"; [constructor|eapply textual; eauto 6].
  - destruct S as (u & -> & _). apply hvj_scalar with "string"; [constructor|eapply textual; eauto 6].
  - destruct S as (u & -> & _). apply hvj_scalar with "string"; [constructor|eapply textual; eauto 6].
Qed.
(** Names, types and values of the same length. *)
Lemma hive_fields_object (fs : list (string * htype)) row o :
  (forall n h v x, In (n, h) fs -> v <> DNull -> inner_full v -> hive_in hive_stored h v -> nested_json v x -> hive_value h x) ->
  (forall n h, In (n, h) fs -> ~ (h = HPrim HVoid \/ hive_choice h)) ->
  Forall2 (fun nh nv => fst nv = fst nh /\ (snd nv = DNull \/ hive_in hive_stored (snd nh) (snd nv))) fs row ->
  (forall n v, In (n, v) row -> inner_full v) -> nested_object row o -> hive_object fs o.
Proof.
  intros S NV B IF O. inversion O as [? ? O1 O2]; subst.
  assert (W : forall n h, In (n, h) fs -> exists v, In (n, v) row /\ (v = DNull \/ hive_in hive_stored h v)).
  { clear -B. induction B as [|[a h] [b v] fs row [H1 H2] B IH]; intros n k I; [destruct I|]. cbn [fst snd] in *. destruct I as [[= <- <-]|I].
    - subst b. exists v. split; [now left|auto].
    - destruct (IH n k I) as (w & IW & P). exists w. split; [now right|exact P]. }
  constructor.
  - intros n h I E. destruct (NV n h I E).
  - intros n h x I G. destruct (W n h I) as (v & IV & HV).
    assert (NN : v <> DNull) by (intros ->; rewrite (O1 n IV) in G; discriminate).
    destruct (O2 n v IV NN) as (x' & G' & NJ). assert (x' = x) as -> by congruence. destruct HV as [->|HV]; [contradiction|]. eapply S; eauto.
Qed.
Lemma solid_void h : hive_solid h -> ~ (h = HPrim HVoid \/ hive_choice h).
Proof. intros S [->|(hs & a & b & -> & _)]; inversion S. congruence. Qed.
Lemma hive_sound h : hive_apart h -> hive_solid h -> forall v x, v <> DNull -> inner_full v -> hive_in hive_stored h v -> nested_json v x -> hive_value h x.
Proof.
  induction h using htype_ind'; intros A S w x NN IF V N; try (eapply hive_leaf_value; eauto; fail).
  - inversion A; inversion S; subst. cbn [hive_in] in V. destruct V as (l & -> & V). inversion N as [|? ? J| |? o E1 E2|]; subst; [destruct J|].
    inversion IF as [|? F| |? M]; subst; [|destruct M]. constructor. intros n y G. destruct (E2 n y G) as (a & b & I & NJ). destruct (F a b I) as [NB FB].
    destruct (V a b I) as [_ [->|VB]]; [contradiction|]. eapply IHh2; eauto.
  - inversion A; inversion S; subst. cbn [hive_in] in V. destruct V as (l & -> & V). inversion N as [|? ? J|? xs FJ| |]; subst; [destruct J|].
    inversion IF as [? F| | |? M]; subst; [|destruct M]. constructor. intros y Y.
    assert (X : exists b, In b l /\ nested_json b y).
    { clear -FJ Y. induction FJ; [destruct Y|]. destruct Y as [<-|Y]; [eexists; split; [now left|eassumption]|]. destruct (IHFJ Y) as (b & I & P). exists b. split; [now right|exact P]. }
    destruct X as (b & I & NJ). destruct (F b I) as [NB FB]. destruct (V b I) as [->|VB]; [contradiction|]. eapply IHh; eauto.
  - inversion S.
  - inversion A as [| | | | | |? ? ND NE LEN CS|]; inversion S as [| | | | | |? ? SS]; subst. cbn [hive_in] in V. destruct V as (row & -> & V). inversion N as [|? ? J| | |? o O]; subst; [destruct J|].
    inversion IF as [| |? F|? M]; subst; [|destruct M]. constructor.
    rewrite Forall_forall in H, CS, SS.
    apply hive_fields_object with row; auto.
    + intros n h v y I. apply in_combine_r in I. apply H; auto.
    + intros n h I. apply in_combine_r in I. apply solid_void. auto.
    + clear -V LEN. revert ts LEN row V. induction ns as [|n ns IH]; intros [|t ts] LEN row V; try discriminate LEN; cbn [combine].
      * subst row. constructor.
      * destruct row as [|[m v] row]; [destruct V|]. destruct V as (-> & V1 & V2). constructor; [cbn; auto|]. apply IH; auto.
Qed.
Theorem hive_rows_accepted name cols t d row o : hive_columns_apart cols -> Forall (fun c => hive_solid (hc_type c)) cols -> hive_to_recap name cols = Ok t ->
  schema_output FJson t = Ok (ODocument (PDict d)) -> hive_row hive_stored cols row -> inner_full (DRow row) -> nested_object row o -> accepts (PDict d) (PDict d) (PDict o).
Proof.
  intros AP SO H S B IF O. apply (hive_accepts _ _ _ _ _ AP H S). exists o. split; auto. destruct AP as (_ & _ & AP). rewrite Forall_forall in AP, SO.
  inversion IF as [| |? F|? M]; subst; [|destruct M].
  assert (IN : forall n h, In (n, h) (hive_shape cols) -> exists c, In c cols /\ hc_type c = h).
  { intros n h I. unfold hive_shape in I. apply in_map_iff in I as (c & [= _ <-] & I). eauto. }
  apply hive_fields_object with row; auto.
  - intros n h v x I. destruct (IN n h I) as (c & IC & <-). apply hive_sound; auto.
  - intros n h I. destruct (IN n h I) as (c & IC & <-). apply solid_void; auto.
  - clear -B. unfold hive_shape. induction B as [|c nv cols row P B IH]; constructor; auto.
Qed.
