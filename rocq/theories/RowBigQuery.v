(** C112: the values of BigQuery columns. *)
From Coq Require Import String Ascii List NArith ZArith QArith Bool Lia.
From Verif Require Import PyVal PyValFacts RType Registry SpecTypes FromDict Nullable NullableFacts Url Dbapi BigQuery SpecDb SpecBigQuery
  SpecInstances SpecRows SpecNested DbapiFacts DbapiMore DbReads DbRanges BigQueryFacts RowFacts RowTypes RowSnowflake RowPostgres.
Import ListNotations.
Open Scope nat_scope.
Open Scope string_scope.
Open Scope list_scope.

Section BigInd.
  Variable P : big_type -> Prop.
  Hypothesis leaf : forall t, (forall n fs, t <> BigRecord n fs) -> P t.
  Hypothesis record : forall n fs, Forall (fun f => P (snd f)) fs -> P (BigRecord n fs).
  Fixpoint big_ind' (t : big_type) : P t.
  Proof.
    destruct t as [k|k|x|x|x|x| | |b x l| |x|x fs]; try (apply leaf; discriminate).
    apply record. exact ((fix all fs : Forall (fun f => P (snd f)) fs :=
      match fs with [] => Forall_nil _ | f :: r => Forall_cons f (big_ind' (snd f)) (all r) end) fs).
  Defined.
End BigInd.

(** ** Reading one field *)
Lemma set_extra_alike k v x : ~ In k ["unit"; "precision"; "scale"] -> alike_c (get_c x) (get_c (set_extra k v x)).
Proof.
  intros N. unfold set_extra. rewrite get_set_c. repeat split; cbn [c_logical c_alias c_extra]; auto.
  intros j J. rewrite dget_dset. destruct (String.eqb_spec j k); auto. subst. tauto.
Qed.
Lemma set_doc_alike d x : alike_c (get_c x) (get_c (set_doc d x)).
Proof. unfold set_doc. rewrite get_set_c. repeat split. Qed.
Lemma relabelled env x c d : alike_c (get_c x) c -> (holds env (set_c x c) d <-> holds env x d).
Proof.
  intros A. split; intros H.
  - rewrite <- (set_get_c x), <- (set_set_c x c). apply holds_set; auto. rewrite get_set_c. now apply alike_sym.
  - now apply holds_set.
Qed.
Lemma set_extra_holds env k v x d : ~ In k ["unit"; "precision"; "scale"] ->
  (holds env (set_extra k v x) d <-> holds env x d).
Proof. intros N. pose proof (set_extra_alike k v x N) as A. unfold set_extra in *. rewrite get_set_c in A. now apply relabelled. Qed.
Lemma set_doc_holds env v x d : holds env (set_doc v x) d <-> holds env x d.
Proof. pose proof (set_doc_alike v x) as A. unfold set_doc in *. rewrite get_set_c in A. now apply relabelled. Qed.

Lemma finish_holds env f m b t d : fresh_type b -> is_union b = false -> bq_finish f b = Ok t ->
  bq_mode f = mode_text m -> (holds env t d <-> by_mode m (holds env b) d).
Proof.
  intros F U H M. unfold bq_finish in H. rewrite M in H.
  assert (B : exists t2, (if String.eqb (mode_text m) "NULLABLE"
      then snd (make_nullable (if String.eqb (mode_text m) "REPEATED" then TList c0 b PNone (PBool true) else b))
      else Ok (if String.eqb (mode_text m) "REPEATED" then TList c0 b PNone (PBool true) else b)) = Ok t2
      /\ (holds env t2 d <-> by_mode m (holds env b) d)).
  { destruct m; cbn [mode_text].
    - exists b. split; [reflexivity|]. reflexivity.
    - change (String.eqb "NULLABLE" "NULLABLE") with true. change (String.eqb "NULLABLE" "REPEATED") with false. cbv iota.
      rewrite (make_nullable_other b (fresh_no_clash _ F) U), (ft_null _ F), (plain_fresh _ F). cbn [snd].
      eexists. split; [reflexivity|]. apply holds_nullable.
    - exists (TList c0 b PNone (PBool true)). split; [reflexivity|]. cbn [by_mode]. split.
      + inversion 1; subst. eauto.
      + intros (l & -> & A). constructor; cbn; auto. }
  destruct B as (t2 & E & B). rewrite E in H. cbn [rbind] in H. injection H as <-. rewrite <- B.
  set (t3 := if truthy (bq_name f) then set_extra "name" (bq_name f) t2 else t2).
  assert (S3 : holds env t3 d <-> holds env t2 d).
  { unfold t3. destruct (truthy (bq_name f)); [apply set_extra_holds; cbn; intuition congruence|tauto]. }
  rewrite <- S3. clearbody t3.
  set (t4 := if truthy (bq_description f) then set_doc (bq_description f) t3 else t3).
  assert (S4 : holds env t4 d <-> holds env t3 d).
  { unfold t4. destruct (truthy (bq_description f)); [apply set_doc_holds|tauto]. }
  rewrite <- S4. destruct (truthy (bq_default f)); [apply set_extra_holds; cbn; intuition congruence|tauto].
Qed.
Lemma by_mode_lift m (V H C : datum -> Prop) d : by_mode m V d -> (forall x, V x -> (H x <-> C x)) ->
  (by_mode m H d <-> by_mode m C d).
Proof.
  intros M E. destruct m; cbn [by_mode] in *; auto.
  - destruct M as [->|M]; [tauto|]. rewrite (E d M). tauto.
  - destruct M as (l & -> & M). split; intros (l' & [= <-] & A); exists l; split; auto; intros x I; apply (E x); auto.
Qed.

(** ** The types without fields *)
Definition big_read (t : big_type) : option rtype :=
  match t with
  | BigString k => Some (TString c0 (big_max k) (PBool true))
  | BigBytes k => Some (TBytes c0 (big_max k) (PBool true))
  | BigInteger _ => Some (int_t 64 true)
  | BigFloat _ => Some (float_t 64)
  | BigBool x => if String.eqb x "BOOLEAN" then Some (TBool c0) else None
  | BigInstant _ => Some (time_t "build.recap.Timestamp" 64 "microsecond")
  | BigTime => Some (time_t "build.recap.Time" 32 "microsecond")
  | BigDate => Some (time_t "build.recap.Date" 32 "day")
  | BigNumeric b _ l =>
      Some (decimal_t (if b then 32 else 16)
        (PInt (match l with Some (p, _) => p | None => if b then 76 else 38 end))
        (PInt (match l with Some (_, Some s) => s | _ => 0 end)))
  | BigJson => Some (TString c0 PNone (PBool true))
  | BigOther _ | BigRecord _ _ => None
  end.
Lemma big_scalar n m doc dflt t : big_legal n t -> bq_scalar (big_reported n m doc dflt t) = big_read t.
Proof.
  intros [_ L].
  destruct t as [k|k|x|x|x|x| | |b x l| |x|x fs]; cbn [big_reported big_read big_names] in *; try reflexivity.
  - repeat (destruct L as [<-|L]; [reflexivity|]). destruct L.
  - repeat (destruct L as [<-|L]; [reflexivity|]). destruct L.
  - repeat (destruct L as [<-|L]; [reflexivity|]). destruct L.
  - repeat (destruct L as [<-|L]; [reflexivity|]). destruct L.
  - destruct L as [L LL].
    assert (X : forall p s, p <> 0%Z -> (or_else (PInt p) (PInt 38) = PInt p) /\ or_else (PInt p) (PInt 76) = PInt p /\ or_else (PInt s) (PInt 0) = PInt s).
    { intros p s N. rewrite !or_else_int, or_else_zero by auto. auto. }
    destruct b; (destruct L as [<-|[<-|[]]]); destruct l as [[p [s|]]|]; try reflexivity;
      destruct (X p 0%Z ltac:(lia)) as (X1 & X2 & _); try destruct (X p s ltac:(lia)) as (_ & _ & X3);
      cbn - [or_else]; rewrite ?X1, ?X2, ?X3; reflexivity.
  - repeat (destruct L as [<-|L]; [reflexivity|]). destruct L.
  - repeat (destruct L as [<-|L]; [reflexivity|]). destruct L.
Qed.
Lemma big_read_fresh t b : big_read t = Some b -> fresh_type b /\ is_union b = false.
Proof.
  destruct t as [k|k|x|x|x|x| | |bg x l| |x|x fs]; cbn [big_read]; try discriminate.
  5: destruct (String.eqb x "BOOLEAN"); [|discriminate].
  all: intros [= <-]; split; [fresh_leaf|reflexivity].
Qed.

Lemma holds_decimal_any env b p m u k : holds env (decimal_t b (PInt p) (PInt m)) (DNumber u k) <->
  exists z, same_number z m u k /\ (Z.abs z < 10 ^ p)%Z /\ int_range (8 * b) true z.
Proof.
  split.
  - inversion 1; subst. unfold extra_is in *. cbn [c_extra lge dget String.eqb Ascii.eqb Bool.eqb] in *.
    repeat match goal with E : Some (PInt _) = Some (PInt _) |- _ => injection E as E; subst end. eauto.
  - intros (z & A & B & C). apply (h_decimal env _ b _ p m u k z); auto; reflexivity.
Qed.
Lemma big_leaf_holds env n t b d : big_legal n t -> big_read t = Some b -> big_leaf t d ->
  (holds env b d <-> big_leaf_covered t d).
Proof.
  intros [_ L] R V.
  destruct t as [k|k|x|x|x|x| | |bg x l| |x|x fs]; cbn [big_read] in R; try discriminate R.
  5: destruct (String.eqb x "BOOLEAN"); [|discriminate].
  all: injection R as <-.
  - destruct k as [k|]; cbn [big_max big_leaf big_leaf_covered] in *.
    + destruct V as (s & -> & V). rewrite holds_string. cbn [fits truthy]. lia.
    + destruct V as (s & ->). rewrite holds_string. cbn. tauto.
  - destruct k as [k|]; cbn [big_max big_leaf big_leaf_covered] in *.
    + destruct V as (s & -> & V). rewrite holds_bytes. cbn [fits truthy]. split; auto. intros _. lia.
    + destruct V as (s & ->). rewrite holds_bytes. cbn. tauto.
  - destruct V as (z & -> & V). rewrite holds_int. cbn [big_leaf_covered]. tauto.
  - destruct V as (q & -> & V). rewrite holds_float, format64. cbn [big_leaf_covered]. tauto.
  - destruct V as (q & ->). cbn [big_leaf_covered]. split; auto. intros _. constructor.
  - destruct V as (z & -> & V). rewrite (holds_instant env 64 _ 6) by (try constructor; lia). cbn [big_leaf_covered].
    split; auto. intros _. eapply instant_range; eauto; try lia; unfold year_1, year_10000; lia.
  - destruct V as (z & -> & V). rewrite (holds_clock env 32 _ 6) by (try constructor; lia). cbn [big_leaf_covered].
    unfold int_range. change (10 ^ (6 - 6))%Z with 1%Z. change (32 - 1)%Z with 31%Z. lia.
  - destruct V as (z & -> & V). rewrite holds_day. cbn [big_leaf_covered]. split; auto. intros _.
    unfold int_range, day_1, last_day in *. change (2 ^ (32 - 1))%Z with 2147483648%Z. lia.
  - cbn [big_legal big_names] in L. destruct L as [_ L]. destruct l as [[p s]|].
    + set (k := match s with Some s => s | None => 0%Z end) in *.
      replace (match s with Some s0 => PInt s0 | None => PInt 0 end) with (PInt k) by (destruct s; reflexivity).
      assert (V' : exists u, d = DNumber u k /\ (Z.abs u < 10 ^ p)%Z) by (destruct bg; exact V). clear V.
      destruct V' as (u & -> & V).
      replace (match s with Some s0 => s0 | None => 0%Z end) with k by (destruct s; reflexivity).
      rewrite holds_decimal by lia. cbn [big_leaf_covered]. split; auto. intros _. split; auto.
      apply decimal_fit with (p := p); auto; destruct bg; try lia; [apply fits32|apply fits16]; lia.
    + rewrite holds_decimal_any || idtac. destruct bg; destruct V as (u & -> & V); rewrite holds_decimal_any; cbn [big_leaf_covered]; unfold same_number.
      * split; [intros (z & E & _); exists z; lia|]. intros (z & ->). exists z. split; [lia|].
        change (8 * 32)%Z with 256%Z. unfold int_range. change (256 - 1)%Z with 255%Z.
        change (10 ^ 76)%Z with (10 ^ 38 * 10 ^ 38)%Z. assert (2 ^ 255 < 10 ^ 38 * (10 ^ 38 * 10))%Z by reflexivity.
        assert (0 < 10 ^ 38)%Z by reflexivity. split; nia.
      * split; [intros (z & E & _); exists z; lia|]. intros (z & ->). exists z. split; [lia|].
        change (8 * 16)%Z with 128%Z. unfold int_range. change (128 - 1)%Z with 127%Z.
        assert (10 ^ 38 < 2 ^ 127)%Z by reflexivity. assert (0 < 10 ^ 9)%Z by reflexivity. split; nia.
  - destruct V as (s & ->). rewrite holds_string. cbn. tauto.
Qed.

(** ** Records *)
Lemma big_all_record P n fs d : big_all P (BigRecord n fs) d <-> exists row, d = DRow row /\ big_row P fs row.
Proof.
  cbn [big_all]. split; intros (row & -> & H); exists row; split; auto; revert row H; unfold big_row.
  - induction fs as [|[[[[x m] dc] df] t] fs IH]; intros [|[y v] row] H; try contradiction; constructor.
    + cbn [fst snd]. tauto.
    + apply IH. tauto.
  - induction fs as [|[[[[x m] dc] df] t] fs IH]; intros row H; inversion H as [|? [y v] ? row' H1 H3]; subst; auto.
    cbn [fst snd] in H1. destruct H1 as [H1 H2]. split; [exact H1|]. split; [exact H2|]. apply IH. exact H3.
Qed.
Lemma everywhere_record P n x fs : everywhere P n (BigRecord x fs) <-> P n (BigRecord x fs) /\ all_fields P fs.
Proof.
  cbn [everywhere]. unfold all_fields.
  assert (E : (fix all (fs : list (string * big_mode * pyval * pyval * big_type)) : Prop :=
     match fs with [] => True | (n', _, _, _, t') :: r => everywhere P n' t' /\ all r end) fs <->
     Forall (fun f : big_field_decl => let '(n, _, _, _, t) := f in everywhere P n t) fs).
  { induction fs as [|[[[[y m] dc] df] t] fs IH]; [split; auto|]. rewrite Forall_cons_iff, IH. tauto. }
  rewrite E. tauto.
Qed.
Lemma reported_record n m dc df x fs : bq_type (big_reported n m dc df (BigRecord x fs)) = x /\
  bq_fields (big_reported n m dc df (BigRecord x fs)) = map big_reports fs.
Proof. split; reflexivity. Qed.
Lemma reported_mode n m dc df t : bq_mode (big_reported n m dc df t) = mode_text m /\ bq_name (big_reported n m dc df t) = PStr n.
Proof. destruct t as [k|k|x|x|x|x| | |b x [[p [s|]]|]| |x|x fs]; split; reflexivity. Qed.
Lemma everywhere_here P n t : everywhere P n t -> P n t.
Proof. destruct t; cbn [everywhere]; tauto. Qed.

Definition field_good (env : string -> rtype -> Prop) (f : big_field_decl) : Prop :=
  let '(n, m, dc, df, t) := f in forall r, bq_to_field (big_reports f) = Ok r ->
    extra "name" r = Some (PStr n) /\
    forall d, by_mode m (big_all big_leaf t) d -> (holds env r d <-> by_mode m (big_all big_leaf_covered t) d).
Lemma record_holds env fs : Forall (field_good env) fs -> forall rs row, rmap bq_to_field (map big_reports fs) = Ok rs ->
  big_row big_leaf fs row -> (holds env (TStruct c0 rs) (DRow row) <-> big_row big_leaf_covered fs row).
Proof.
  intros G rs row M V.
  assert (E : length rs = length row /\
    (forall i f n d, nth_error rs i = Some f -> nth_error row i = Some (n, d) -> extra "name" f = Some (PStr n)) /\
    ((forall i f n d, nth_error rs i = Some f -> nth_error row i = Some (n, d) -> holds env f d) <-> big_row big_leaf_covered fs row)).
  { revert rs row M V. induction G as [|[[[[n m] dc] df] t] fs GF G IH]; intros rs row M V; cbn [map rmap] in M.
    - injection M as <-. inversion V; subst. split; auto. split; [intros [|i]; discriminate|].
      split; [intros _; constructor|intros _ [|i]; discriminate].
    - destruct (bq_to_field (big_reports (n, m, dc, df, t))) as [r|] eqn:E; cbn [rbind] in M; [|discriminate].
      destruct (rmap bq_to_field (map big_reports fs)) as [rs'|]; cbn [rbind] in M; [|discriminate]. injection M as <-.
      inversion V as [|? [y v] ? row' V1 V3]; subst. cbn [fst snd] in V1. destruct V1 as [-> V2].
      destruct (GF _ E) as [NM HV]. destruct (IH _ _ eq_refl V3) as (LN & NMS & HS). split; [cbn; auto|]. split.
      + intros [|i] f0 n0 d0; cbn; [|apply NMS]. intros [= <-] [= <- <-]. exact NM.
      + split.
        * intros HA. constructor; cbn [fst snd].
          -- split; auto. apply (HV v V2). apply (HA 0 r n v); reflexivity.
          -- apply HS. intros i f0 n0 d0 I J. apply (HA (Datatypes.S i) f0 n0 d0); auto.
        * intros RO. inversion RO as [|? ? ? ? C RO']; subst. cbn [fst snd] in C. destruct C as [_ C]. intros [|i] f0 n0 d0; cbn.
          -- intros [= <-] [= <- <-]. apply (HV v V2). exact C.
          -- intros I J. apply (proj2 HS RO' i f0 n0 d0); auto. }
  destruct E as (LN & NM & HV). rewrite <- HV. split.
  - inversion 1; subst; auto.
  - intros X. constructor; auto.
Qed.

Lemma big_field_good env t : forall n m dc df, everywhere big_legal n t -> field_good env (n, m, dc, df, t).
Proof.
  induction t as [t NR|x fs IH] using big_ind'; intros n m dc df L r H.
  - cbn [big_reports] in H. destruct (reported_mode n m dc df t) as [EM EN].
    pose proof (everywhere_here _ _ _ L) as L0. rewrite bq_unfold, (big_scalar _ _ _ _ _ L0) in H.
    assert (A : forall P d, big_all P t d <-> P t d) by (intros P d; destruct t; try reflexivity; exfalso; eapply NR; reflexivity).
    destruct (big_read t) as [b|] eqn:R.
    + destruct (big_read_fresh _ _ R) as [F U].
      destruct (bq_finish_spec (big_reported n m dc df t) b F U) as (r' & E' & _ & MT). rewrite H in E'. injection E' as <-.
      split; [apply (bm_name _ _ MT); [exact EN|apply L0]|].
      intros d V. rewrite (finish_holds env _ m b r d F U H EM). eapply by_mode_lift; [exact V|].
      intros y Vy. cbn beta. rewrite A in *. eapply big_leaf_holds; eauto.
    + exfalso. destruct (str_in (bq_type (big_reported n m dc df t)) ["RECORD"; "STRUCT"]) eqn:S; [|discriminate].
      destruct L0 as [_ L0]. destruct t as [k|k|x|x|x|x| | |b x l| |x|x fs]; cbn [big_read] in R; try discriminate R; try (eapply NR; reflexivity).
      * cbn [big_reported bq_type big_names] in *. destruct L0 as [<-|[<-|[]]]; discriminate.
      * cbn [big_reported bq_type big_names] in *. destruct L0 as [<-|[<-|[<-|[]]]]; discriminate.
  - cbn [big_reports] in H. destruct (reported_mode n m dc df (BigRecord x fs)) as [EM EN].
    destruct (reported_record n m dc df x fs) as [ET EF].
    apply everywhere_record in L as [L0 LF]. rewrite bq_unfold, (big_scalar _ _ _ _ _ L0) in H. cbn [big_read] in H.
    rewrite EF in H. destruct (str_in _ _); [|discriminate].
    destruct (rmap bq_to_field (map big_reports fs)) as [rs|] eqn:M; cbn [rbind] in H; [|discriminate].
    destruct (bq_finish_spec (big_reported n m dc df (BigRecord x fs)) (TStruct c0 rs) (struct_fresh rs) eq_refl) as (r' & E' & _ & MT).
    rewrite H in E'. injection E' as <-.
    split; [apply (bm_name _ _ MT); [exact EN|apply L0]|].
    intros d V. rewrite (finish_holds env _ m _ r d (struct_fresh rs) eq_refl H EM). eapply by_mode_lift; [exact V|].
    intros y Vy. cbn beta. rewrite big_all_record in *. destruct Vy as (row & -> & Vy).
    assert (G : Forall (field_good env) fs).
    { clear -IH LF. unfold all_fields in LF. induction IH as [|[[[[a b] c] e] t] fs Ht IH2 IHl]; constructor.
      - inversion LF; subst. apply Ht. auto.
      - apply IHl. now inversion LF. }
    rewrite (record_holds env fs G rs row M Vy). split; [eauto|]. intros (row' & [= <-] & ?). auto.
Qed.

Theorem bigquery_rows : forall env fs t row, all_fields big_legal fs -> bq_to_recap (map big_reports fs) = Ok t ->
  big_row big_leaf fs row -> (holds env t (DRow row) <-> big_row big_leaf_covered fs row).
Proof.
  intros env fs t row L H V. unfold bq_to_recap in H.
  destruct (rmap bq_to_field (map big_reports fs)) as [rs|] eqn:M; cbn [rbind] in H; [|discriminate]. injection H as <-.
  apply record_holds; auto. unfold all_fields in L. rewrite Forall_forall in *. intros [[[[n m] dc] df] t] I.
  specialize (L _ I). cbn in L. now apply big_field_good.
Qed.

(** ** Which tables can be read *)
Lemma big_readable_iff t : forall n m dc df, everywhere big_legal n t ->
  ((exists r, bq_to_field (big_reported n m dc df t) = Ok r) <-> everywhere big_readable n t).
Proof.
  induction t as [t NR|x fs IH] using big_ind'; intros n m dc df L.
  - pose proof (everywhere_here _ _ _ L) as L0. rewrite bq_unfold, (big_scalar _ _ _ _ _ L0).
    assert (A : everywhere big_readable n t <-> big_readable n t).
    { destruct t; cbn [everywhere]; try tauto; exfalso; eapply NR; reflexivity. }
    rewrite A. destruct (big_read t) as [b|] eqn:R.
    + destruct (big_read_fresh _ _ R) as [F U].
      destruct (bq_finish_spec (big_reported n m dc df t) b F U) as (r' & E' & _).
      split; [intros _|intros _; eauto]. destruct t; cbn [big_read big_readable] in *; auto; try discriminate.
      destruct (String.eqb_spec name "BOOLEAN"); [auto|discriminate].
    + assert (S : str_in (bq_type (big_reported n m dc df t)) ["RECORD"; "STRUCT"] = false /\ ~ big_readable n t).
      { destruct L0 as [_ L0]. destruct t as [k|k|x|x|x|x| | |b x l| |x|x fs]; cbn [big_read] in R; try discriminate R; try (exfalso; eapply NR; reflexivity).
        - cbn [big_reported bq_type big_names big_readable] in *. destruct L0 as [<-|[<-|[]]]; [discriminate|]. split; [reflexivity|discriminate].
        - cbn [big_reported bq_type big_names big_readable] in *. destruct L0 as [<-|[<-|[<-|[]]]]; split; auto. }
      destruct S as [-> S]. split; [intros (r & [=])|tauto].
  - destruct (reported_record n m dc df x fs) as [ET EF].
    apply everywhere_record in L as [L0 LF]. rewrite bq_unfold, (big_scalar _ _ _ _ _ L0). cbn [big_read]. rewrite EF, ET.
    assert (S : str_in x ["RECORD"; "STRUCT"] = true) by (destruct L0 as [_ [<-|[<-|[]]]]; reflexivity). rewrite S, everywhere_record.
    assert (G : (exists rs, rmap bq_to_field (map big_reports fs) = Ok rs) <-> all_fields big_readable fs).
    { rewrite rmap_ok, Forall_map. unfold all_fields in *. clear -IH LF.
      induction IH as [|[[[[a b] c] e] t] fs Ht IH2 IHl]; [split; auto|]. inversion LF; subst.
      rewrite !Forall_cons_iff, IHl by auto. cbn [big_reports snd] in *. rewrite (Ht a b c e) by auto. tauto. }
    rewrite <- G. split.
    + intros (r & H). split; [exact Logic.I|]. destruct (rmap bq_to_field _); [eauto|discriminate].
    + intros (_ & rs & ->). cbn [rbind].
      destruct (bq_finish_spec (big_reported n m dc df (BigRecord x fs)) (TStruct c0 rs) (struct_fresh rs) eq_refl) as (r' & E' & _). eauto.
Qed.
Theorem bigquery_readable : forall fs, all_fields big_legal fs ->
  ((exists t, bq_to_recap (map big_reports fs) = Ok t) <-> all_fields big_readable fs).
Proof.
  intros fs L. unfold bq_to_recap.
  assert (A : (exists t, rbind (rmap bq_to_field (map big_reports fs)) (fun rs => Ok (TStruct c0 rs)) = Ok t)
    <-> exists rs, rmap bq_to_field (map big_reports fs) = Ok rs).
  { split; [intros (t & H)|intros (rs & ->); cbn; eauto]. destruct (rmap _ _); [eauto|discriminate]. }
  rewrite A, rmap_ok, Forall_map. unfold all_fields in *. rewrite !Forall_forall in *.
  split; intros H [[[[n m] dc] df] t] I; specialize (L _ I); specialize (H _ I); cbn in *; eapply big_readable_iff; eauto.
Qed.

(** ** Values that are lost *)
(** The letter e with an acute accent, n times. *)
Fixpoint accents (n : nat) : string := match n with O => "" | S m => String "195" (String "169" (accents m)) end.
Lemma accents_chars n : chars (accents n) = n /\ String.length (accents n) = 2 * n.
Proof. induction n as [|n [A B]]; [auto|]. cbn [accents chars String.length]. rewrite A, B. cbn. lia. Qed.
Theorem bigquery_lost :
  (forall n, 1 <= n -> exists s, big_leaf (BigString (Some n)) (DText s) /\ ~ big_leaf_covered (BigString (Some n)) (DText s)) /\
  (big_leaf BigTime (DClock (43200 * 10 ^ 6) 6) /\ ~ big_leaf_covered BigTime (DClock (43200 * 10 ^ 6) 6)) /\
  (forall b ty, exists v, big_leaf (BigNumeric b ty None) v /\ ~ big_leaf_covered (BigNumeric b ty None) v).
Proof.
  split; [|split].
  - intros n N. exists (accents n). destruct (accents_chars n) as [A B]. cbn [big_leaf big_leaf_covered]. split.
    + exists (accents n). split; auto. unfold text_within. lia.
    + lia.
  - split; [eexists; split; [reflexivity|lia]|]. cbn [big_leaf_covered]. lia.
  - intros b ty. destruct b.
    + exists (DNumber 1 38). split; [eexists; split; [reflexivity|lia]|]. cbn [big_leaf_covered]. intros (z & E). lia.
    + exists (DNumber 1 9). split; [eexists; split; [reflexivity|lia]|]. cbn [big_leaf_covered]. intros (z & E). lia.
Qed.
