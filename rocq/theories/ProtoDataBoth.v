(** The messages of a proto file are the values of the type read from it (proofs only). *)
From Coq Require Import String Ascii List NArith ZArith QArith Bool Lia.
From Verif Require Import PyVal PyValFacts RType Regex Registry RegistryFacts FromDict FromDictFacts RoundTrip Url Avro SpecAvro AvroProps JsonSchema
  SpecTypes SpecJson JsonProps DbapiFacts SpecDb SpecInstances SpecRows AvroData AvroDataBack
  Proto SpecProto ProtoRead ProtoFrame ProtoShape ProtoRefs ProtoOrder ProtoWrite SpecProtoData ProtoData ProtoDataReg.
Import ListNotations.
Open Scope nat_scope.
Open Scope string_scope.
Open Scope list_scope.

(** What the types of Recap can hold: 64 bits of nanoseconds, and texts of 2^31 bytes. *)
Definition int64 : Z -> Prop := int_range 64 true.
Definition recap_longest : Z := 2147483648.

Scheme data_ind3 := Minimality for data Sort Prop
  with value_ind3 := Minimality for value Sort Prop
  with fields_ind3 := Minimality for fields Sort Prop.
Combined Scheme data_value_fields from data_ind3, value_ind3, fields_ind3.

Section Scalars.
  Variable env : string -> rtype -> Prop.
  Lemma fits_longest n : fits (PInt 2147483648) (PBool true) n <-> (Z.of_nat n <= recap_longest)%Z.
  Proof. unfold fits, recap_longest. cbn [truthy]. tauto. Qed.
  Notation sdata := (scalar_data int64 recap_longest).
  Lemma int_values ty b s v : proto_range ty = Some (recap_range b s) ->
    ty <> "bool" -> ty <> "float" -> ty <> "double" -> ty <> "string" -> ty <> "bytes" -> ty <> "google.protobuf.Timestamp" ->
    ty <> "google.protobuf.NullValue" -> holds env (TInt c0 (PInt b) (PBool s)) v <-> sdata ty v.
  Proof.
    intros P N1 N2 N3 N4 N5 N6 N7. split; intros H.
    - inversion H as [| |? ? ? z L I|? ? ? u m n k z L|? ? ? u m n k z L|? ? ? n L| | | | | | | | | |]; subst; try discriminate.
      unfold recap_range in P. destruct s; eapply sd_int; eauto; unfold int_range in I; lia.
    - inversion H; subst; try congruence. constructor; [reflexivity|]. match goal with E : proto_range ty = Some _ |- _ => rewrite P in E end.
      unfold recap_range, int_range in *. destruct s; match goal with E : Some _ = Some _ |- _ => injection E as <- <- end; lia.
  Qed.
  Lemma scalar_values ty t v : pr_scalar ty = Some t -> holds env t v <-> sdata ty v.
  Proof.
    unfold pr_scalar. intros H.
    repeat (match type of H with (if String.eqb ty ?s then _ else _) = _ => destruct (String.eqb_spec ty s) as [->|_];
      [injection H as <-; try (apply int_values; [reflexivity|discriminate..])|] end); try discriminate.
    - split; intros H; inversion H; subst; try discriminate; constructor; now apply fits_longest.
    - split; intros H; inversion H; subst; try discriminate; constructor.
    - split; intros H; inversion H; subst; try discriminate; constructor; try reflexivity; now apply fits_longest.
    - split; intros H.
      + inversion H as [| | | | | |? ? q F| | | | | | | | |]; subst. destruct F as [[_ F]|[F _]]; [now constructor|discriminate].
      + inversion H; subst; try discriminate. constructor. left. auto.
    - split; intros H.
      + inversion H as [| | | | | |? ? q F| | | | | | | | |]; subst. destruct F as [[F _]|[_ F]]; [discriminate|now constructor].
      + inversion H; subst; try discriminate. constructor. right. auto.
    - split; intros H.
      + inversion H as [| |? ? ? z L I|? ? ? u m n k z L X T N I|? ? ? u m n k z L|? ? ? n L| | | | | | | | | |]; subst; try discriminate.
        injection X as <-. inversion T; subst. econstructor; eauto.
      + inversion H; subst; try discriminate. eapply h_instant with (m := 9%Z); try reflexivity; eauto. constructor.
    - split; intros H.
      + inversion H as [| |? ? ? z L I|? ? ? u m n k z L X T N I|? ? ? u m n k z L|? ? ? n L| | | | | | | | | |]; subst; discriminate.
      + inversion H; subst; discriminate.
    - split; intros H; inversion H; subst; try discriminate; constructor.
  Qed.
End Scalars.

Lemma scope_length p els q els' : scope p els q els' -> String.length p <= String.length q.
Proof. induction 1; auto. rewrite length_app_s. lia. Qed.
Lemma scope_below p els q els' n : scope p els q els' -> (q ++ "." ++ n)%string <> p.
Proof. intros S E. apply scope_length in S. apply (f_equal String.length) in E. rewrite length_app_s in E. cbn in E. lia. Qed.
Lemma scalar_none ty : ~ In ty proto_scalars -> pr_scalar ty = None.
Proof. intros N. destruct (pr_scalar ty) eqn:E; auto. now apply scalar_some in E. Qed.
Lemma none_scalar ty : pr_scalar ty = None -> ~ In ty proto_scalars.
Proof. intros E I. destruct (scalar_in _ I) as (t & E' & _). congruence. Qed.
Lemma sdata_in i n ty v : scalar_data i n ty v -> In ty proto_scalars.
Proof.
  destruct 1; try (cbn; tauto). unfold proto_range in H. cbn [existsb] in H.
  repeat match type of H with (if ?b then _ else _) = _ => destruct b eqn:?E; [|clear E] end; try discriminate;
  repeat match goal with E : (String.eqb ty ?s || _)%bool = true |- _ => destruct (String.eqb_spec ty s); [subst; cbn; tauto|cbn in E] end; discriminate.
Qed.

Lemma Forall2_of_nth {A B} (P : A -> B -> Prop) l : forall l', length l = length l' ->
  (forall i x y, nth_error l i = Some x -> nth_error l' i = Some y -> P x y) -> Forall2 P l l'.
Proof.
  induction l as [|a l IH]; intros [|b l'] L H; try discriminate; constructor; [apply (H 0); auto|]. apply IH; [now injection L|].
  intros i x y E1 E2. apply (H (S i)); auto.
Qed.

Section Both.
  Variables (p : string) (els : list element) (R : registry).
  Hypothesis ST : forall e d, In e els -> inner_of d e -> stands p R d.
  Hypothesis SN : simply_named p els.
  Let env : string -> rtype -> Prop := fun a u => dget a R = Some u.
  Notation data := (data int64 recap_longest p els).
  Notation value := (value int64 recap_longest p els).
  Notation fields := (fields int64 recap_longest p els).
  Notation fmeans := (fmeans p).
  Notation tmeans := (tmeans p).
  Notation means := (means p).

  Definition mentioned (q ty : string) : Prop := exists els' e, scope p els q els' /\ q <> p /\ In e els' /\ In ty (mentions e).
  Definition member_at (q : string) (e : element) : Prop := exists els', scope p els q els' /\ q <> p /\ In e els'.
  Lemma member_mentioned q e ty : member_at q e -> In ty (mentions e) -> mentioned q ty.
  Proof. intros (els' & S & N & I) J. exists els', e. auto. Qed.
  Lemma declared_stands a n d : declared_as p els a n d -> exists u, env (p ++ "." ++ n)%string u /\ means d u.
  Proof.
    intros (q & els' & S & I & -> & D). destruct (scope_inner p els q els' S d I) as (e & J & K).
    apply (ST e d J K). destruct D as [(m & ->)|(vs & ->)]; reflexivity.
  Qed.
  Lemma code_alias_of q ty a n d : mentioned q ty -> ~ In ty proto_scalars -> names p els ty q a -> declared_as p els a n d ->
    code_alias p ty = (p ++ "." ++ n)%string.
  Proof.
    intros (els' & e & S & N & I & J) NS NA DA. destruct (proj2 (SN q els' e ty S N I J NS) a n d NA DA) as [DL [->| ->]]; unfold code_alias.
    - now rewrite (dotless_in _ DL).
    - now rewrite dot_in.
  Qed.
  Lemma message_member a n m e : declared_as p els a n (EMessage n m) -> In e m -> member_at a e.
  Proof.
    intros (q & els' & S & I & -> & _) J. exists m. split; [econstructor; eauto|]. split; [eapply scope_below; eauto|auto].
  Qed.

  (** *** Messages are values *)
  Lemma scalar_holds ty t v : tmeans ty t -> In ty proto_scalars -> holds env t v <-> scalar_data int64 recap_longest ty v.
  Proof.
    intros [(t0 & c & E & -> & S)|(E & _)] I; [|now apply none_scalar in E]. rewrite <- (scalar_values env ty t0 v E). symmetry. apply same_set_c, S.
  Qed.
  Lemma row_holds c fs r : Forall2 (fun f nd => extra "name" f = Some (PStr (fst nd)) /\ holds env f (snd nd)) fs r -> holds env (TStruct c fs) (DRow r).
  Proof.
    intros F. apply h_struct; [now apply Forall2_len in F| |]; intros i f n d E1 E2; destruct (Forall2_nth _ _ _ F _ _ E2) as (f' & E & N & H);
      cbn [fst snd] in *; congruence.
  Qed.
  Lemma ref_holds q ty a n d t v : mentioned q ty -> ~ In ty proto_scalars -> names p els ty q a -> declared_as p els a n d ->
    tmeans ty t -> (forall u, means d u -> holds env u v) -> holds env t v.
  Proof.
    intros M NS NA DA [(t0 & c & E & _)|(E & c & o & -> & A)] H; [apply scalar_some in E; contradiction|].
    rewrite (code_alias_of _ _ _ _ _ M NS NA DA) in A. destruct (declared_stands _ _ _ DA) as (u & U & MU). eapply h_proxy; eauto.
  Qed.
  Lemma all_hold q :
    (forall ty v, data q ty v -> mentioned q ty -> forall t, tmeans ty t -> holds env t v) /\
    (forall e v, value q e v -> member_at q e -> forall t, fmeans e t -> holds env t v) /\
    (forall l r, fields q l r -> (forall e, In e l -> member_at q e) -> forall fs, Forall2 fmeans (filter is_member l) fs ->
       Forall2 (fun f nd => extra "name" f = Some (PStr (fst nd)) /\ holds env f (snd nd)) fs r).
  Proof.
    revert q. apply (data_value_fields int64 recap_longest p els
      (fun q ty v => mentioned q ty -> forall t, tmeans ty t -> holds env t v)
      (fun q e v => member_at q e -> forall t, fmeans e t -> holds env t v)
      (fun q l r => (forall e, In e l -> member_at q e) -> forall fs, Forall2 fmeans (filter is_member l) fs ->
         Forall2 (fun f nd => extra "name" f = Some (PStr (fst nd)) /\ holds env f (snd nd)) fs r)).
    - intros q ty v H M t T. apply (scalar_holds ty); auto. eapply sdata_in; eauto.
    - intros q ty a n m r NS NA DA _ IH M t T. eapply ref_holds; eauto. intros u (c & fs & -> & F).
      apply row_holds. apply IH; auto. intros e I. eapply message_member; eauto.
    - intros q ty a n vs s z NS NA DA I M t T. eapply ref_holds; eauto. intros u (c & ->). constructor.
      apply in_map_iff. exists (PStr s, z). auto.
    - intros q nm i ty c N M t T. cbn [ProtoDataReg.fmeans] in T. destruct T as [_ [[[->|[-> NR]] V]|[_ (k & k' & x & -> & V)]]]; [congruence| |].
      + apply (scalar_holds "google.protobuf.NullValue"); [destruct c as [[| |]|]; try congruence; exact V|cbn; tauto|constructor].
      + eapply h_union; [now left|constructor].
    - intros q nm i ty c v N _ IH M t T. assert (MT : mentioned q ty) by (eapply member_mentioned; eauto; now left). cbn [ProtoDataReg.fmeans] in T.
      destruct T as [_ [[_ V]|[_ (k & k' & x & -> & V)]]].
      + apply IH; auto. destruct c as [[| |]|]; try congruence; exact V.
      + eapply h_union; [right; now left|]. apply IH; auto. destruct c as [[| |]|]; try congruence; exact V.
    - intros q nm i ty l _ IH M t T. assert (MT : mentioned q ty) by (eapply member_mentioned; eauto; now left). cbn [ProtoDataReg.fmeans] in T.
      destruct T as [_ [[[T|[_ T]] V]|[_ (k & k' & x & -> & V)]]]; [discriminate|congruence|]. cbn [vmeans] in V. destruct V as (k0 & y & -> & V).
      eapply h_union; [right; now left|]. constructor; [exact Logic.I|]. intros z I. now apply IH.
    - intros q nm i k t M t0 (_ & k1 & k2 & k3 & x & y & -> & _). eapply h_union; [now left|constructor].
    - intros q nm i k t l _ IH1 _ IH2 M t0 (_ & k1 & k2 & k3 & x & y & -> & TX & TY). eapply h_union; [right; now left|].
      constructor; intros a b I; [eapply IH1|eapply IH2]; eauto; (eapply member_mentioned; eauto; cbn; auto).
    - intros q nm l M t (_ & k & k' & ts & -> & _). eapply h_union; [now left|constructor].
    - intros q nm l m i ty c v I _ IH M t (_ & k & k' & ts & -> & F).
      assert (J : In (EField m i ty c) (filter is_field l)) by (apply filter_In; auto).
      destruct (Forall2_in _ _ _ F _ J) as (x & IX & T). eapply h_union; [right; eauto|]. apply IH; auto.
      eapply member_mentioned; eauto. cbn. apply in_flat_map. exists (EField m i ty c). split; auto. now left.
    - intros q M fs F. inversion F; subst. constructor.
    - intros q e l r N _ IH M fs F. cbn [filter] in F. rewrite N in F. apply IH; auto. intros e' I. apply M. now right.
    - intros q e l n v r N _ IHV _ IH M fs F. cbn [filter] in F.
      assert (ME : is_member e = true) by (destruct e; try discriminate; reflexivity). rewrite ME in F. inversion F as [|? f ? fs' FE F']; subst.
      constructor; [|apply IH; auto; intros e' I; apply M; now right]. cbn [fst snd]. split; [|apply IHV; auto; apply M; now left].
      unfold extra. destruct e; cbn in N; try discriminate; injection N as ->; cbn in FE; destruct FE as [FE _]; try exact FE. now apply FE.
  Qed.

  (** *** Values are messages *)
  Record told_of (t : rtype) (v : datum) : Prop := {
    to_type : forall q ty, mentioned q ty -> tmeans ty t -> data q ty v;
    to_value : forall q nm i ty c, mentioned q ty -> vmeans p ty c t -> value q (EField nm i ty c) v;
    to_map : forall q nm i kt vt k x y, mentioned q kt -> mentioned q vt -> t = TMap k x y -> tmeans kt x -> tmeans vt y ->
      value q (EMapField nm i kt vt) v;
    to_field : forall q e, member_at q e -> fmeans e t -> value q e v;
    to_row : forall q n m, scope p els q m -> q <> p -> means (EMessage n m) t -> exists r, v = DRow r /\ fields q m r;
    to_symbol : forall n vs, means (EEnum n vs) t -> exists s z, v = DText s /\ In (PStr s, z) vs
  }.
  Lemma field_told t v q e : (forall q nm i ty c, mentioned q ty -> vmeans p ty c t -> value q (EField nm i ty c) v) ->
    (forall k ts, t = TUnion k ts -> exists x, In x ts /\ holds env x v /\ told_of x v) -> member_at q e -> fmeans e t -> value q e v.
  Proof.
    intros V U M F. destruct e as [nm i ty c|nm i kt vt|nm l|n m|n vs|]; cbn [ProtoDataReg.fmeans] in F; try contradiction.
    - assert (MT : mentioned q ty) by (eapply member_mentioned; eauto; now left).
      destruct F as [_ [[_ F]|[N (k & k' & x & -> & F)]]]; [now apply V|]. destruct (U _ _ eq_refl) as (y & I & H & T).
      destruct I as [<-|[<-|[]]]; [inversion H; subst; now constructor|]. now apply (to_value _ _ T).
    - assert (MK : mentioned q kt) by (eapply member_mentioned; eauto; cbn; auto).
      assert (MV : mentioned q vt) by (eapply member_mentioned; eauto; cbn; auto).
      destruct F as [_ (k & k0 & k' & x & y & -> & FX & FY)]. destruct (U _ _ eq_refl) as (z & I & H & T).
      destruct I as [<-|[<-|[]]]; [inversion H; subst; constructor|]. eapply (to_map _ _ T); eauto.
    - destruct F as [_ (k & k' & ts & -> & F)]. destruct (U _ _ eq_refl) as (z & I & H & T).
      destruct I as [<-|I]; [inversion H; subst; constructor|].
      assert (X : exists e, In e (filter is_field l) /\ match e with EField _ _ ty _ => tmeans ty z | _ => False end).
      { clear - F I. induction F as [|e y l' ts HE F IH]; [destruct I|]. destruct I as [<-|I]; [exists e; split; [now left|auto]|].
        destruct (IH I) as (e' & J & Q). exists e'. split; [now right|auto]. }
      destruct X as (e & J & Q). apply filter_In in J as [J _]. destruct e as [m i ty c| | | | |]; try contradiction.
      eapply v_one; eauto. apply (to_type _ _ T); auto. eapply member_mentioned; eauto. cbn. apply in_flat_map. exists (EField m i ty c). split; auto. now left.
  Qed.
  Lemma leaf_told t v : children t = [] -> is_proxy t = false -> (forall c fs, t <> TStruct c fs) -> (forall c s, t <> TEnum c s) -> (forall c ts, t <> TUnion c ts) ->
    holds env t v -> told_of t v.
  Proof.
    intros C P NS NE NU H.
    assert (T1 : forall q ty, mentioned q ty -> tmeans ty t -> data q ty v).
    { intros q ty _ T. destruct T as [(t0 & c & E & -> & S)|(E & c & o & -> & A)]; [|discriminate].
      apply d_scalar. apply scalar_some in E as I. eapply scalar_holds; eauto. left. eauto. }
    assert (T2 : forall q nm i ty c, mentioned q ty -> vmeans p ty c t -> value q (EField nm i ty c) v).
    { intros q nm i ty c M V. destruct c as [[| |]|]; cbn [vmeans] in V; try (apply v_single; [discriminate|auto]).
      destruct V as (k & x & -> & _). discriminate. }
    split; auto.
    - intros; subst. discriminate.
    - intros q e M F. eapply field_told; eauto. intros k ts ->. now elim (NU k ts).
    - intros q n m _ _ (c & fs & -> & _). now elim (NS c fs).
    - intros n vs (c & ->). now elim (NE c (PList (map fst vs))).
  Qed.
  Lemma fields_told q l fs r : (forall e, In e l -> member_at q e) -> Forall2 fmeans (filter is_member l) fs ->
    Forall2 (fun f nd => extra "name" f = Some (PStr (fst nd)) /\ told_of f (snd nd)) fs r -> fields q l r.
  Proof.
    intros M F. remember (filter is_member l) as l' eqn:L. revert l L M r. induction F as [|e f l' fs FE F IH]; intros l L M r H.
    - inversion H; subst. clear H. induction l as [|x l IHl]; [constructor|]. cbn [filter] in L. destruct (is_member x) eqn:X; [discriminate|].
      apply f_skip; auto. apply IHl; auto. intros e I. apply M. now right.
    - inversion H as [|? [n d] ? r' [N T] H']; subst. clear H. cbn [fst snd] in *.
      induction l as [|x l IHl]; [discriminate|]. cbn [filter] in L. destruct (is_member x) eqn:X.
      + injection L as <- ->. apply f_cons.
        * unfold extra in N. destruct e; cbn [ProtoDataReg.fmeans is_member] in FE, X; try discriminate; destruct FE as [FN _]; cbn; unfold has_name in FN; try congruence.
          f_equal. now apply FN.
        * apply (to_field _ _ T); auto. apply M. now left.
        * apply IH; auto. intros e' I. apply M. now right.
      + apply f_skip; auto. apply IHl; auto. intros e' I. apply M. now right.
  Qed.
  Lemma all_told t v : holds env t v -> told_of t v.
  Proof.
    induction 1; try (apply leaf_told; [reflexivity|reflexivity|discriminate|discriminate|discriminate|econstructor; eauto; fail]).
    - (* a list *)
      assert (T1 : forall q ty, mentioned q ty -> tmeans ty (TList c t n va) -> data q ty (DList l)).
      { intros q ty _ [(t0 & c' & E & X & S)|(E & c' & o & X & A)]; [|discriminate]. apply scalar_some in E as I.
        destruct (scalar_in _ I) as (u & E' & _ & C & _). rewrite E in E'. injection E' as <-. destruct t0; try discriminate. }
      assert (T2 : forall q nm i ty c', mentioned q ty -> vmeans p ty c' (TList c t n va) -> value q (EField nm i ty c') (DList l)).
      { intros q nm i ty c' M V. destruct c' as [[| |]|]; cbn [vmeans] in V; try (apply v_single; [discriminate|auto]).
        destruct V as (k & x & [= <- <- -> ->] & V). apply v_repeated. intros v I. now apply (to_type _ _ (H1 _ I)). }
      split; auto; try discriminate.
      + intros q e M F. eapply field_told; eauto. discriminate.
      + intros q n' m _ _ (c' & fs & X & _). discriminate.
      + intros n' vs (c' & X). discriminate.
    - (* a map *)
      assert (T1 : forall q ty, mentioned q ty -> tmeans ty (TMap c k t) -> data q ty (DMap l)).
      { intros q ty _ [(t0 & c' & E & X & S)|(E & c' & o & X & A)]; [|discriminate]. apply scalar_some in E as I.
        destruct (scalar_in _ I) as (u & E' & _ & C & _). rewrite E in E'. injection E' as <-. destruct t0; try discriminate. }
      assert (T2 : forall q nm i ty c', mentioned q ty -> vmeans p ty c' (TMap c k t) -> value q (EField nm i ty c') (DMap l)).
      { intros q nm i ty c' M V. destruct c' as [[| |]|]; cbn [vmeans] in V; try (apply v_single; [discriminate|auto]).
        destruct V as (k' & x & X & V). discriminate. }
      split; auto.
      + intros q nm i kt vt k' x y MK MV [= <- <- <-] TK TV. apply v_map; intros a b I.
        * now apply (to_type _ _ (H0 _ _ I)).
        * now apply (to_type _ _ (H2 _ _ I)).
      + intros q e M F. eapply field_told; eauto. discriminate.
      + intros q n' m _ _ (c' & fs & X & _). discriminate.
      + intros n' vs (c' & X). discriminate.
    - (* a struct *)
      assert (T1 : forall q ty, mentioned q ty -> tmeans ty (TStruct c fs) -> data q ty (DRow l)).
      { intros q ty _ [(t0 & c' & E & X & S)|(E & c' & o & X & A)]; [|discriminate]. destruct t0; try discriminate.
        clear - E. exfalso. unfold pr_scalar in E. repeat (match type of E with (if ?b then _ else _) = _ => destruct b; [discriminate|] end). discriminate. }
      assert (T2 : forall q nm i ty c', mentioned q ty -> vmeans p ty c' (TStruct c fs) -> value q (EField nm i ty c') (DRow l)).
      { intros q nm i ty c' M V. destruct c' as [[| |]|]; cbn [vmeans] in V; try (apply v_single; [discriminate|auto]).
        destruct V as (k' & x & X & V). discriminate. }
      split; auto; try discriminate.
      + intros q e M F. eapply field_told; eauto. discriminate.
      + intros q n' m S NP (c' & fs' & [= <- <-] & F). exists l. split; auto. apply (fields_told q m fs l); auto.
        * intros e I. exists m. auto.
        * clear - H H0 H2. apply Forall2_of_nth; auto. intros i f [n d] E1 E2. cbn [fst snd]. split; eauto.
      + intros n' vs (c' & X). discriminate.
    - (* an enum *)
      assert (T1 : forall q ty, mentioned q ty -> tmeans ty (TEnum c (PList l)) -> data q ty (DText s)).
      { intros q ty _ [(t0 & c' & E & X & S)|(E & c' & o & X & A)]; [|discriminate]. destruct t0; try discriminate.
        clear - E. exfalso. unfold pr_scalar in E. repeat (match type of E with (if ?b then _ else _) = _ => destruct b; [discriminate|] end). discriminate. }
      assert (T2 : forall q nm i ty c', mentioned q ty -> vmeans p ty c' (TEnum c (PList l)) -> value q (EField nm i ty c') (DText s)).
      { intros q nm i ty c' M V. destruct c' as [[| |]|]; cbn [vmeans] in V; try (apply v_single; [discriminate|auto]).
        destruct V as (k' & x & X & V). discriminate. }
      split; auto; try discriminate.
      + intros q e M F. eapply field_told; eauto. discriminate.
      + intros q n' m _ _ (c' & fs & X & _). discriminate.
      + intros n' vs (c' & [= _ ->]). apply in_map_iff in H as ([x z] & E & I). cbn in E. subst x. eauto.
    - (* a union *)
      assert (T1 : forall q ty, mentioned q ty -> tmeans ty (TUnion c ts) -> data q ty d).
      { intros q ty _ [(t0 & c' & E & X & S)|(E & c' & o & X & A)]; [|discriminate]. destruct t0; try discriminate.
        clear - E. exfalso. unfold pr_scalar in E. repeat (match type of E with (if ?b then _ else _) = _ => destruct b; [discriminate|] end). discriminate. }
      assert (T2 : forall q nm i ty c', mentioned q ty -> vmeans p ty c' (TUnion c ts) -> value q (EField nm i ty c') d).
      { intros q nm i ty c' M V. destruct c' as [[| |]|]; cbn [vmeans] in V; try (apply v_single; [discriminate|auto]).
        destruct V as (k' & x & X & V). discriminate. }
      split; auto; try discriminate.
      + intros q e M F. eapply field_told; eauto. intros k ts' [= <- <-]. exists t. auto.
      + intros q n' m _ _ (c' & fs & X & _). discriminate.
      + intros n' vs (c' & X). discriminate.
    - (* a reference *)
      assert (T1 : forall q ty, mentioned q ty -> tmeans ty (TProxy c rg) -> data q ty d).
      { intros q ty M [(t0 & c' & E & X & S)|(E & c' & o & X & A)].
        - apply scalar_some in E as I. destruct (scalar_in _ I) as (u & E' & _ & _ & _ & P). rewrite E in E'. injection E' as <-. now destruct t0.
        - injection X as <- <-. apply none_scalar in E as NS. destruct M as (els' & e & S & NP & I & J).
          destruct (proj1 (SN q els' e ty S NP I J NS)) as (a0 & NA).
          assert (DC : is_declared p els a0) by (clear - NA; induction NA; auto).
          destruct DC as (n & dd & DA). assert (MT : mentioned q ty) by (exists els', e; auto).
          rewrite (code_alias_of _ _ _ _ _ MT NS NA DA) in A. assert (a = (p ++ "." ++ n)%string) by congruence. subst a.
          destruct (declared_stands _ _ _ DA) as (u & U & MU). assert (t = u) by (unfold env in *; congruence). subst u.
          pose proof DA as (q0 & els0 & S0 & I0 & E0 & [(m & ->)|(vs & ->)]).
          + destruct (to_row _ _ IHholds a0 n m) as (r & -> & FR); auto; [rewrite E0; econstructor; eauto|rewrite E0; eapply scope_below; eauto|].
            eapply d_message; eauto.
          + destruct (to_symbol _ _ IHholds n vs) as (s & z & -> & IS); auto. eapply d_enum; eauto. }
      assert (T2 : forall q nm i ty c', mentioned q ty -> vmeans p ty c' (TProxy c rg) -> value q (EField nm i ty c') d).
      { intros q nm i ty c' M V. destruct c' as [[| |]|]; cbn [vmeans] in V; try (apply v_single; [discriminate|auto]).
        destruct V as (k' & x & X & V). discriminate. }
      split; auto; try discriminate.
      + intros q e M F. eapply field_told; eauto. discriminate.
      + intros q n' m _ _ (c' & fs & X & _). discriminate.
      + intros n' vs (c' & X). discriminate.
  Qed.
End Both.

(** ** The file as a whole *)
Lemma data_mono (i i' : Z -> Prop) n n' p els : (forall z, i z -> i' z) -> (n <= n')%Z -> forall q,
  (forall ty v, data i n p els q ty v -> data i' n' p els q ty v) /\
  (forall e v, value i n p els q e v -> value i' n' p els q e v) /\
  (forall l r, fields i n p els q l r -> fields i' n' p els q l r).
Proof.
  intros I N. apply (data_value_fields i n p els (fun q ty v => data i' n' p els q ty v) (fun q e v => value i' n' p els q e v)
    (fun q l r => fields i' n' p els q l r)); intros; try (econstructor; eauto; fail).
  constructor. destruct H; try (econstructor; eauto; fail); constructor; lia.
Qed.
Lemma message_mono (i i' : Z -> Prop) n n' p els v : (forall z, i z -> i' z) -> (n <= n')%Z -> message i n p els v -> message i' n' p els v.
Proof.
  intros I N (m & b & r & F & -> & D). exists m, b, r. split; auto. split; auto. now apply (proj2 (proj2 (data_mono i i' n n' p els I N (p ++ "." ++ m)%string))).
Qed.
Lemma first_in els n m : first_message els = Some (n, m) -> In (EMessage n m) els.
Proof. induction els as [|x els IH]; [discriminate|]. cbn. destruct x; auto. intros [= <- <-]. now left. Qed.

Theorem file_values l p s t : reached s -> first_package l = Some p -> simply_named p (body l) -> snd (pr_to l s) = Ok t ->
  forall v, holds (fun a u => dget a (reg (fst (pr_to l s))) = Some u) t v <-> message int64 recap_longest p (body l) v.
Proof.
  intros RS P SN H v. pose proof (parse_sound l s (reached_good s RS)) as [GR W]. unfold pr_to in *. rewrite (parse_packaged l p s P) in *.
  destruct (pr_elements (Some p) l None (reg s)) as [R1 [[t0|]|e]] eqn:E; cbn [fst snd reg] in *; try discriminate.
  apply rbind_Ok in H as (t1 & RE & H). assert (t1 = t) by (destruct t1; try discriminate; congruence). subst t1. clear H.
  destruct (W t0 eq_refl) as [RW PW].
  assert (SM : same (fun a u => dget a R1 = Some u) t0 t) by (apply resolve_same; auto; now apply raw_good).
  rewrite <- (SM v). clear SM RE.
  destruct (elements_root p l _ _ _ _ E) as [X|(_ & n & els & R0 & R2 & FM & PM)]; [discriminate|].
  apply message_stands in PM as [_ (c & fs & -> & F)].
  assert (ST : forall e d, In e (body l) -> inner_of d e -> stands p R1 d) by (eapply elements_stand; eauto).
  assert (SC : scope p (body l) (p ++ "." ++ n)%string els) by (eapply scope_in; [constructor|now apply first_in]).
  assert (NP : (p ++ "." ++ n)%string <> p) by (apply (scope_below p (body l) p (body l)); constructor).
  split.
  - intros HO. destruct (to_row _ _ _ _ (all_told p (body l) R1 ST SN _ _ HO) _ n els SC NP) as (r & -> & D); [exists c, fs; auto|].
    exists n, els, r. auto.
  - intros (n' & m' & r & FM' & -> & D). rewrite FM in FM'. injection FM' as <- <-. apply (row_holds R1).
    refine (proj2 (proj2 (all_hold p (body l) R1 ST SN (p ++ "." ++ n)%string)) els r D _ fs F). intros e I. exists els. auto.
Qed.

Lemma instant64 z : int64 z -> proto_instant z.
Proof. unfold int64, int_range, proto_instant. lia. Qed.
(** C119 *)
Theorem messages_are_values l p s t v : reached s -> first_package l = Some p -> simply_named p (body l) -> snd (pr_to l s) = Ok t ->
  message (fun z => proto_instant z /\ int_range 64 true z) (2 ^ 31 - 1) p (body l) v ->
  holds (fun a u => dget a (reg (fst (pr_to l s))) = Some u) t v.
Proof.
  intros RS P SN H M. eapply file_values; eauto. revert M. apply message_mono; [now intros z []|]. unfold recap_longest. lia.
Qed.
(** C120 *)
Theorem values_are_messages l p s t v : reached s -> first_package l = Some p -> simply_named p (body l) -> snd (pr_to l s) = Ok t ->
  holds (fun a u => dget a (reg (fst (pr_to l s))) = Some u) t v -> message proto_instant (2 ^ 31) p (body l) v.
Proof.
  intros RS P SN H M. eapply file_values in M; eauto. revert M. apply message_mono; [apply instant64|]. unfold recap_longest. lia.
Qed.

(** ** References by simple names *)
Lemma names_cases p els ty q a : names p els ty q a -> (exists q', a = (q' ++ "." ++ ty)%string) \/ a = ty \/ ty = ("." ++ a)%string.
Proof. induction 1; eauto. Qed.
Lemma simple_reference p els ty q a n d : dotless ty -> dotless n -> names p els ty q a -> declared_as p els a n d -> ty = n.
Proof.
  intros DT DN NA (q0 & els' & S & I & -> & _). apply names_cases in NA as [(q' & E)|[E|E]].
  - assert (X : rsplit_dot (q0 ++ "." ++ n)%string = rsplit_dot (q' ++ "." ++ ty)%string) by congruence. rewrite !rsplit_app in X by auto. congruence.
  - now elim (DT q0 n).
  - now elim (DT "" (q0 ++ "." ++ n)%string).
Qed.
