(** Proofs for C130: which objects the JSON schemas of BigQuery and Hive tables accept. *)
From Coq Require Import String Ascii List NArith ZArith QArith Bool Lia.
From Verif Require RowHive JsonProps.
From Verif Require Import PyVal PyValFacts RType Registry FromDict FromDictFacts SpecTypes Nullable NullableFacts Url Dbapi SpecDb DbapiFacts
  BigQuery SpecBigQuery BigQueryFacts Hive SpecHive HiveFacts JsonSchema SpecJson JsonWrite SpecInstances JsonAccepts JsonValues JsonMeans JsonFits SpecReprint JsonAgain
  SpecPrinted Commands Printed PrintedFormats TableJson ArrayJson SpecRows SpecTableJson SpecNested SpecNestedJson.
Import ListNotations.
Open Scope nat_scope.
Open Scope string_scope.
Open Scope list_scope.

Lemma null_type ty : has_type PNone ty -> ty = "null".
Proof. intros T. inversion T; subst; auto; try discriminate; match goal with H : number _ _ |- _ => inversion H end. Qed.

(** ** Types without aliases, references, enumerations and proper unions *)
Definition tidy (t : rtype) : Prop :=
  c_alias (get_c t) = PNone /\
  match t with
  | TProxy _ _ | TEnum _ _ => False
  | TUnion c ts => optional_union t \/ is_optional c ts = false /\ Forall (fun x => JsonFits.flat x <> None /\ c_alias (get_c x) = PNone) ts
  | TStruct _ fs => exists ns, Forall2 SpecJson.named fs ns /\ NoDup ns
  | _ => True
  end.
Inductive jfits : rtype -> pyval -> Prop :=
| jf_flat t ty v : flat t = Some ty -> has_type v ty -> jfits t v
| jf_list c t n va l : (forall x, In x l -> jfits t x) -> jfits (TList c t n va) (PList l)
| jf_map c k t o : (forall n x, dget n o = Some x -> jfits t x) -> jfits (TMap c k t) (PDict o)
| jf_struct c fs o : (forall f n, In f fs -> SpecJson.named f n -> js_required f = true -> dget n o <> None) ->
    (forall f n x, In f fs -> SpecJson.named f n -> dget n o = Some x -> jfits f x) -> jfits (TStruct c fs) (PDict o)
| jf_union c ts x v : is_optional c ts = true -> In x ts -> is_null x = false -> jfits x v -> jfits (TUnion c ts) v
| jf_one c l1 x l2 ty v : is_optional c (l1 ++ x :: l2) = false -> JsonFits.flat x = Some ty -> has_type v ty ->
    (forall y ty', In y (l1 ++ l2) -> JsonFits.flat y = Some ty' -> ~ has_type v ty') -> jfits (TUnion c (l1 ++ x :: l2)) v.

Lemma kw_is_additional doc d s v : keyword doc d "additionalProperties" s v ->
  forall o k x, v = PDict o -> dget k o = Some x -> ~ named_property d k -> accepts doc s x.
Proof. intros K. inversion K; subst; eauto; try (match goal with H : _ \/ _ |- _ => destruct H; discriminate end). exfalso. match goal with X : ~ In _ keywords |- _ => apply X end. cbn. tauto. Qed.
Lemma map_iff doc d s v : dget "type" d = Some (PStr "object") -> dget "additionalProperties" d = Some s -> no_more ["type"; "additionalProperties"] d ->
  (accepts doc (PDict d) v <-> exists o, v = PDict o /\ forall n x, dget n o = Some x -> accepts doc s x).
Proof.
  intros T I O.
  assert (NP : forall k, ~ named_property d k).
  { intros k (ps & s' & P & _). assert (J : In "properties" ["type"; "additionalProperties"]) by (apply O; [cbn; auto|congruence]). cbn in J. intuition discriminate. }
  split.
  - intros A. pose proof (kw_is_type _ _ _ _ (kw_get _ _ _ _ _ A T)) as HT. inversion HT; subst.
    exists o. split; auto. intros n x G. exact (kw_is_additional _ _ _ _ (kw_get _ _ _ _ _ A I) o n x eq_refl G (NP n)).
  - intros (o & -> & H). constructor. intros k x G. destruct (in_dec string_dec k keywords) as [K|K]; [|now apply kw_other].
    assert (J : In k ["type"; "additionalProperties"]) by (apply O; congruence). destruct J as [<-|[<-|[]]].
    + rewrite T in G. injection G as <-. apply kw_type. econstructor; reflexivity.
    + rewrite I in G. injection G as <-. apply kw_additional. intros o' m y [= <-] Y _. eauto.
Qed.
Lemma named_unique f n m : SpecJson.named f n -> SpecJson.named f m -> n = m.
Proof. intros [A _] [B _]. congruence. Qed.
Lemma names_unique fs ns ns' : Forall2 SpecJson.named fs ns -> Forall2 SpecJson.named fs ns' -> ns = ns'.
Proof. intros A. revert ns'. induction A; intros ns' B; inversion B; subst; auto. f_equal; eauto using named_unique. Qed.
Lemma not_aliased_none t : c_alias (get_c t) = PNone -> not_aliased t.
Proof. intros E a X. congruence. Qed.
Lemma in_combine_at {A B} (l : list A) (m : list B) x P : Forall2 P l m -> In x l -> exists y, In (x, y) (combine l m) /\ P x y.
Proof. induction 1; cbn; [intros []|]. intros [<-|I]; eauto. destruct IHForall2 as (y' & J & Q); auto. exists y'. auto. Qed.

Lemma flat_case doc R n u t d ty x : JsonFits.flat t = Some ty -> c_alias (get_c t) = PNone -> js_field_f n R u t = Ok d ->
  (accepts doc (PDict d) x <-> jfits t x).
Proof.
  intros F A H. destruct (field_node _ _ _ _ _ H (or_intror (or_introl (not_aliased_none _ A)))) as (prox & N & _).
  destruct (flat_no_more _ _ _ _ _ _ F N) as [T1 T2]. rewrite (type_iff _ _ _ _ T1 T2). split; [intros; eapply jf_flat; eauto|].
  intros J. inversion J; subst; try discriminate F. congruence.
Qed.
Lemma two_more (a b : string) (x y : pyval) t : a <> b -> In a keywords -> In b keywords ->
  let e := dupd (js_labels t) [(a, x); (b, y)] in dget a e = Some x /\ dget b e = Some y /\ no_more [a; b] e.
Proof.
  intros AB Ka Kb e. assert (ND : NoDup (dkeys [(a, x); (b, y)])) by (cbn; repeat constructor; cbn; intuition congruence).
  assert (G : forall k, In k keywords -> dget k e = dget k [(a, x); (b, y)]).
  { intros k K. unfold e. apply dget_labelled; auto; intros ->; cbn in K; intuition discriminate. }
  split; [rewrite G by auto; cbn; now rewrite String.eqb_refl|]. split.
  - rewrite G by auto. cbn. destruct (String.eqb b a) eqn:E; [apply String.eqb_eq in E; congruence|now rewrite String.eqb_refl].
  - intros k K NN. rewrite G in NN by auto. cbn in NN. destruct (String.eqb_spec k a) as [->|]; [now left|].
    destruct (String.eqb_spec k b) as [->|]; [right; now left|]. congruence.
Qed.
Lemma optional_is c ts : optional_union (TUnion c ts) -> is_optional c ts = true.
Proof. intros O. apply required_iff in O. cbn [js_required] in O. now apply negb_false_iff in O. Qed.

Lemma type_rejects doc e ty v : dget "type" e = Some (PStr ty) -> no_more ["type"] e -> rejects doc (PDict e) v -> ~ has_type v ty.
Proof.
  intros TY NM RJ. inversion RJ as [|? k s ? G RF]; subst.
  assert (K : In k keywords) by (inversion RF as [| | | | | | | | |? ? ? ? ? [E|E]]; subst; cbn; tauto).
  destruct (NM k K) as [<-|[]]; [congruence|]. rewrite TY in G. injection G as <-. inversion RF; subst; auto;
    match goal with X : _ \/ _ |- _ => destruct X; discriminate | _ => idtac end.
Qed.
Lemma one_iff doc R n c ts prox d v : is_optional c ts = false -> Forall (fun x => JsonFits.flat x <> None /\ c_alias (get_c x) = PNone) ts ->
  node prox (js_field_f n R true) R (TUnion c ts) = Ok d -> (accepts doc (PDict d) v <-> jfits (TUnion c ts) v).
Proof.
  intros OP FL N. cbn [node] in N. rewrite OP in N. apply rbind_Ok in N as (ds & E & N).
  assert (d = dupd (js_labels (TUnion c ts)) [("oneOf", PList ds)]) as -> by congruence. clear N.
  rewrite <- labels_iff by (cbn; repeat constructor; auto). apply JsonProps.all_refs in E.
  assert (M : Forall2 (fun t w => exists ty e, JsonFits.flat t = Some ty /\ w = PDict e /\ dget "type" e = Some (PStr ty) /\ no_more ["type"] e) ts ds).
  { clear OP. induction E as [|t w ts ds (e & X & ->) E IH]; [constructor|]. inversion FL as [|? ? [F A] FL']; subst. constructor; auto.
    destruct (JsonFits.flat t) as [ty|] eqn:FT; [|congruence]. exists ty, e. split; auto. split; auto.
    apply field_node in X as (prox' & X & _); [|right; left; now apply not_aliased_none]. eapply flat_no_more; eauto. }
  clear E FL. split.
  - intros A. eapply acc_get with (k := "oneOf") in A; [|reflexivity]. inversion A as [| | | | | | |? l1 s l2 ? As Rs| |]; subst;
      try (match goal with X : _ \/ _ |- _ => destruct X; discriminate end); try (exfalso; match goal with X : ~ In _ keywords |- _ => apply X; cbn; tauto end).
    apply Forall2_app_inv_r in M as (t1 & t2' & F1 & F2 & ->). inversion F2 as [|x ? t2 ? (ty & e & FX & -> & TY & NM) F2']; subst.
    apply jf_one with ty; auto; [now apply (type_iff doc e ty v TY NM)|].
    intros y ty' I FY HT. pose proof (Forall2_app F1 F2') as FA. clear -FA I FY HT Rs.
    assert (exists w, In w (l1 ++ l2) /\ exists ty e, JsonFits.flat y = Some ty /\ w = PDict e /\ dget "type" e = Some (PStr ty) /\ no_more ["type"] e) as (w & IW & ty & e & F & -> & TY & NM).
    { clear Rs. induction FA; [destruct I|]. destruct I as [->|I]; [eexists; split; [now left|eassumption]|]. destruct (IHFA I) as (w & IW & P). exists w. split; [now right|exact P]. }
    apply (type_rejects doc e ty v TY NM); [now apply Rs|congruence].
  - intros J. inversion J as [? ? ? F| | | |? ? ? ? OP'|? l1 x l2 ty ? _ FX HT ALL]; subst; [discriminate F|congruence|].
    apply Forall2_app_inv_l in M as (d1 & d2' & F1 & F2 & ->). inversion F2 as [|? ? ? d2 (ty' & e & FX' & -> & TY & NM) F2']; subst.
    assert (ty' = ty) as -> by congruence. constructor. intros k y G. cbn in G. destruct (String.eqb k "oneOf") eqn:K; [|discriminate].
    apply String.eqb_eq in K. subst k. injection G as <-. apply kw_one; [now apply (type_iff doc e ty v TY NM)|].
    intros w IW. pose proof (Forall2_app F1 F2') as FA. clear -FA IW ALL. induction FA as [|y w' ts ws (ty & e & F & -> & TY & NM) FA IH]; [destruct IW|].
    destruct IW as [<-|IW]; [|apply IH; auto; intros z tz I; apply ALL; now right]. eapply rej_type; [|exact TY]. apply (ALL y); auto. now left.
Qed.
Lemma tidy_iff doc R : forall t, every tidy t -> forall n u d, js_field_f n R u t = Ok d -> forall x, accepts doc (PDict d) x <-> jfits t x.
Proof.
  induction t using rtype_ind'; intros E n u d H0 x; apply every_iff in E as [[A T] E]; cbn [children] in E;
    try (eapply flat_case; eauto; reflexivity);
    pose proof (field_node _ _ _ _ _ H0 (or_intror (or_introl (not_aliased_none _ A)))) as (prox & N & _); cbn [node] in N.
  - apply rbind_Ok in N as (e & E1 & N). assert (HD : d = dupd (js_labels (TList c t l r)) [("type", PStr "array"); ("items", PDict e)]) by congruence. subst d.
    inversion E as [|? ? Et _]; subst.
    destruct (two_more "type" "items" (PStr "array") (PDict e) (TList c t l r)) as (X1 & X2 & X3); [discriminate|cbn; auto 10|cbn; auto 10|].
    rewrite (array_iff _ _ _ _ X1 X2 X3). split.
    + intros (l' & -> & AL). constructor. intros y Y. eapply IHt; eauto.
    + intros J. inversion J as [? ? ? F|? ? ? ? l' AL| | | |]; subst; [discriminate F|]. exists l'. split; auto. intros y Y. eapply IHt; eauto.
  - apply rbind_Ok in N as (e & E1 & N). assert (HD : d = dupd (js_labels (TMap c t1 t2)) [("type", PStr "object"); ("additionalProperties", PDict e)]) by congruence. subst d.
    inversion E as [|? ? _ E2]; inversion E2 as [|? ? Et _]; subst.
    destruct (two_more "type" "additionalProperties" (PStr "object") (PDict e) (TMap c t1 t2)) as (X1 & X2 & X3); [discriminate|cbn; auto 10|cbn; auto 10|].
    rewrite (map_iff _ _ _ _ X1 X2 X3). split.
    + intros (o & -> & AL). constructor. intros m y Y. eapply IHt2; eauto.
    + intros J. inversion J as [? ? ? F| |? ? ? o AL| | |]; subst; [discriminate F|]. exists o. split; auto. intros m y Y. eapply IHt2; eauto.
  - clear prox N. destruct T as (ns & NM & ND).
    assert (H1 : js_field_f n R false (TStruct c fs) = Ok d).
    { destruct u; auto. rewrite unaliased in H0 by now apply not_aliased_none. exact H0. }
    destruct (struct_iff doc R (TNull c0) n c fs d x H1) as (ns' & ds & N' & D & IFF). rewrite <- (names_unique _ _ _ NM N') in *. rewrite (IFF ND). clear IFF.
    rewrite Forall_forall in H, E.
    assert (TR : forall f m, In f fs -> SpecJson.named f m -> exists p, In (f, (m, p)) (combine fs (combine ns ds)) /\ js_field_f n R true f = Ok p).
    { clear - NM D. revert ds D. induction NM as [|g k fs ns G NM IH]; intros ds D f m I NF; [destruct I|]. inversion D as [|? q ? ds' Q D']; subst. cbn [combine].
      destruct I as [->|I]; [exists q; split; auto; left; now rewrite (named_unique _ _ _ G NF)|]. destruct (IH _ D' f m I NF) as (p & J & P). exists p. split; [now right|exact P]. }
    assert (RT : forall f m p, In (f, (m, p)) (combine fs (combine ns ds)) -> In f fs /\ SpecJson.named f m /\ js_field_f n R true f = Ok p).
    { clear - NM D. revert ds D. induction NM as [|g k fs ns G NM IH]; intros ds D f m p I; [destruct I|]. inversion D as [|? q ? ds' Q D']; subst. cbn [combine] in I.
      destruct I as [[= <- <- <-]|I]; [split; [now left|auto]|]. destruct (IH _ D' f m p I) as (J & P). split; [now right|exact P]. }
    assert (TN : forall f m, In f fs -> SpecJson.named f m -> In (f, m) (combine fs ns)).
    { clear - NM. induction NM as [|g k fs ns G NM IH]; intros f m I NF; [destruct I|]. cbn [combine].
      destruct I as [->|I]; [left; now rewrite (named_unique _ _ _ G NF)|right; auto]. }
    assert (NT : forall f m, In (f, m) (combine fs ns) -> In f fs /\ SpecJson.named f m).
    { intros f m I. split; [now apply in_combine_l in I|]. exact (JsonAgain.combine_at _ _ _ _ _ NM I). }
    split.
    + intros (o & -> & P & Q). constructor.
      * intros f m I NF RQ. eapply Q; eauto.
      * intros f m y I NF Y. destruct (TR f m I NF) as (p & J & W). eapply H; eauto.
    + intros J. inversion J as [? ? ? F| | |? ? o Q P| |]; subst; [discriminate F|]. exists o. split; auto. split.
      * intros f m p y I Y. destruct (RT f m p I) as (IF & NF & W). eapply H; eauto.
      * intros f m I RQ. destruct (NT f m I). eauto.
  - destruct T.
  - destruct T as [T|[T FL]]; [|exact (one_iff doc R n c ts prox d x T FL N)]. pose proof (optional_is _ _ T) as OP. rewrite OP in N. apply rbind_Ok in N as (e & E1 & N). assert (HD : d = dupd (js_labels (TUnion c ts)) e) by congruence. subst d.
    apply only_spec in E1 as (l1 & y & l2 & -> & Ny & Ey & ALL). rewrite <- labels_iff by (eapply field_nodup; eauto).
    rewrite Forall_forall in H, E. assert (Iy : In y (l1 ++ y :: l2)) by (apply in_app_iff; cbn; auto).
    rewrite (H y Iy (E y Iy) _ _ _ Ey x). split; [intros; eapply jf_union; eauto|].
    intros J. inversion J as [? ? ? F| | | |? ? z ? _ Iz Nz Jz|]; subst; [discriminate F| |congruence].
    apply in_app_iff in Iz. destruct Iz as [Iz|[<-|Iz]]; auto; exfalso; specialize (ALL z); rewrite in_app_iff in ALL; intuition congruence.
  - destruct T.
Qed.

Theorem printed_iff t d v : every tidy t -> schema_output FJson t = Ok (ODocument (PDict d)) -> (accepts (PDict d) (PDict d) v <-> jfits t v).
Proof.
  intros E H. unfold schema_output in H. destruct (js_from builtin_aliases t) as [d'|] eqn:J; cbn [rbind] in H; [|discriminate]. injection H as ->.
  unfold js_from in J. apply rbind_Ok in J as (m & M & J). apply rbind_Ok in J as (defs & _ & J).
  assert (HD : d = match defs with [] => m | _ => dset "$defs" (PDict defs) m end) by (injection J; auto).
  rewrite <- (tidy_iff (PDict d) builtin_aliases t E _ _ _ M). symmetry. apply more_iff. intros k K. rewrite HD. destruct defs; auto.
  rewrite dget_dset. destruct (String.eqb_spec k "$defs") as [->|]; auto. cbn in K. intuition discriminate.
Qed.

Lemma jfits_optional c ts v : is_optional c ts = true -> jfits (TUnion c ts) v -> exists x, In x ts /\ is_null x = false /\ jfits x v.
Proof.
  intros OP J. remember (TUnion c ts) as t eqn:E. destruct J as [t ty v F| | | |c' ts' x v O I N J|c' l1 x l2 ty v O _ _ _]; subst; try discriminate E; [discriminate F| |].
  - injection E as -> ->. eauto.
  - injection E as -> <-. congruence.
Qed.
Lemma jfits_one c ts v : is_optional c ts = false -> jfits (TUnion c ts) v -> exists l1 x l2 ty, ts = l1 ++ x :: l2 /\ JsonFits.flat x = Some ty /\ has_type v ty /\
  forall y ty', In y (l1 ++ l2) -> JsonFits.flat y = Some ty' -> ~ has_type v ty'.
Proof.
  intros OP J. remember (TUnion c ts) as t eqn:E. destruct J as [t ty v F| | | |c' ts' x v O I N J|c' l1 x l2 ty v O FX HT UQ]; subst; try discriminate E; [discriminate F| |].
  - injection E as -> ->. congruence.
  - injection E as -> <-. exists l1, x, l2, ty. auto.
Qed.
(** ** BigQuery *)
Lemma jfits_set t c x : is_union t = false -> jfits (set_c t c) x <-> jfits t x.
Proof.
  intros U. split; intros J.
  - destruct t; try discriminate U; cbn [set_c] in J; inversion J; subst; try (eapply jf_flat; [|eassumption]; assumption); constructor; assumption.
  - destruct t; try discriminate U; cbn [set_c]; inversion J; subst; try (eapply jf_flat; [|eassumption]; assumption); constructor; assumption.
Qed.
Lemma tidy_set t c : c_alias c = PNone -> is_union t = false -> every tidy t -> every tidy (set_c t c).
Proof.
  intros A U E. apply every_iff in E as [[_ T] E]. apply every_iff. rewrite children_set_c. split; auto. split; [now rewrite get_set_c|].
  destruct t; auto; discriminate.
Qed.
Lemma tidy_null : every tidy (TNull c0).
Proof. apply every_iff. split; [|constructor]. split; auto. Qed.
Lemma alias_extra k v t : c_alias (get_c (set_extra k v t)) = c_alias (get_c t).
Proof. unfold set_extra. now rewrite get_set_c. Qed.
Lemma alias_doc v t : c_alias (get_c (set_doc v t)) = c_alias (get_c t).
Proof. unfold set_doc. now rewrite get_set_c. Qed.
Lemma bq_finish_alias f t u : fresh_type t -> is_union t = false -> c_alias (get_c t) = PNone -> bq_finish f t = Ok u -> c_alias (get_c u) = PNone.
Proof.
  intros F U A H. unfold bq_finish in H.
  set (t1 := if String.eqb (bq_mode f) "REPEATED" then TList c0 t PNone (PBool true) else t) in *.
  assert (X : no_clash t1 /\ is_union t1 = false /\ c_alias (get_c t1) = PNone).
  { unfold t1. destruct (String.eqb (bq_mode f) "REPEATED"); [|auto using fresh_no_clash]. split; [intros k []|auto]. }
  clearbody t1. destruct X as (NC & U1 & A1). apply rbind_Ok in H as (t2 & E & H).
  assert (A2 : c_alias (get_c t2) = PNone).
  { destruct (String.eqb (bq_mode f) "NULLABLE"); [|congruence]. rewrite make_nullable_other in E by auto. cbn [snd] in E. injection E as <-. reflexivity. }
  assert (Y : forall a b : rtype, Ok a = Ok b -> b = a) by congruence. apply Y in H. rewrite H.
  destruct (truthy (bq_default f)), (truthy (bq_description f)), (truthy (bq_name f)); rewrite ?alias_extra, ?alias_doc, ?alias_extra; exact A2.
Qed.
Lemma bq_scalar_json f t : bq_scalar f = Some t -> every tidy t /\ exists ty, JsonFits.flat t = Some ty /\ bq_json_type (bq_type f) ty.
Proof.
  intros H. unfold bq_scalar in H.
  repeat (match type of H with (if str_in (bq_type f) ?l then _ else _) = _ => destruct (str_in (bq_type f) l) eqn:?; [match goal with X : str_in _ l = true |- _ => apply str_in_iff in X end; injection H as <-|] end;
    [split; [apply every_iff; split; [split; [reflexivity|exact Logic.I]|constructor]|eexists; split; [reflexivity|]]|]); [..|discriminate].
  all: try (apply bj_text; cbn in *; tauto); try (apply bj_whole; cbn in *; tauto); try (apply bj_number; cbn in *; tauto).
  match goal with X : In _ ["BOOLEAN"] |- _ => destruct X as [<-|[]] end. constructor.
Qed.
Lemma json_type_fun a b b' : bq_json_type a b -> bq_json_type a b' -> b = b'.
Proof. intros H1 H2. destruct H1; inversion H2; subst; auto; cbn in *; repeat match goal with H : _ \/ _ |- _ => destruct H | H : False |- _ => destruct H end; subst; discriminate. Qed.
Lemma json_type_scalar a b : bq_json_type a b -> ~ In a ["RECORD"; "STRUCT"].
Proof. intros H J. cbn in J. destruct H; cbn in *; repeat match goal with H : _ \/ _ |- _ => destruct H | H : False |- _ => destruct H end; subst; discriminate. Qed.

Lemma bq_finish_json f b t n (V : pyval -> Prop) : bq_called f n -> bq_to_field f = Ok t -> bq_finish f b = Ok t -> fresh_type b -> is_union b = false ->
  every tidy b -> (forall x, jfits b x <-> V x) ->
  every tidy t /\ forall x, jfits t x <-> if String.eqb (bq_mode f) "REPEATED" then exists l, x = PList l /\ forall y, In y l -> V y else V x.
Proof.
  intros CA HT H F U T FT. destruct (json_bq f n t CA HT) as (_ & NM & OPT).
  assert (A : c_alias (get_c t) = PNone).
  { pose proof T as T'. apply every_iff in T' as [[A _] _]. eapply bq_finish_alias; eauto. }
  destruct (bq_finish_spec f b F U) as (r & X & SH & MT). rewrite H in X. injection X as <-.
  inversion SH as [c base M|c base M|mode base t' M1 M2 SC]; subst.
  - assert (OU : optional_union (TUnion c [TNull c0; b])) by (apply OPT; auto). split.
    + apply every_iff. split; [split; [exact A|left; exact OU]|]. cbn [children]. auto using tidy_null.
    + intros x. change (String.eqb "NULLABLE" "REPEATED") with false. cbv iota. rewrite <- FT. split.
      * intros J. destruct (jfits_optional _ _ _ (optional_is _ _ OU) J) as (z & I & NZ & JZ). destruct I as [<-|[<-|[]]]; [discriminate NZ|exact JZ].
      * intros J. eapply jf_union; [now apply optional_is|right; left; reflexivity| |exact J]. apply (ft_null _ F).
  - split.
    + apply every_iff. split; [split; [exact A|exact Logic.I]|]. cbn [children]. auto.
    + intros x. rewrite String.eqb_refl. split.
      * intros J. inversion J as [? ? ? Fl|? ? ? ? l AL| | | |]; subst; [discriminate Fl|]. exists l. split; auto. intros y Y. apply FT. auto.
      * intros (l & -> & AL). constructor. intros y Y. apply FT. auto.
  - assert (EB : t = set_c b (get_c t)).
    { rewrite <- SC. rewrite set_set_c. now destruct t. }
    apply String.eqb_neq in M2. split.
    + rewrite EB. apply tidy_set; auto.
    + intros x. rewrite M2. rewrite EB. rewrite jfits_set by assumption. apply FT.
Qed.
Lemma bq_value_record f x : In (bq_type f) ["RECORD"; "STRUCT"] -> (bq_value f x <-> exists o, x = PDict o /\ bq_object (bq_fields f) o).
Proof.
  intros R. split.
  - intros V. inversion V; subst; [|eauto]. exfalso. eapply json_type_scalar; eauto.
  - intros (o & -> & O). now apply bqv_record.
Qed.
Lemma bq_fields_json fs ns ts o : Forall2 bq_called fs ns -> NoDup ns ->
  Forall2 (fun f t => bq_to_field f = Ok t /\ every tidy t /\ forall x, jfits t x <-> bq_member f x) fs ts ->
  every tidy (TStruct c0 ts) /\ (jfits (TStruct c0 ts) (PDict o) <-> bq_object fs o).
Proof.
  intros CA ND F.
  assert (NM : Forall2 SpecJson.named ts ns /\ Forall (every tidy) ts).
  { clear ND. revert ns CA. induction F as [|f t fs ts (E & T & _) F IH]; intros ns CA; inversion CA as [|? n ? ns' C1 C2]; subst; [auto|].
    destruct (IH _ C2). destruct (json_bq _ _ _ C1 E) as (_ & N & _). auto. }
  destruct NM as [NM TD]. split.
  - apply every_iff. cbn [children]. split; auto. split; [reflexivity|]. eauto.
  - assert (L : forall g t, In (g, t) (combine fs ts) -> forall n, bq_name g = PStr n <-> SpecJson.named t n).
    { clear -CA F. revert ns CA. induction F as [|f t' fs ts (E & _) F IH]; intros ns CA g t I; inversion CA as [|? m ? ns' C1 C2]; subst; [destruct I|].
      destruct I as [[= <- <-]|I]; [|eapply IH; eauto]. destruct (json_bq _ _ _ C1 E) as (_ & N & _). inversion C1 as [? ? B1 B2 _]; subst. intros n. split.
      - intros X. rewrite B1 in X. injection X as <-. exact N.
      - intros X. rewrite B1. f_equal. eapply named_unique; eauto. }
    assert (RQ : forall g t, In (g, t) (combine fs ts) -> (js_required t = true <-> bq_mode g <> "NULLABLE") /\ forall x, jfits t x <-> bq_member g x).
    { intros g t I. destruct (JsonAgain.combine_at _ _ _ _ _ F I) as (E & _ & J). split; auto.
      assert (exists n, bq_called g n) as [n C].
      { apply in_combine_l in I. clear -CA I. induction CA; [destruct I|]. destruct I as [<-|I]; eauto. }
      destruct (json_bq _ _ _ C E) as (_ & _ & O). rewrite <- O, <- required_iff. destruct (js_required t); intuition congruence. }
    assert (LR : forall g, In g fs -> exists t, In (g, t) (combine fs ts)).
    { intros g I. destruct (in_combine_at _ _ _ _ F I) as (t & J & _). eauto. }
    assert (RL : forall t, In t ts -> exists g, In (g, t) (combine fs ts)).
    { clear -F. intros t I. induction F; [destruct I|]. destruct I as [<-|I]; [eexists; left; reflexivity|]. destruct (IHF I) as [g J]. exists g. now right. }
    split.
    + intros J. inversion J as [? ? ? Fl| | |? ? o' Q P| |]; subst; [discriminate Fl|]. constructor.
      * intros g n I N M. destruct (LR g I) as [t J']. destruct (RQ _ _ J') as [R1 R2]. eapply Q; [eapply in_combine_r; eauto|apply (L _ _ J'); eauto|]. tauto.
      * intros g n x I N G. destruct (LR g I) as [t J']. destruct (RQ _ _ J') as [R1 R2]. apply R2. eapply P; [eapply in_combine_r; eauto|apply (L _ _ J'); eauto|auto].
    + intros O. inversion O as [? ? Q P]; subst. constructor.
      * intros t n I N M. destruct (RL t I) as [g J']. destruct (RQ _ _ J') as [R1 R2]. eapply Q; [eapply in_combine_l; eauto|apply (L _ _ J'); eauto|]. tauto.
      * intros t n x I N G. destruct (RL t I) as [g J']. destruct (RQ _ _ J') as [R1 R2]. apply R2. eapply P; [eapply in_combine_l; eauto|apply (L _ _ J'); eauto|auto].
Qed.
Lemma bq_member_if f x : bq_member f x <-> if String.eqb (bq_mode f) "REPEATED" then exists l, x = PList l /\ forall y, In y l -> bq_value f y else bq_value f x.
Proof.
  destruct (String.eqb_spec (bq_mode f) "REPEATED") as [E|E]; split.
  - intros M. inversion M; subst; [eauto|contradiction].
  - intros (l & -> & A). now constructor.
  - intros M. inversion M; subst; [contradiction|auto].
  - intros V. now apply bqm_single.
Qed.
Lemma struct_object c fs x : jfits (TStruct c fs) x -> exists o, x = PDict o.
Proof. intros J. inversion J as [? ? ? F| | | | |]; subst; [discriminate F|eauto]. Qed.
Lemma rmap_all {A B} (f : A -> res B) l l' : rmap f l = Ok l' -> Forall2 (fun x y => f x = Ok y) l l'.
Proof.
  revert l'. induction l as [|x l IH]; intros l' H; cbn [rmap] in H; [injection H as <-; constructor|].
  apply rbind_Ok in H as (y & E & H). apply rbind_Ok in H as (ys & E' & H). injection H as <-. auto.
Qed.
Lemma bq_field_json : forall f n t, bq_called f n -> bq_apart (bq_fields f) -> bq_to_field f = Ok t -> every tidy t /\ forall x, jfits t x <-> bq_member f x.
Proof.
  induction f as [f IH] using bq_ind'. intros n t CA AP H. pose proof H as HT. rewrite bq_unfold in H.
  pose proof (bq_scalar_spec f) as SP.
  assert (X : exists b, bq_finish f b = Ok t /\ fresh_type b /\ is_union b = false /\ every tidy b /\ forall x, jfits b x <-> bq_value f x).
  { destruct (bq_scalar f) as [b|] eqn:B.
    - destruct SP as (F & U & _ & _ & _ & NR). destruct (bq_scalar_json f b B) as (T & ty & Fl & JT). exists b. split; auto. split; auto. split; auto. split; auto.
      intros x. split.
      + intros J. assert (J' : has_type x ty) by (inversion J; subst; try discriminate Fl; congruence). eapply bqv_scalar; eauto.
      + intros V. inversion V as [? ty' ? JT' HX|]; subst; [|contradiction]. eapply jf_flat; eauto. now rewrite (json_type_fun _ _ _ JT JT').
    - destruct (str_in (bq_type f) ["RECORD"; "STRUCT"]) eqn:R; [|discriminate]. apply str_in_iff in R.
      destruct (rmap bq_to_field (bq_fields f)) as [ts|] eqn:M; cbn [rbind] in H; [|discriminate].
      apply rmap_all in M. inversion AP as [fs ns C ND SUB]; subst fs.
      assert (F : Forall2 (fun f t => bq_to_field f = Ok t /\ every tidy t /\ forall x, jfits t x <-> bq_member f x) (bq_fields f) ts).
      { clear -IH M C SUB. revert ns C. induction M as [|g u l us E M IHM]; intros ns C; constructor.
        - inversion IH; inversion C; subst. split; auto. eapply H1; eauto. apply SUB. now left.
        - inversion IH; inversion C; subst. eapply IHM; eauto. intros g' G'. apply SUB. now right. }
      exists (TStruct c0 ts). split; auto. split; [apply struct_fresh|]. split; [reflexivity|]. split; [exact (proj1 (bq_fields_json _ _ _ [] C ND F))|].
      intros x. rewrite bq_value_record by auto. split.
      + intros J. destruct (struct_object _ _ _ J) as [o ->]. exists o. split; auto. exact (proj1 (proj2 (bq_fields_json _ _ _ o C ND F)) J).
      + intros (o & -> & O). exact (proj2 (proj2 (bq_fields_json _ _ _ o C ND F)) O). }
  destruct X as (b & FN & F & U & T & V). destruct (bq_finish_json f b t n (bq_value f) CA HT FN F U T V) as [T' V']. split; auto.
  intros x. rewrite V', bq_member_if. tauto.
Qed.
Theorem bq_accepts fs t d v : bq_apart fs -> bq_to_recap fs = Ok t -> schema_output FJson t = Ok (ODocument (PDict d)) ->
  (accepts (PDict d) (PDict d) v <-> exists o, v = PDict o /\ bq_object fs o).
Proof.
  intros AP H S. unfold bq_to_recap in H. destruct (rmap bq_to_field fs) as [ts|] eqn:M; cbn [rbind] in H; [|discriminate]. injection H as <-.
  apply rmap_all in M. inversion AP as [fs' ns C ND SUB]; subst fs'.
  assert (F : Forall2 (fun f t => bq_to_field f = Ok t /\ every tidy t /\ forall x, jfits t x <-> bq_member f x) fs ts).
  { clear -M C SUB. revert ns C. induction M as [|g u l us E M IHM]; intros ns C; constructor.
    - inversion C; subst. split; auto. eapply bq_field_json; eauto. apply SUB. now left.
    - inversion C; subst. eapply IHM; eauto. intros g' G'. apply SUB. now right. }
  rewrite (printed_iff _ _ v (proj1 (bq_fields_json fs ns ts [] C ND F)) S). split.
  - intros J. destruct (struct_object _ _ _ J) as [o ->]. exists o. split; auto. exact (proj1 (proj2 (bq_fields_json _ _ _ o C ND F)) J).
  - intros (o & -> & O). exact (proj2 (proj2 (bq_fields_json _ _ _ o C ND F)) O).
Qed.

(** ** Hive *)
Lemma tidy_struct c fs ns : c_alias c = PNone -> Forall2 SpecJson.named fs ns -> NoDup ns -> Forall (every tidy) fs -> every tidy (TStruct c fs).
Proof. intros A N D F. apply every_iff. cbn [children]. split; auto. split; [exact A|]. eauto. Qed.
(** What is read for a type that may be NULL. *)
Inductive hfield (h : htype) (d : pyval) (e : list (string * pyval)) : rtype -> Prop :=
| hf_void : h = HPrim HVoid -> hfield h d e (TNull (mkC PNone PNone d e))
| hf_other b : h <> HPrim HVoid -> ~ hive_choice h -> is_null b = false -> is_union b = false -> every tidy b -> (forall x, jfits b x <-> hive_value h x) ->
    hfield h d e (TUnion (mkC PNone PNone d (("default", PNone) :: e)) [TNull c0; b])
| hf_choice ms : let c := mkC PNone PNone d (("default", PNone) :: e) in hive_choice h -> is_optional c ms = false -> every tidy (TUnion c ms) ->
    (forall x, jfits (TUnion c ms) x <-> hive_value h x) -> hfield h d e (TUnion c ms).
Lemma no_choice h : (forall hs, h <> HUnion hs) -> ~ hive_choice h.
Proof. intros N (hs & a & b & E & _). exact (N hs E). Qed.
Lemma hfield_fits h d e t : hfield h d e t -> every tidy t /\ (forall x, jfits t x <-> hive_value h x) /\ (js_required t = true <-> h = HPrim HVoid \/ hive_choice h).
Proof.
  intros [-> |b NV NC N U T V|ms c CH OP T V]; [| |split; [exact T|split; [exact V|cbn [js_required]; rewrite OP; cbn; tauto]]].
  - split; [apply every_iff; split; [split; [reflexivity|exact Logic.I]|constructor]|]. split; [|cbn; tauto].
    intros x. split; intros J.
    + inversion J as [? ty ? F HT| | | | |]; subst. cbn in F. injection F as <-. eapply hvj_scalar; eauto. constructor.
    + inversion J as [? ty ? F HT| | | | |]; subst. inversion F; subst; try (exfalso; cbn in *; intuition discriminate). eapply jf_flat; [reflexivity|auto].
  - assert (OU : optional_union (TUnion (mkC PNone PNone d (("default", PNone) :: e)) [TNull c0; b])).
    { exists (mkC PNone PNone d (("default", PNone) :: e)), [TNull c0], b, []. split; [reflexivity|]. split; [discriminate|].
      split; [intros ->; discriminate N|]. split; [discriminate|]. repeat constructor. }
    split; [|split].
    + apply every_iff. cbn [children]. split; [split; [reflexivity|left; exact OU]|]. auto using tidy_null.
    + intros x. rewrite <- V. split.
      * intros J. destruct (jfits_optional _ _ _ (optional_is _ _ OU) J) as (z & I & NZ & JZ). destruct I as [<-|[<-|[]]]; [discriminate NZ|exact JZ].
      * intros J. eapply jf_union; [now apply optional_is|right; left; reflexivity|exact N|exact J].
    + apply required_iff in OU. rewrite OU. split; [discriminate|intros [?|?]; contradiction].
Qed.
Lemma hfield_named h d n t : n <> "" -> hfield h d [("name", PStr n)] t -> SpecJson.named t n.
Proof. intros N []; split; auto; reflexivity. Qed.
Lemma hive_finish_field h t l d x e r : name_only e -> get_c t = mkC l PNone d (x ++ e) ->
  In (dkeys x) [[]; ["unit"]; ["unit"; "timezone"]; ["signed"; "unit"]; ["precision"; "scale"]] ->
  (forall c b v, t = TInt c b v -> dkeys x <> ["signed"; "unit"]) ->
  is_union t = false -> is_null t = false -> h <> HPrim HVoid -> (forall hs, h <> HUnion hs) -> every tidy t -> (forall x, jfits t x <-> hive_value h x) ->
  hive_finish t = Ok r -> hfield h d e r.
Proof.
  intros NO G K NI U N NV NU T V H. destruct (finish_other t l d x e NO G K NI U N) as (r' & H' & F).
  rewrite H in H'. injection H' as <-. unfold finished in F. subst r. constructor; auto using no_choice.
  - now destruct t.
  - now destruct t.
  - apply tidy_set; auto.
  - intros y. rewrite jfits_set by assumption. apply V.
Qed.
Lemma hive_scalar_fits h t ty x : JsonFits.flat t = Some ty -> hive_json_type h ty -> jfits t x <-> hive_value h x.
Proof.
  intros F HJ. split.
  - intros J. eapply hvj_scalar; eauto. inversion J; subst; try discriminate F. congruence.
  - intros V. assert (V' : exists ty', hive_json_type h ty' /\ has_type x ty') by (inversion V; subst; [eauto|inversion HJ..]).
    destruct V' as (ty' & HJ' & HT). eapply jf_flat; eauto.
    assert (ty = ty') as ->; [|exact HT].
    destruct HJ; inversion HJ'; subst; auto; cbn in *; repeat match goal with H : _ \/ _ |- _ => destruct H | H : False |- _ => destruct H end; subst; discriminate.
Qed.
Lemma tidy_leaf t ty : JsonFits.flat t = Some ty -> c_alias (get_c t) = PNone -> every tidy t.
Proof. intros F A. apply every_iff. destruct t; try discriminate F; (split; [split; [exact A|exact Logic.I]|constructor]). Qed.
(** The fields of a struct or the columns of a table. *)
Lemma hive_fields_json (fs : list (string * htype)) ts c : c_alias c = PNone -> NoDup (map fst fs) -> ~ In "" (map fst fs) ->
  Forall2 (fun nh t => exists d, hfield (snd nh) d [("name", PStr (fst nh))] t) fs ts ->
  every tidy (TStruct c ts) /\ forall o, jfits (TStruct c ts) (PDict o) <-> hive_object fs o.
Proof.
  intros A ND NE F.
  assert (NM : Forall2 SpecJson.named ts (map fst fs)).
  { clear ND. induction F as [|[n h] t fs ts (d & X) F IH]; constructor.
    - eapply hfield_named; [|exact X]. intros E. apply NE. now left.
    - apply IH. intros E. apply NE. now right. }
  split.
  - eapply tidy_struct; eauto. clear -F. induction F as [|[n h] t fs ts (d & X) F IH]; constructor; auto. eapply hfield_fits; eauto.
  - assert (L : forall n h, In (n, h) fs -> exists t, In t ts /\ SpecJson.named t n /\ (js_required t = true <-> h = HPrim HVoid \/ hive_choice h) /\ forall x, jfits t x <-> hive_value h x).
    { clear ND. induction F as [|[n h] t fs ts (d & X) F IH]; intros m k I; [destruct I|]. inversion NM; subst. destruct I as [[= <- <-]|I].
      - exists t. split; [now left|]. split; auto. destruct (hfield_fits _ _ _ _ X) as (_ & V & R). auto.
      - destruct (IH (fun E => NE (or_intror E)) ltac:(assumption) m k I) as (t' & I' & P). exists t'. split; [now right|exact P]. }
    assert (RL : forall t n, In t ts -> SpecJson.named t n -> exists h, In (n, h) fs /\ (js_required t = true <-> h = HPrim HVoid \/ hive_choice h) /\ forall x, jfits t x <-> hive_value h x).
    { clear ND L. induction F as [|[n h] t fs ts (d & X) F IH]; intros t' m I N; [destruct I|]. inversion NM as [|? ? ? ? N1 NM1]; subst. destruct I as [<-|I].
      - exists h. cbn [fst] in N1. rewrite (named_unique _ _ _ N N1). split; [now left|]. destruct (hfield_fits _ _ _ _ X) as (_ & V & R). auto.
      - destruct (IH (fun E => NE (or_intror E)) NM1 t' m I N) as (h' & I' & P). exists h'. split; [now right|exact P]. }
    intros o. split.
    + intros J. inversion J as [? ? ? Fl| | |? ? o' Q P| |]; subst; [discriminate Fl|]. constructor.
      * intros n h I V. destruct (L n h I) as (t & It & N & R & _). eapply Q; eauto. tauto.
      * intros n h x I G. destruct (L n h I) as (t & It & N & _ & W). apply W. eauto.
    + intros O. inversion O as [? ? Q P]; subst. constructor.
      * intros t n It N R. destruct (RL t n It N) as (h & I & RV & _). eapply Q; eauto. tauto.
      * intros t n x It N G. destruct (RL t n It N) as (h & I & _ & W). apply W. eauto.
Qed.
Lemma parse_fields_field ns hs fs : List.length ns = List.length hs ->
  Forall (fun h => forall d e t, name_only e -> hive_parse d e h = Ok t -> hfield h d e t) hs -> parse_fields ns hs = Ok fs ->
  Forall2 (fun nh t => exists d, hfield (snd nh) d [("name", PStr (fst nh))] t) (combine ns hs) fs.
Proof.
  intros L H. revert ns fs L. induction H as [|h hs Hh H IH]; intros [|n ns] fs L E; try discriminate L; cbn [parse_fields combine] in *; [injection E as <-; constructor|].
  apply rbind_Ok in E as (y & E1 & E). apply rbind_Ok in E as (ys & E2 & E). injection E as <-.
  constructor; [|apply IH; auto; now injection L]. exists PNone. apply Hh; auto. right. eauto.
Qed.
(** *** Unions of scalar types *)
(** What is read for a scalar type that may be NULL. *)
Definition leaf (h : htype) : rtype :=
  match h with
  | HPrim p => hive_prim PNone [] p
  | HDecimal p s => TBytes (mkC (PStr "build.recap.Decimal") PNone PNone [("precision", PInt p); ("scale", PInt s)]) (PInt 16) (PBool false)
  | HVarchar n => TString c0 (PInt n) (PBool true)
  | HChar n => TString c0 (PInt n) (PBool false)
  | _ => TNull c0
  end.
Definition maybe (h : htype) : rtype := TUnion (mkC PNone PNone PNone [("default", PNone)]) [TNull c0; leaf h].
Ltac scalars :=
  repeat match goal with
  | H : hive_scalar _ |- _ => destruct H as [? [? H]]; inversion H; subst; clear H; try congruence; cbn [In] in *
  | H : _ \/ _ |- _ => destruct H; subst
  | H : False |- _ => destruct H
  end.
Lemma leaf_flat h ty : h <> HPrim HVoid -> hive_json_type h ty -> JsonFits.flat (leaf h) = Some ty /\ c_alias (get_c (leaf h)) = PNone /\ rewrap (maybe h) = maybe h /\ is_null (leaf h) = false /\
  is_union (leaf h) = false.
Proof. intros N J. inversion J; subst; try congruence; cbn [In] in *; repeat (match goal with H : _ \/ _ |- _ => destruct H; subst | H : False |- _ => destruct H end); repeat split. Qed.
Lemma leaf_parse h u : hive_scalar h -> hive_parse PNone [] h = Ok u -> u = maybe h.
Proof.
  intros S E. scalars; try (cbn in E; injection E as <-; reflexivity). cbn [hive_parse] in E. destruct (38 <? p)%Z; [discriminate|]. cbn in E. injection E as <-. reflexivity.
Qed.
Lemma leaf_inj h h' : hive_scalar h -> hive_scalar h' -> rt_eq (leaf h) (leaf h') = true -> h = h'.
Proof.
  intros [N [ty J]] [N' [ty' J']] E. destruct h as [p|p s|n|n| | | | |]; try (inversion J; fail); destruct h' as [p'|p' s'|n'|n'| | | | |]; try (inversion J'; fail).
  - clear -E. destruct p, p'; try reflexivity; try discriminate E.
  - exfalso. clear -E. destruct p; discriminate E.
  - exfalso. clear -E. destruct p; discriminate E.
  - exfalso. clear -E. destruct p; discriminate E.
  - exfalso. clear -E. destruct p'; discriminate E.
  - assert (X : py_eq (PInt p) (PInt p') = true /\ py_eq (PInt s) (PInt s') = true).
    { apply RowHive.rt_eq_c in E. apply RowHive.c_eq_parts in E as [_ E].
      destruct (RowHive.eq_dict _ _ "precision" _ E eq_refl) as (w & [= <-] & X). destruct (RowHive.eq_dict _ _ "scale" _ E eq_refl) as (w & [= <-] & Y). auto. }
    destruct X as [X Y]. apply RowHive.eq_int in X as ->. apply RowHive.eq_int in Y as ->. reflexivity.
  - discriminate E.
  - discriminate E.
  - exfalso. clear -E. destruct p'; discriminate E.
  - discriminate E.
  - assert (X : py_eq (PInt n) (PInt n') = true) by (cbn [leaf rt_eq] in E; rewrite !andb_true_iff in E; tauto). apply RowHive.eq_int in X as ->. reflexivity.
  - cbn [leaf rt_eq] in E. rewrite !andb_true_iff in E. destruct E as (_ & _ & E). discriminate E.
  - exfalso. clear -E. destruct p'; discriminate E.
  - discriminate E.
  - cbn [leaf rt_eq] in E. rewrite !andb_true_iff in E. destruct E as (_ & _ & E). discriminate E.
  - assert (X : py_eq (PInt n) (PInt n') = true) by (cbn [leaf rt_eq] in E; rewrite !andb_true_iff in E; tauto). apply RowHive.eq_int in X as ->. reflexivity.
Qed.
Lemma int_refl z : py_eq (PInt z) (PInt z) = true.
Proof. apply py_eq_refl. constructor. Qed.
Lemma leaf_refl h : hive_scalar h -> rt_eq (leaf h) (leaf h) = true /\ rt_eq (leaf h) (TNull c0) = false /\ rt_eq (TNull c0) (leaf h) = false.
Proof.
  intros S. split.
  - scalars; try reflexivity; cbn [leaf rt_eq]; unfold c_eq, dict_eq; cbn [c_logical c_alias c_doc c_extra c0]; rewrite !py_eq_refl; repeat constructor; cbn; intuition discriminate.
  - scalars; split; reflexivity.
Qed.
Lemma nodup_distinct l : (forall x, In x l -> rt_eq x x = true) -> distinct_members l -> NoDup l.
Proof.
  intros R D. apply NoDup_nth_error. intros i j I E. destruct (nth_error l i) as [x|] eqn:X; [|apply nth_error_None in X; lia].
  assert (RX : rt_eq x x = true) by (apply R; eapply nth_error_In; eauto).
  destruct (Nat.lt_trichotomy i j) as [L|[L|L]]; auto; exfalso.
  - specialize (D i j x x L X (eq_sym E)). congruence.
  - specialize (D j i x x L (eq_sym E) X). congruence.
Qed.
Lemma union_field hs d e t : hs <> [] -> Forall hive_scalar hs -> name_only e -> hive_parse d e (HUnion hs) = Ok t -> hfield (HUnion hs) d e t.
Proof.
  intros NN SC NO H. rewrite parse_union in H. destruct (parse_all hs) as [us|] eqn:U; cbn [rbind] in H; [|discriminate].
  rewrite flatten_members in H. cbn [hive_finish] in H.
  assert (Y : forall a b : rtype, Ok a = Ok b -> b = a) by congruence. apply Y in H. clear Y. subst t.
  assert (EU : us = map maybe hs).
  { unfold parse_all in U. clear NN. revert us U. induction SC as [|h hs S SC IH]; intros us U; cbn [rmap] in U; [now injection U as <-|].
    apply rbind_Ok in U as (y & E1 & U). apply rbind_Ok in U as (ys & E2 & U). injection U as <-. cbn [map]. f_equal; auto using leaf_parse. }
  assert (EF : map flatten_unions (TNull c0 :: us) = TNull c0 :: us).
  { subst us. cbn [map flatten_unions]. f_equal. clear -SC. induction SC as [|h hs S SC IH]; [reflexivity|]. cbn [map]. f_equal; [|exact IH].
    unfold maybe. cbn [flatten_unions map fold_left]. f_equal. destruct (leaf_refl h S) as (_ & Z & _). destruct S as [N [ty J]]. destruct (leaf_flat h ty N J) as (F & _).
    assert (FL : flatten_unions (leaf h) = leaf h) by (destruct (leaf h); try discriminate F; reflexivity). rewrite FL.
    cbn [flat_add rt_in existsb app]. destruct (leaf h); try discriminate F; cbn [flat_add rt_in existsb]; rewrite ?Z; try reflexivity; discriminate. }
  rewrite EF. cbn [fold_left flat_add rt_in existsb app]. set (c := mkC PNone PNone d (("default", PNone) :: e)). set (ms := fold_left flat_add us [TNull c0]).
  rewrite Forall_forall in SC.
  assert (M1 : forall m, In m ms -> m = TNull c0 \/ exists h, In h hs /\ m = leaf h).
  { intros m I. apply flat_fold_in in I as [[<-|[]]|(f & I & M)]; auto. subst us. apply in_map_iff in I as (h & <- & I). destruct M as [<-|[<-|[]]]; eauto. }
  assert (M2 : forall h, In h hs -> In (leaf h) ms).
  { intros h I. destruct (flat_fold_has us (maybe h) (leaf h)) with (acc := [TNull c0]) as (m & IM & EM); [subst us; now apply in_map|cbn; auto|]. fold ms in IM.
    destruct EM as [->|EM]; auto. destruct (M1 m IM) as [->|(h' & I' & ->)]; [rewrite (proj1 (proj2 (leaf_refl h (SC h I)))) in EM; discriminate|].
    rewrite (leaf_inj h h' (SC h I) (SC h' I') EM). exact IM. }
  assert (M3 : In (TNull c0) ms) by (apply flat_fold_mono; now left).
  assert (M4 : NoDup ms).
  { apply nodup_distinct.
    - intros x I. destruct (M1 x I) as [->|(h & I' & ->)]; [reflexivity|]. apply leaf_refl. auto.
    - apply flat_fold; [|intros ? ? [E|[]]; discriminate E|intros [|[|i]] [|[|j]] a b L; cbn; try lia; discriminate].
      subst us. apply Forall_forall. intros u I. apply in_map_iff in I as (h & <- & I). destruct (leaf_refl h (SC h I)) as (_ & Z & _).
      destruct (SC h I) as [N [ty J]]. destruct (leaf_flat h ty N J) as (_ & _ & _ & _ & NU). split.
      + intros c' ts' [E|[E|[]]]; [discriminate E|]. rewrite E in NU. discriminate NU.
      + intros [|[|i]] [|[|j]] a b L; cbn; try lia; try (destruct i; discriminate); try (destruct j; discriminate). intros [= <-] [= <-]. exact Z. }
  assert (M5 : forall x, In x ms -> JsonFits.flat x <> None /\ c_alias (get_c x) = PNone).
  { intros x I. destruct (M1 x I) as [->|(h & I' & ->)]; [split; [discriminate|reflexivity]|]. destruct (SC h I') as [N [ty J]]. destruct (leaf_flat h ty N J) as (F & A & _).
    split; [congruence|exact A]. }
  destruct hs as [|h0 r] eqn:EH; [congruence|]. rewrite <- EH in *. clear NN.
  assert (I0 : In h0 hs) by (subst hs; now left).
  assert (DEC : (forall h, In h hs -> h = h0) \/ exists b, In b hs /\ b <> h0).
  { clear -SC I0. assert (G : forall l, (forall h, In h l -> In h hs) -> (forall h, In h l -> h = h0) \/ exists b, In b l /\ b <> h0).
    { induction l as [|h l IH]; intros SUB; [left; intros ? []|]. destruct (rt_eq (leaf h) (leaf h0)) eqn:E.
      - assert (h = h0) as -> by (apply leaf_inj; auto; apply SC, SUB; now left). destruct IH as [A|(b & I & N)]; [intros; apply SUB; now right| |].
        + left. intros h [<-|I]; auto.
        + right. exists b. split; [now right|auto].
      - right. exists h. split; [now left|]. intros ->. rewrite (proj1 (leaf_refl h0 (SC h0 I0))) in E. discriminate. }
    apply G. auto. }
  destruct (SC h0 I0) as [N0 [ty0 J0]]. destruct (leaf_flat h0 ty0 N0 J0) as (F0 & A0 & _ & NL0 & NU0).
  destruct DEC as [ALL|(b & IB & NB)].
  - assert (EM : ms = [TNull c0; leaf h0]).
    { destruct (leaf_refl h0 (SC h0 I0)) as (Z1 & Z2 & _).
      assert (S1 : flat_add [TNull c0] (maybe h0) = [TNull c0; leaf h0]) by (cbn [flat_add maybe filter rt_in existsb]; rewrite Z2; reflexivity).
      assert (S2 : flat_add [TNull c0; leaf h0] (maybe h0) = [TNull c0; leaf h0]).
      { cbn [flat_add maybe filter rt_in existsb]. rewrite Z1, Z2. cbn [orb negb]. destruct (rt_eq (TNull c0) (leaf h0)); reflexivity. }
      unfold ms. rewrite EU, EH. cbn [map fold_left]. rewrite S1. assert (AR : forall h, In h r -> h = h0) by (intros h I; apply ALL; rewrite EH; now right).
      clear -AR S2. induction r as [|h r IH]; [reflexivity|]. cbn [map fold_left]. rewrite (AR h (or_introl eq_refl)), S2. apply IH. intros; apply AR; now right. }
    rewrite EM. apply hf_other; auto.
    + discriminate.
    + intros (hs' & a & b & [= <-] & Ia & Ib & NE). apply NE. now rewrite (ALL a Ia), (ALL b Ib).
    + eapply tidy_leaf; eauto.
    + intros x. rewrite (hive_scalar_fits h0 _ ty0 x F0 J0). split.
      * intros V. assert (V' : exists ty, hive_json_type h0 ty /\ has_type x ty).
        { inversion V as [? ty ? J T| | | |? ? ? ? ? J|]; subst; try (inversion J0; fail); eauto. }
        destruct V' as (ty & J & T). apply hvj_union with h0 ty; auto.
      * intros V. inversion V as [? ? ? J| | | |? h ty ? I J T|? (? & a & b & [= <-] & Ia & Ib & NE)]; subst; [inversion J| |].
        -- rewrite (ALL h I) in J. eapply hvj_scalar; eauto.
        -- destruct NE. now rewrite (ALL a Ia), (ALL b Ib).
  - assert (CH : hive_choice (HUnion hs)) by (exists hs, b, h0; auto).
    assert (OP : is_optional c ms = false).
    { destruct (is_optional c ms) eqn:OP; auto. exfalso. unfold is_optional in OP. apply andb_true_iff in OP as [_ OP]. apply Nat.eqb_eq in OP.
      assert (IF : forall h, In h hs -> In (leaf h) (filter (fun t => negb (rt_eq t (TNull c0))) ms)).
      { intros h I. apply filter_In. split; auto. now rewrite (proj1 (proj2 (leaf_refl h (SC h I)))). }
      pose proof (IF b IB) as X. pose proof (IF h0 I0) as Y. destruct (filter _ ms) as [|z [|z' l]]; cbn in OP; try discriminate OP. destruct X as [X|[]], Y as [Y|[]].
      apply NB, leaf_inj; auto. rewrite <- X, Y. apply leaf_refl; auto. }
    apply hf_choice; auto.
    + apply every_iff. split; [split; [reflexivity|right; split; [exact OP|now apply Forall_forall]]|]. cbn [children]. apply Forall_forall. intros x I.
      destruct (M5 x I) as [F A]. destruct (JsonFits.flat x) as [ty|] eqn:FX; [|congruence]. eapply tidy_leaf; eauto.
    + intros v. split.
      * intros J. destruct (jfits_one _ _ _ OP J) as (l1 & x & l2 & ty & EM & FX & HT & UQ).
        assert (IX : In x ms) by (rewrite EM; apply in_app_iff; cbn; auto).
        destruct (M1 x IX) as [->|(h & I & ->)].
        -- cbn in FX. injection FX as <-. inversion HT; subst. now apply hvj_choice.
        -- destruct (SC h I) as [N [ty' J']]. destruct (leaf_flat h ty' N J') as (F & _). assert (ty' = ty) as -> by congruence. apply hvj_union with h ty; auto.
           intros h' ty'' I' J2 T'. assert (N' : h' <> HPrim HVoid) by apply (SC h' I'). destruct (leaf_flat h' ty'' N' J2) as (F' & _). pose proof (M2 h' I') as IM. rewrite EM in IM.
           apply in_app_iff in IM. destruct IM as [IM|[IM|IM]].
           ++ exfalso. eapply (UQ (leaf h')); eauto. apply in_app_iff. auto.
           ++ apply leaf_inj; auto. rewrite <- IM. apply leaf_refl; auto.
           ++ exfalso. eapply (UQ (leaf h')); eauto. apply in_app_iff. auto.
      * intros V. assert (NOTNULL : forall h ty, In h hs -> hive_json_type h ty -> ty <> "null") by (intros h ty I J ->; destruct (SC h I) as [N _]; inversion J; subst; congruence).
        inversion V as [? ? ? J| | | |? h ty ? I J T UQ|]; subst v; subst; [inversion J| |].
        -- destruct (leaf_flat h ty (proj1 (SC h I)) J) as (F & _). destruct (in_split _ _ (M2 h I)) as (l1 & l2 & EM). rewrite EM in *. apply jf_one with ty; auto.
           intros y ty' IY FY T'. assert (IY' : In y (l1 ++ leaf h :: l2)) by (apply in_app_iff in IY; apply in_app_iff; cbn; tauto).
           destruct (M1 y IY') as [->|(h' & I' & ->)].
           ++ cbn in FY. injection FY as <-. inversion T'; subst. apply (NOTNULL h ty I J). now apply null_type.
           ++ destruct (SC h' I') as [N' [ty'' J']]. destruct (leaf_flat h' ty'' N' J') as (F' & _). assert (ty'' = ty') as -> by congruence.
              rewrite (UQ h' ty' I' J' T') in IY. now apply NoDup_remove_2 in M4.
        -- destruct (in_split _ _ M3) as (l1 & l2 & EM). rewrite EM in *. apply jf_one with "null"; [assumption|reflexivity|now constructor|].
           intros y ty' IY FY T'. assert (IY' : In y (l1 ++ TNull c0 :: l2)) by (apply in_app_iff in IY; apply in_app_iff; cbn; tauto).
           destruct (M1 y IY') as [->|(h' & I' & ->)]; [now apply NoDup_remove_2 in M4|].
           destruct (SC h' I') as [N' [ty'' J']]. destruct (leaf_flat h' ty'' N' J') as (F' & _). assert (ty'' = ty') as -> by congruence.
           apply (NOTNULL h' ty' I' J'). now apply null_type.
Qed.
Lemma hive_field_json h : hive_apart h -> forall d e t, name_only e -> hive_parse d e h = Ok t -> hfield h d e t.
Proof.
  assert (N0 : name_only []) by (left; reflexivity).
  induction h using htype_ind'; intros HC d' e' t NO H0.
  - cbn [hive_parse] in H0. destruct p; unfold hive_prim in H0;
    try (match type of H0 with hive_finish ?t = _ =>
      match t with
      | context [mkC ?l PNone d' (?x ++ e')] => refine (hive_finish_field _ t l d' x e' _ NO eq_refl _ _ eq_refl eq_refl _ _ _ _ H0)
      | context [mkC ?l PNone d' e'] => refine (hive_finish_field _ t l d' [] e' _ NO eq_refl _ _ eq_refl eq_refl _ _ _ _ H0)
      end end; [cbn; auto 8|intros; cbn; congruence|discriminate|discriminate|eapply tidy_leaf; reflexivity|];
      intros y; eapply hive_scalar_fits; [reflexivity|];
      first [apply hj_truth|apply hj_whole; cbn; tauto|apply hj_number; cbn; tauto|apply hj_text; cbn; tauto]).
    cbn in H0. injection H0 as <-. now constructor.
  - cbn [hive_parse] in H0. destruct (38 <? p)%Z; [discriminate|].
    match type of H0 with hive_finish ?u = _ => refine (hive_finish_field _ u _ d' [("precision", PInt p); ("scale", PInt s)] e' _ NO eq_refl _ _ eq_refl eq_refl _ _ _ _ H0) end;
      [cbn; auto 8|intros; cbn; congruence|discriminate|discriminate|eapply tidy_leaf; reflexivity|]. intros y; eapply hive_scalar_fits; [reflexivity|constructor].
  - cbn [hive_parse] in H0. match type of H0 with hive_finish ?u = _ => refine (hive_finish_field _ u _ d' [] e' _ NO eq_refl _ _ eq_refl eq_refl _ _ _ _ H0) end;
      [cbn; auto 8|intros; cbn; congruence|discriminate|discriminate|eapply tidy_leaf; reflexivity|]. intros y; eapply hive_scalar_fits; [reflexivity|constructor].
  - cbn [hive_parse] in H0. match type of H0 with hive_finish ?u = _ => refine (hive_finish_field _ u _ d' [] e' _ NO eq_refl _ _ eq_refl eq_refl _ _ _ _ H0) end;
      [cbn; auto 8|intros; cbn; congruence|discriminate|discriminate|eapply tidy_leaf; reflexivity|]. intros y; eapply hive_scalar_fits; [reflexivity|constructor].
  - cbn [hive_parse] in H0. inversion HC as [| | | | |k0 v0 C1 C2| |]; subst.
    apply rbind_Ok in H0 as (k & E1 & H0). apply rbind_Ok in H0 as (v & E2 & H0).
    destruct (hfield_fits _ _ _ _ (IHh1 C1 _ _ _ N0 E1)) as (T1 & _). destruct (hfield_fits _ _ _ _ (IHh2 C2 _ _ _ N0 E2)) as (T2 & V2 & _).
    match type of H0 with hive_finish ?u = _ => refine (hive_finish_field _ u _ d' [] e' _ NO eq_refl _ _ eq_refl eq_refl _ _ _ _ H0) end;
      [cbn; auto 8|intros; cbn; congruence|discriminate|discriminate| |].
    + apply every_iff. cbn [children]. split; [split; [reflexivity|exact Logic.I]|auto].
    + intros y. split; intros J.
      * inversion J as [? ? ? Fl| |? ? ? o AL| | |]; subst; [discriminate Fl|]. constructor. intros n x G. apply V2. eauto.
      * inversion J as [? ? ? F| |? ? o AL| | |]; subst; [inversion F|]. constructor. intros n x G. apply V2. eauto.
  - cbn [hive_parse] in H0. inversion HC as [| | | |k0 C1| | |]; subst.
    apply rbind_Ok in H0 as (k & E1 & H0). destruct (hfield_fits _ _ _ _ (IHh C1 _ _ _ N0 E1)) as (T1 & V1 & _).
    match type of H0 with hive_finish ?u = _ => refine (hive_finish_field _ u _ d' [] e' _ NO eq_refl _ _ eq_refl eq_refl _ _ _ _ H0) end;
      [cbn; auto 8|intros; cbn; congruence|discriminate|discriminate| |].
    + apply every_iff. cbn [children]. split; [split; [reflexivity|exact Logic.I]|auto].
    + intros y. split; intros J.
      * inversion J as [? ? ? Fl|? ? ? ? l AL| | | |]; subst; [discriminate Fl|]. constructor. intros x G. apply V1. eauto.
      * inversion J as [? ? ? F|? l AL| | | |]; subst; [inversion F|]. constructor. intros x G. apply V1. eauto.
  - inversion HC as [| | | | | | |? NN SC]; subst. eapply union_field; eauto.
  - rewrite parse_struct in H0. inversion HC as [| | | | | |? ? ND NE LEN CS|]; subst.
    destruct (parse_fields ns ts) as [fs|] eqn:E; cbn [rbind] in H0; [|discriminate].
    assert (FS : Forall2 (fun nh t => exists d, hfield (snd nh) d [("name", PStr (fst nh))] t) (combine ns ts) fs).
    { apply parse_fields_field; auto. rewrite Forall_forall in *. intros h I. apply H; auto. }
    assert (MF : map fst (combine ns ts) = ns).
    { clear -LEN. revert ts LEN. induction ns as [|n ns IH]; intros [|t ts] L; try discriminate L; cbn; auto. f_equal. apply IH. now injection L. }
    destruct (hive_fields_json (combine ns ts) fs (mkC PNone PNone d' e') eq_refl) as (T & V); [now rewrite MF|now rewrite MF|exact FS|].
    match type of H0 with hive_finish ?u = _ => refine (hive_finish_field _ u _ d' [] e' _ NO eq_refl _ _ eq_refl eq_refl _ _ T _ H0) end;
      [cbn; auto 8|intros; cbn; congruence|discriminate|discriminate|].
    intros y. split; intros J.
    + destruct (struct_object _ _ _ J) as [o ->]. constructor. now apply V.
    + inversion J as [? ? ? F| | |? ? o O| |]; subst; [inversion F|]. now apply V.
  - discriminate.
Qed.
Theorem hive_accepts name cols t d v : hive_columns_apart cols -> hive_to_recap name cols = Ok t -> schema_output FJson t = Ok (ODocument (PDict d)) ->
  (accepts (PDict d) (PDict d) v <-> exists o, v = PDict o /\ hive_object (hive_shape cols) o).
Proof.
  intros (ND & NE & AP) H S. unfold hive_to_recap in H. destruct (rmap hive_column cols) as [ts|] eqn:M; cbn [rbind] in H; [|discriminate]. injection H as <-.
  apply rmap_all in M.
  assert (MF : map fst (hive_shape cols) = map hc_name cols) by (unfold hive_shape; rewrite map_map; reflexivity).
  assert (F : Forall2 (fun nh t => exists d, hfield (snd nh) d [("name", PStr (fst nh))] t) (hive_shape cols) ts).
  { clear -M AP. induction M as [|c t cols ts E M IH]; [constructor|]. inversion AP; subst. constructor; auto. cbn [fst snd]. eexists. eapply hive_field_json; [assumption|right; eauto|exact E]. }
  destruct (hive_fields_json (hive_shape cols) ts (mkC PNone PNone PNone [("name", PStr name)]) eq_refl) as (T & V); [now rewrite MF|now rewrite MF|exact F|].
  rewrite (printed_iff _ _ v T S). split.
  - intros J. destruct (struct_object _ _ _ J) as [o ->]. exists o. split; auto. now apply V.
  - intros (o & -> & O). now apply V.
Qed.

(** ** NULL *)
Lemma bq_null f : ~ bq_value f PNone.
Proof. intros V. inversion V as [? ty ? J T|]; subst. apply null_type in T. subst ty. inversion J. Qed.
Lemma hive_null h : hive_apart h -> h <> HPrim HVoid -> ~ hive_choice h -> ~ hive_value h PNone.
Proof.
  intros A N C V. inversion V as [? ty ? J T| | | |? h' ty ? I J T|]; subst; [| |now apply C].
  - apply null_type in T. subst ty. inversion J; subst. now apply N.
  - apply null_type in T. subst ty. inversion J; subst. inversion A as [| | | | | | |? _ S]; subst. rewrite Forall_forall in S. now destruct (S _ I).
Qed.
Lemma column_in c cols : In c cols -> In (hc_name c, hc_type c) (hive_shape cols).
Proof. intros I. unfold hive_shape. apply in_map_iff. exists c. auto. Qed.
Theorem nulls_rejected :
  (forall fs t d g n o, bq_apart fs -> bq_to_recap fs = Ok t -> schema_output FJson t = Ok (ODocument (PDict d)) ->
     In g fs -> bq_name g = PStr n -> dget n o = Some PNone -> ~ accepts (PDict d) (PDict d) (PDict o)) /\
  (forall name cols t d c o, hive_columns_apart cols -> hive_to_recap name cols = Ok t -> schema_output FJson t = Ok (ODocument (PDict d)) ->
     In c cols -> hc_type c <> HPrim HVoid -> ~ hive_choice (hc_type c) -> dget (hc_name c) o = Some PNone -> ~ accepts (PDict d) (PDict d) (PDict o)) /\
  (forall name cols t d c h o l, hive_columns_apart cols -> hive_to_recap name cols = Ok t -> schema_output FJson t = Ok (ODocument (PDict d)) ->
     In c cols -> hc_type c = HList h -> h <> HPrim HVoid -> ~ hive_choice h -> dget (hc_name c) o = Some (PList l) -> In PNone l ->
     ~ accepts (PDict d) (PDict d) (PDict o)).
Proof.
  split; [|split].
  - intros fs t d g n o AP H S I N G A. apply (bq_accepts _ _ _ _ AP H S) in A as (o' & [= <-] & O). inversion O as [? ? _ P]; subst.
    specialize (P g n _ I N G). inversion P; subst. eapply bq_null; eauto.
  - intros name cols t d c o AP H S I NV NC G A. assert (AC : hive_apart (hc_type c)) by (destruct AP as (_ & _ & AP); rewrite Forall_forall in AP; auto). apply (hive_accepts _ _ _ _ _ AP H S) in A as (o' & [= <-] & O). inversion O as [? ? _ P]; subst.
    exact (hive_null _ AC NV NC (P _ _ _ (column_in _ _ I) G)).
  - intros name cols t d c h o l AP H S I HT NV NC G IN A. assert (AC : hive_apart (hc_type c)) by (destruct AP as (_ & _ & AP); rewrite Forall_forall in AP; auto). apply (hive_accepts _ _ _ _ _ AP H S) in A as (o' & [= <-] & O). inversion O as [? ? _ P]; subst.
    pose proof (P _ _ _ (column_in _ _ I) G) as V. rewrite HT in V. inversion V as [? ? ? J|? ? AL| | | |]; subst; [inversion J|]. rewrite HT in AC. inversion AC; subst. refine (hive_null _ _ NV NC (AL _ IN)). assumption.
Qed.

Theorem unions_rejected name cols t d c hs a b o : hive_columns_apart cols -> hive_to_recap name cols = Ok t ->
  schema_output FJson t = Ok (ODocument (PDict d)) -> In c cols -> hc_type c = HUnion hs -> In a hs -> In b hs -> a <> b ->
  (dget (hc_name c) o = None -> ~ accepts (PDict d) (PDict d) (PDict o)) /\
  (forall x ta tb, dget (hc_name c) o = Some x -> hive_json_type a ta -> hive_json_type b tb -> has_type x ta -> has_type x tb ->
     ~ accepts (PDict d) (PDict d) (PDict o)).
Proof.
  intros AP H S I E Ia Ib NE. assert (AC : hive_apart (hc_type c)) by (destruct AP as (_ & _ & AC); rewrite Forall_forall in AC; auto). rewrite E in AC. inversion AC as [| | | | | | |? _ SC]; subst.
  rewrite Forall_forall in SC. pose proof (column_in _ _ I) as IN. split.
  - intros G A. apply (hive_accepts _ _ _ _ _ AP H S) in A as (o' & [= <-] & O). inversion O as [? ? Q _]; subst. apply (Q _ _ IN); auto. right. rewrite E. exists hs, a, b. auto.
  - intros x ta tb G Ja Jb Ta Tb A. apply (hive_accepts _ _ _ _ _ AP H S) in A as (o' & [= <-] & O). inversion O as [? ? _ P]; subst. specialize (P _ _ _ IN G). rewrite E in P.
    inversion P as [? ? ? J| | | |? h ty ? Ih J T UQ|]; subst; [inversion J| |].
    + apply NE. now rewrite (UQ a ta Ia Ja Ta), (UQ b tb Ib Jb Tb).
    + apply null_type in Ta. subst ta. destruct (SC a Ia) as [N _]. inversion Ja; subst. now apply N.
Qed.
