(** Proofs for C124: Avro records with unions of nested types that are read and printed again. *)
From Coq Require Import String Ascii List NArith ZArith Bool Lia.
From Verif Require Import PyVal PyValFacts RType Registry SpecTypes SpecDb SpecRows SpecAvro SpecAvroSchema SpecAvroData SpecConverted SpecDeepAvro
  FromDict ToDict Avro AvroProps AvroSchema AvroData AvroDataWritten JsonSchema HiveFacts Commands PrintedFormats Converted ConvertedAvro.
Import ListNotations.
Open Scope nat_scope.
Open Scope string_scope.
Open Scope list_scope.

Scheme deep_min := Minimality for deep Sort Prop
  with deep_fields_min := Minimality for deep_fields Sort Prop
  with deep_list_min := Minimality for deep_list Sort Prop.
Combined Scheme deep_all from deep_min, deep_fields_min, deep_list_min.
(** What is read for them. *)
Inductive deep_read : rtype -> Prop :=
| dr_simple t : simple t -> flatly (get_c t) -> deep_read t
| dr_list c t : flatly c -> deep_read t -> deep_read (TList c t PNone (PBool true))
| dr_map c t : flatly c -> deep_read t -> deep_read (TMap c (TString c0 (PInt longest) (PBool true)) t)
| dr_date c : sized_alias c -> logical_is c "build.recap.Date" -> deep_read (TInt c (PInt 32) (PBool true))
| dr_stamp c u : sized_alias c -> logical_is c "build.recap.Timestamp" -> extra_is c "unit" (PStr u) -> u = "millisecond" \/ u = "microsecond" ->
    deep_read (TInt c (PInt 64) (PBool true))
| dr_decimal c v p m : sized_alias c -> logical_is c "build.recap.Decimal" -> extra_is c "precision" (PInt p) -> extra_is c "scale" (PInt m) ->
    (0 < p)%Z -> (0 <= m <= p)%Z -> deep_read (TBytes c (PInt longest) (PBool v))
| dr_enum c l : flatly c -> deep_read (TEnum c (PList l))
| dr_struct c fs : flatly c -> has_name (TStruct c fs) -> fields_read fs -> deep_read (TStruct c fs)
with fields_read : list rtype -> Prop :=
| fr_nil : fields_read []
| fr_prim f fs : simple f -> flatly (get_c f) -> has_name f -> fields_read fs -> fields_read (f :: fs)
| fr_union c ts fs : flatly c -> has_name (TUnion c ts) -> list_read ts -> (forall x, In x ts -> is_null x = true -> x = TNull c0) ->
    fields_read fs -> fields_read (TUnion c ts :: fs)
with list_read : list rtype -> Prop :=
| lr_nil : list_read []
| lr_cons t ts : deep_read t -> list_read ts -> list_read (t :: ts).
Scheme deep_read_min := Minimality for deep_read Sort Prop
  with fields_read_min := Minimality for fields_read Sort Prop
  with list_read_min := Minimality for list_read Sort Prop.
Combined Scheme read_all from deep_read_min, fields_read_min, list_read_min.
Lemma text_key : proper (TString c0 (PInt longest) (PBool true)).
Proof. apply proper_intro; [left; reflexivity|exact Logic.I|constructor]. Qed.
Lemma aliased c : sized_alias c -> c_alias c = PNone \/ exists a, c_alias c = PStr a.
Proof. intros A. exact A. Qed.
Lemma leaf_node t : sized_alias (get_c t) -> children t = [] -> match t with TProxy _ _ | TStruct _ _ | TUnion _ _ => False | _ => True end -> every json_node t.
Proof. intros A C N. apply every_iff. split; [split; [now apply aliased|destruct t; try exact Logic.I; contradiction]|]. rewrite C. constructor. Qed.
Lemma deep_ok :
  (forall t, deep_read t -> proper t /\ fit false t /\ (exists o, writes t (PDict o)) /\ every json_node t) /\
  (forall fs, fields_read fs -> Forall proper fs /\ (forall f, In f fs -> fit true f /\ has_name f)
     /\ (exists l, Forall2 (fun f o => writes f (PDict o)) fs l) /\ Forall (every json_node) fs) /\
  (forall ts, list_read ts -> Forall proper ts /\ (forall t, In t ts -> fit false t) /\ (exists l, Forall2 writes ts l) /\ Forall (every json_node) ts).
Proof.
  apply read_all.
  - intros t S F. split; [now apply simple_proper|]. split; [now apply simple_fit|]. split; [now apply simple_writes|now apply simple_node].
  - intros c t F D (P & G & (o & W) & E). split; [apply proper_intro; [apply F|exact Logic.I|cbn [children]; constructor; [exact P|constructor]]|]. split; [apply fit_list; [apply F|exact G]|]. split.
    + eexists. eapply writes_object; [|reflexivity]. eapply wa_list; [now apply not_logical_flatly|exact W].
    + apply every_iff. split; [split; [apply F|exact Logic.I]|]. cbn [children]. constructor; [exact E|constructor].
  - intros c t F D (P & G & (o & W) & E). split; [apply proper_intro; [apply F|exact Logic.I|cbn [children]; constructor; [exact text_key|constructor; [exact P|constructor]]]|].
    split; [apply fit_map; [apply F|lia|exact G]|]. split.
    + eexists. eapply writes_object; [|reflexivity]. eapply wa_map; [now apply not_logical_flatly|exact W].
    + apply every_iff. split; [split; [apply F|exact Logic.I]|]. cbn [children]. constructor; [|constructor; [exact E|constructor]].
      apply every_iff. split; [split; [now left|exact Logic.I]|constructor].
  - intros c A L. split; [apply proper_intro; [exact A|exact Logic.I|constructor]|]. split; [now apply fit_date|]. split; [|now apply leaf_node].
    eexists. eapply writes_object; [|reflexivity]. apply wa_logical. eapply lb_date; [exact L|left; reflexivity|lia].
  - intros c u A L U V. split; [apply proper_intro; [exact A|exact Logic.I|constructor]|]. split; [now apply fit_timestamp|]. split; [|now apply leaf_node].
    assert (J : exists l, In (u, l) [("millisecond", "timestamp-millis"); ("microsecond", "timestamp-micros")]).
    { destruct V as [-> | ->]; eexists; [left|right; left]; reflexivity. }
    destruct J as [l J]. eexists. eapply writes_object; [|reflexivity]. apply wa_logical. apply (lb_timestamp _ _ 64%Z u l); [exact L|left; reflexivity|lia|exact J|exact U].
  - intros c v p m A L P M B1 B2. split; [apply proper_intro; [exact A|exact Logic.I|constructor]|]. split; [eapply fit_decimal; eauto|]. split; [|now apply leaf_node].
    eexists. eapply writes_object; [|reflexivity]. apply wa_logical. eapply lb_decimal; [exact L|left; reflexivity|lia|exact P|eexists; left; reflexivity].
  - intros c l F. split; [apply proper_intro; [apply F|exact Logic.I|constructor]|]. split; [apply fit_enum; apply F|]. split; [|apply leaf_node; [apply F|reflexivity|exact Logic.I]].
    eexists. eapply writes_object; [|reflexivity]. apply wa_enum. now apply not_logical_flatly.
  - intros c fs F N D (P & G & (l & W) & E). split; [apply proper_intro; [apply F|exact Logic.I|exact P]|]. split; [apply fit_struct; [apply F|exact N|exact G]|]. split.
    + eexists. eapply writes_object; [|reflexivity]. eapply wa_struct; [now apply not_logical_flatly|exact W].
    + apply every_iff. split; [split; [apply F|]|exact E]. apply Forall_forall. intros f I. destruct (G f I) as [_ (n & X & Y)]. exists n. split; auto.
  - split; [constructor|]. split; [intros f []|]. split; [exists []; constructor|constructor].
  - intros f fs S F N D (P & G & (l & W) & E). split; [constructor; [now apply simple_proper|exact P]|].
    split; [intros g [<-|I]; [split; [now apply simple_fit|exact N]|now apply G]|].
    split; [|constructor; [now apply simple_node|exact E]]. destruct (simple_writes f S F) as [o O]. exists (o :: l). now constructor.
  - intros c ts fs F N LR (P1 & G1 & (l1 & W1) & E1) NU D (P & G & (l & W) & E).
    split; [constructor; [apply proper_intro; [apply F|exact Logic.I|exact P1]|exact P]|].
    split; [intros g [<-|I]; [split; [apply fit_union; [apply F|exact G1]|exact N]|now apply G]|]. split.
    + assert (O : exists o, writes (TUnion c ts) (PDict o)). { eexists. eapply writes_object; [|reflexivity]. eapply wa_union; [now apply not_logical_flatly|exact W1]. }
      destruct O as [o O]. exists (o :: l). now constructor.
    + constructor; [|exact E]. apply every_iff. split; [split; [apply F|exact NU]|exact E1].
  - split; [constructor|]. split; [intros f []|]. split; [exists []; constructor|constructor].
  - intros t ts D (P & G & (o & W) & E) LR (P1 & G1 & (l1 & W1) & E1). split; [now constructor|]. split; [intros g [<-|I]; auto|].
    split; [exists (PDict o :: l1); now constructor|now constructor].
Qed.
Lemma logical_simple s l : In (s, l) [("int", "date"); ("long", "timestamp-millis"); ("long", "timestamp-micros")] ->
  (l = "date" \/ l = "timestamp-millis" \/ l = "timestamp-micros") /\ In s avro_prims.
Proof. intros [I|[I|[I|[]]]]; injection I; intros; subst; cbn; tauto. Qed.
(** A field with a name. *)
Lemma head_read ns o t : field_head o -> reads ns (PDict o) t -> exists ns' nm, reads_as ns' o nm t /\
  forall c, described o nm PNone (full_of nm) [] c -> flatly c /\ exists m, dget "name" (c_extra c) = Some (PStr m) /\ m <> "".
Proof.
  intros (n & N & NE & ND & NS & L) R. inversion R as [|? ns' nm ? NA _ RA|]; subst; [|congruence].
  destruct (named_fun _ _ _ _ _ _ NA (named_simple ns o n N ND)) as [_ ->].
  eexists _, _. split; [exact RA|]. intros c D. split; [eapply described_flatly; eauto|]. destruct D as [_ _ _ X]. exists n. rewrite X. auto.
Qed.
Lemma reads_deep :
  (forall j, deep j -> forall ns t, reads ns j t -> deep_read t /\ (is_null t = true -> t = TNull c0)) /\
  (forall l, deep_fields l -> forall ns fs, Forall2 (fun j t => reads ns j t) l fs -> fields_read fs) /\
  (forall l, deep_list l -> forall ns ts, Forall2 (fun j t => reads ns j t) l ts -> list_read ts /\ forall x, In x ts -> is_null x = true -> x = TNull c0).
Proof.
  apply deep_all.
  - intros s I ns t R. destruct (reads_prim _ _ _ R I). split; [now apply dr_simple|]. eapply plain_null; eauto.
  - intros d j N L T F D IH ns t R. destruct (reads_unlogical _ _ _ L R) as (ns' & nm & RA). inversion RA; subst; try congruence; try (exfalso; not_this T F).
    match goal with X : dget "items" d = Some ?k |- _ => rewrite F in X; injection X; intros; subst k end. split; [|discriminate].
    apply dr_list; [eapply described_flatly; eauto|]. eapply IH; eauto.
  - intros d j N L T F D IH ns t R. destruct (reads_unlogical _ _ _ L R) as (ns' & nm & RA). inversion RA; subst; try congruence; try (exfalso; not_this T F).
    match goal with X : dget "values" d = Some ?k |- _ => rewrite F in X; injection X; intros; subst k end. split; [|discriminate].
    apply dr_map; [eapply described_flatly; eauto|]. eapply IH; eauto.
  - intros d s l N I T L Z ns t R. inversion R as [|? ns' nm ? NA TR RA|? ns' nm l' lo x c t' NA L' LA DE]; subst.
    { rewrite L in TR. destruct I as [I|[I|[I|[]]]]; injection I; intros; subst; discriminate TR. }
    rewrite L in L'. injection L'; intros; subst l'. destruct DE as [DL DA _ DX].
    assert (SA : sized_alias c) by (left; exact DA).
    assert (UX : forall k, k <> "name" -> k <> "default" -> dget k (c_extra c) = dget k x).
    { intros k K1 K2. rewrite DX. unfold label. destruct (String.eqb_spec k "name"); [contradiction|]. destruct (String.eqb_spec k "default"); [contradiction|]. reflexivity. }
    destruct I as [I|[I|[I|[]]]]; injection I; intros; subst s l; inversion LA as [| | |? ? ? IN|? ? IN|]; subst;
      try (cbn in IN; repeat destruct IN as [IN|IN]; try contradiction; injection IN; intros; subst; try discriminate); (split; [|discriminate]).
    + now apply dr_date.
    + eapply dr_stamp; [exact SA|exact DL| |left; reflexivity]. unfold extra_is. rewrite UX by discriminate. reflexivity.
    + eapply dr_stamp; [exact SA|exact DL| |right; reflexivity]. unfold extra_is. rewrite UX by discriminate. reflexivity.
  - intros d p m N T L Z DG ns t R. inversion R as [|? ns' nm ? NA TR RA|? ns' nm l' lo x c t' NA L' LA DE]; subst; [rewrite L in TR; discriminate TR|].
    rewrite L in L'. injection L'; intros; subst l'. destruct DE as [DL DA _ DX].
    assert (SA : sized_alias c) by (left; exact DA).
    assert (UX : forall k, k <> "name" -> k <> "default" -> dget k (c_extra c) = dget k x).
    { intros k K1 K2. rewrite DX. unfold label. destruct (String.eqb_spec k "name"); [contradiction|]. destruct (String.eqb_spec k "default"); [contradiction|]. reflexivity. }
    inversion LA as [ty p' s' n' v' TY PR SC SZ|  | |? ? ? IN|? ? IN|]; subst; try (cbn in IN; repeat destruct IN as [IN|IN]; try contradiction; discriminate).
    rewrite Z. destruct DG as (PP & B1 & B2 & SS). rewrite PP in PR. injection PR; intros; subst p'. split; [|discriminate].
    apply (dr_decimal _ _ p m); auto; unfold extra_is; rewrite UX by discriminate; cbn [dget String.eqb Ascii.eqb Bool.eqb]; auto.
    destruct SS as [SS|[SS ->]]; rewrite SS; reflexivity.
  - intros d l L T F ns t R. destruct (reads_unlogical _ _ _ L R) as (ns' & nm & RA). inversion RA; subst; try congruence; try (exfalso; not_this T F).
    match goal with X : dget "symbols" d = Some ?k |- _ => rewrite F in X; injection X; intros; subst k end. split; [|discriminate].
    apply dr_enum. eapply described_flatly; eauto.
  - intros d l L T (n & b & N & NB & ND & NE) F D IH ns t R. inversion R as [|? ns' nm ? NA _ RA|]; subst; [|congruence].
    assert (NM : exists f', nm = Some (f', b)).
    { destruct NB as [->|[a ->]].
      - destruct (named_fun _ _ _ _ _ _ NA (named_simple ns d b N ND)) as [_ ->]. eauto.
      - destruct (named_fun _ _ _ _ _ _ NA (named_full ns d a b N ND)) as [_ ->]. eauto. }
    destruct NM as [f' ->]. inversion RA; subst; try congruence; try (exfalso; not_this T F).
    match goal with X : dget "fields" d = Some ?v, Y : py_iter ?v = Ok ?k, Z : Forall2 _ ?k ?fs |- _ =>
      rewrite F in X; injection X; intros; subst v; cbn [py_iter] in Y; injection Y; intros; subst k; rename Z into FZ end.
    match goal with D : described _ _ _ _ _ c |- _ => rename D into DC end. split; [|discriminate]. apply dr_struct; [eapply described_flatly; eauto| |eapply IH; eauto].
    exists b. destruct DC as [_ _ _ X]. unfold extra. cbn [get_c]. rewrite X. auto.
  - intros ns fs A. inversion A. constructor.
  - intros o s l H T I D IH ns fs A. inversion A as [|? f ? fs' RF A']; subst. destruct (head_read _ _ _ H RF) as (ns' & nm & RA & DN).
    destruct (reads_as_prim _ _ _ _ _ RA T I) as [S G]. apply fr_prim; [exact S|exact G| |eapply IH; eauto].
    inversion RA; subst; try congruence; try (match goal with X : dget "type" _ = Some (PStr ?x) |- _ => rewrite T in X; injection X; intros; subst end; cbn in I; intuition discriminate).
    + match goal with P : primitive _ _ = Some _ |- _ => destruct (primitive_simple _ _ _ P) as [_ E] end. unfold has_name, extra. rewrite E. eapply DN; eauto.
    + eapply (DN c). assumption.
  - intros o js l H T DL IL D IH ns fs A. inversion A as [|? f ? fs' RF A']; subst. destruct (head_read _ _ _ H RF) as (ns' & nm & RA & DN).
    inversion RA; subst; try congruence. match goal with X : _ \/ _ |- _ => destruct X as [X|[X _]]; [|congruence] end.
    rewrite T in *. match goal with X : Some _ = Some _ |- _ => injection X; intros; subst end.
    match goal with X : Forall2 _ _ ts |- _ => destruct (IL _ _ X) as [LR NU] end.
    match goal with X : described _ _ _ _ _ c |- _ => destruct (DN c X) as [FC HN] end. apply fr_union; auto. eapply IH; eauto.
  - intros ns ts A. inversion A. split; [constructor|intros x []].
  - intros j l D IH DL IL ns ts A. inversion A as [|? t ? ts' RT A']; subst. destruct (IH _ _ RT), (IL _ _ A').
    split; [now constructor|]. intros x [<-|I]; auto.
Qed.
(** The parts of such a record. *)
Lemma deep_branch l j : deep_list l -> In j l -> deep j.
Proof. induction 1 as [|k l D DL IH]; intros []; subst; auto. Qed.
Lemma deep_fields_in l o : deep_fields l -> In (PDict o) l -> field_head o /\
  ((exists s, dget "type" o = Some (PStr s) /\ In s avro_prims) \/ exists js, dget "type" o = Some (PList js) /\ deep_list js).
Proof.
  induction 1 as [|o' s l H T I D IH|o' js l H T DL D IH]; intros [].
  - match goal with X : PDict _ = PDict _ |- _ => injection X; intros; subst o' end. eauto 6.
  - auto.
  - match goal with X : PDict _ = PDict _ |- _ => injection X; intros; subst o' end. eauto 6.
  - auto.
Qed.
Ltac typed J E := match type of J with In (_, _) _ => cbn in J; repeat destruct J as [J|J]; try contradiction; discriminate J end.
Lemma deep_part start doc ns j : deep doc -> part start doc ns j -> deep j \/ exists l, j = PList l /\ deep_list l.
Proof.
  intros DD. induction 1 as [|ns d' ns' nm l' o j PA IH E NA F' I EJ|ns d' j PA IH E F'|ns d' j PA IH E F'|ns l' j PA IH I|ns d' j PA IH E NN].
  - now left.
  - destruct IH as [IH|(l & IH & _)]; [|discriminate].
    inversion IH as [|? ? _ _ T'|? ? _ _ T'|? s lg _ J T'|? ? ? _ T'|? ? _ T'|? l0 _ T' _ F0 D0]; subst; rewrite E in T'; try discriminate T'; try (injection T'; intros; subst; typed J T').
    rewrite F' in F0. injection F0; intros; subst l0. destruct (deep_fields_in _ _ D0 I) as [_ [(s & T & P)|(js & T & P)]].
    + left. rewrite EJ in T. injection T; intros; subst. now apply deep_prim.
    + right. rewrite EJ in T. injection T; intros; subst. eauto.
  - destruct IH as [IH|(l & IH & _)]; [|discriminate]. left.
    inversion IH as [|? ? _ _ T' F0|? ? _ _ T'|? s lg _ J T'|? ? ? _ T'|? ? _ T'|? l0 _ T' _ F0 D0]; subst; rewrite E in T'; try discriminate T'; try (injection T'; intros; subst; typed J T'). congruence.
  - destruct IH as [IH|(l & IH & _)]; [|discriminate]. left.
    inversion IH as [|? ? _ _ T'|? ? _ _ T' F0|? s lg _ J T'|? ? ? _ T'|? ? _ T'|? l0 _ T' _ F0 D0]; subst; rewrite E in T'; try discriminate T'; try (injection T'; intros; subst; typed J T'). congruence.
  - destruct IH as [IH|(l & IH & K)]; [inversion IH|]. injection IH; intros; subst l'. left. eapply deep_branch; eauto.
  - destruct IH as [IH|(l & IH & _)]; [|discriminate]. left.
    inversion IH as [|? ? _ _ T'|? ? _ _ T'|? s lg _ J T'|? ? ? _ T'|? ? _ T'|? l0 _ T']; subst; rewrite E in T'; injection T'; intros; subst j.
    + elim (NN "array" eq_refl). cbn. tauto.
    + elim (NN "map" eq_refl). cbn. tauto.
    + apply deep_prim. eapply logical_simple; eauto.
    + apply deep_prim. cbn. tauto.
    + elim (NN "enum" eq_refl). cbn. tauto.
    + elim (NN "record" eq_refl). cbn. tauto.
Qed.
Lemma deep_tidy start doc : deep doc -> tidy start doc /\ plain_references start doc.
Proof.
  intros DD. split; [split|].
  - intros ns d' PA. destruct (deep_part _ _ _ _ DD PA) as [E|(l & E & _)]; [|discriminate].
    inversion E as [|? ? NL LN T'|? ? NL LN T'|? s lg NL J T' LN SZ|? ? ? NL T' LN SZ DG|? ? LN T'|? ? LN T']; subst.
    + split; [unfold meant_here; now rewrite LN|intros; exact NL].
    + split; [unfold meant_here; now rewrite LN|intros; exact NL].
    + split; [|intros; exact NL]. unfold meant_here. rewrite LN. split; [|now right]. eapply meant_other; [exact T'|].
      cbn in J. repeat destruct J as [J|J]; try contradiction; injection J; intros; subst; cbn; tauto.
    + split; [|intros; exact NL]. unfold meant_here. rewrite LN. split; [|now right]. eapply meant_bytes; eauto.
    + split; [unfold meant_here; now rewrite LN|]. intros X. elim (X "enum"); [cbn; tauto|exact T'].
    + split; [unfold meant_here; now rewrite LN|]. intros X. elim (X "record"); [cbn; tauto|exact T'].
  - intros ns d' l' o PA E' F' I. destruct (deep_part _ _ _ _ DD PA) as [E|(l & E & _)]; [|discriminate].
    inversion E as [|? ? _ _ T'|? ? _ _ T'|? s lg _ J T'|? ? ? _ T'|? ? _ T'|? l0 _ T' _ F0 D0]; subst; rewrite E' in T'; try discriminate T'; try (injection T'; intros; subst; typed J T').
    rewrite F' in F0. injection F0; intros; subst l0. destruct (deep_fields_in _ _ D0 I) as [(n & N & NE & ND & NS & LO) _]. split; [eauto|auto].
  - intros ns s ns' d' PS [RF _] DF. destruct (deep_part _ _ _ _ DD PS) as [E|(l & E & _)]; [|discriminate]. inversion E; subst. contradiction.
Qed.
Lemma avro_deep j start ns R R' t : namespaced j ->
  start = PStr ns \/ (start = PNone /\ ns = "" /\ exists d nm, j = PDict d /\ dget "name" d = Some (PStr nm)) ->
  avro_to j start R = (R', Ok t) -> deep_record j ->
  (exists v, schema_output FAvro t = Ok (ODocument v) /\ forall x, SpecAvroData.data ns j ns j x -> SpecAvroData.data "" v "" v x)
  /\ exists v, schema_output FJson t = Ok (ODocument v).
Proof.
  intros N S H [F _]. destruct (to_reads _ _ _ _ _ _ N S H) as [RD _].
  destruct (proj1 reads_deep _ F _ _ RD) as [DR _]. destruct (proj1 deep_ok _ DR) as (P & FT & (o & W) & E). split.
  - destruct (writes_from builtin_aliases _ _ P W) as [v V]. destruct (deep_tidy ns _ F) as [TI PR].
    exists v. unfold schema_output. rewrite V. split; [reflexivity|]. intros x D. eapply data_written; eauto. eapply data_kept; eauto.
  - destruct (json_printed builtin_aliases _ E) as [d D]. exists (PDict d). unfold schema_output. rewrite D. reflexivity.
Qed.

(** ** Fields with a nested type *)
Lemma refers_dotted ns s : substr_in "." (refers ns s) = true.
Proof. unfold refers. destruct (substr_in "." s) eqn:E; [exact E|apply dot_in]. Qed.
Lemma described_sized d nm lo x c : described d nm lo (full_of nm) x c -> sized_alias c.
Proof. intros [_ A _ _]. unfold sized_alias. rewrite A. destruct nm as [[f b]|]; cbn; eauto. Qed.
Lemma proper_relabelled t x : proper t -> proper (set_c t (mkC (c_logical (get_c t)) (c_alias (get_c t)) (c_doc (get_c t)) x)).
Proof. intros P. inversion P as [? S X C]; subst. destruct t; apply proper_intro; cbn in *; auto. Qed.
Lemma reads_proper : forall ns j t, reads ns j t -> proper t
with reads_as_proper : forall ns d nm t, reads_as ns d nm t -> proper t.
Proof.
  - intros ns j t H. destruct H as [s t H|d ns' nm t N L H|d ns' nm l lo x c t N L LA D].
    + exact (reads_proper _ _ _ H).
    + exact (reads_as_proper _ _ _ _ H).
    + assert (S : sized_alias c) by (destruct D as [_ A _ _]; left; exact A).
      destruct LA; apply proper_intro; try exact S; try exact Logic.I; constructor.
  - intros ns d nm t H. destruct H as [d nm s c t T D P|d nm c n z v T D SZ I LE|d nm c v l fs T D F PI A|d nm c s T D F|d nm c j t T D F R|d nm c k j t T D F R K|d nm c l ts T D A|d nm c s T NP NC D|d nm e t0 t x T R E X].
    + destruct (primitive_simple _ _ _ P) as [S E]. apply simple_proper; [exact S|]. rewrite E. eapply described_flatly; eauto.
    + apply proper_intro; [eapply described_sized; eauto|exact Logic.I|constructor].
    + apply proper_intro; [eapply described_sized; eauto|exact Logic.I|]. cbn [children]. clear - A reads_proper.
      revert l fs A. fix G 3. intros l fs A. destruct A as [|j t l fs RJ A]; constructor; [exact (reads_proper _ _ _ RJ)|exact (G _ _ A)].
    + apply proper_intro; [eapply described_sized; eauto|exact Logic.I|constructor].
    + apply proper_intro; [eapply described_sized; eauto|exact Logic.I|]. cbn [children]. constructor; [exact (reads_proper _ _ _ R)|constructor].
    + apply proper_intro; [eapply described_sized; eauto|exact Logic.I|]. cbn [children]. constructor; [subst k; exact text_key|constructor; [exact (reads_proper _ _ _ R)|constructor]].
    + apply proper_intro; [eapply described_sized; eauto|exact Logic.I|]. cbn [children]. clear - A reads_proper.
      revert l ts A. fix G 3. intros l ts A. destruct A as [|j t l ts RJ A]; constructor; [exact (reads_proper _ _ _ RJ)|exact (G _ _ A)].
    + destruct D as [_ A _ _]. apply proper_intro; [right; eauto|exists (refers ns s); split; [exact A|apply refers_dotted]|constructor].
    + subst t. apply proper_relabelled. exact (reads_proper _ _ _ R).
Qed.
Lemma direct_written ns o e s k v f r : dget "logicalType" o = None -> dget "type" o = Some (PDict e) -> dget "logicalType" e = None ->
  dget "type" e = Some (PStr s) -> dget k e = Some v -> In (s, k) [("array", "items"); ("map", "values"); ("record", "fields"); ("enum", "symbols")] ->
  reads ns (PDict o) f -> writes f (PDict r) -> dget "type" r = Some (PStr s).
Proof.
  intros LO TO LE TE F I R W. destruct (reads_unlogical _ _ _ LO R) as (ns' & nm & RA).
  inversion RA as [? ? ? ? ? X|? ? ? ? ? ? X|? ? ? ? ? ? X|? ? ? ? X|? ? ? ? ? X|? ? ? ? ? ? X|? ? ? ? ? X|? ? ? ? X|? ? e' t0 ? x X RE E LX]; subst; try congruence; [destruct X as [X|[X _]]; congruence|].
  rewrite TO in X. injection X; intros; subst e'. destruct (reads_unlogical _ _ _ LE RE) as (ns2 & nm2 & RB). clear RA RE R LX.
  inversion W as [|? b ? WB D]; subst. rewrite D, dget_app, labels_free by (cbn; tauto).
  assert (T0 : exists c, flatly c /\ ((exists t, s = "array" /\ t0 = TList c t PNone (PBool true)) \/ (exists q t, s = "map" /\ t0 = TMap c q t)
    \/ (exists fs, s = "record" /\ t0 = TStruct c fs) \/ (exists y, s = "enum" /\ t0 = TEnum c y))).
  { cbn in I. repeat destruct I as [I|I]; try contradiction; injection I; intros; subst s k; clear I;
      inversion RB; subst; try congruence; try (exfalso; not_this TE F); exists c; (split; [eapply described_flatly; eauto|]); eauto 8. }
  destruct T0 as (c & [LC _] & T0).
  destruct T0 as [(t & -> & ->)|[(q & t & -> & ->)|[(fs & -> & ->)|(y & -> & ->)]]]; cbn [set_c get_c] in WB; inversion WB as [? ? LB| | | | | | | | | | | | | |]; subst; try reflexivity; inversion LB.
Qed.
Lemma fields_each start doc ns l r o : SpecAvroData.fields start doc ns l r -> In (PDict o) l -> exists j x, dget "type" o = Some j /\ SpecAvroData.data start doc ns j x.
Proof.
  induction 1; intros []; eauto.
  match goal with X : PDict _ = PDict _ |- _ => injection X; intros; subst end. eauto.
Qed.
Lemma avro_direct j start ns R R' t v : namespaced j ->
  start = PStr ns \/ (start = PNone /\ ns = "" /\ exists d nm, j = PDict d /\ dget "name" d = Some (PStr nm)) ->
  avro_to j start R = (R', Ok t) -> direct_field j -> schema_output FAvro t = Ok (ODocument v) -> forall w, ~ SpecAvroData.data "" v "" v w.
Proof.
  intros N S H (d & l & o & e & s & k & u & -> & LD & TD & FD & IO & LO & TO & LE & TE & KE & I) V w DW.
  destruct (to_reads _ _ _ _ _ _ N S H) as [RD _]. pose proof (reads_proper _ _ _ RD) as P.
  unfold schema_output in V. destruct (avro_from builtin_aliases t) as [v'|] eqn:AF; [|discriminate]. cbn [rbind] in V. injection V; intros; subst v'.
  destruct (from_writes _ _ _ P AF) as (r & -> & W). clear V AF P H N S.
  destruct (reads_unlogical _ _ _ LD RD) as (ns' & nm & RA). inversion RA; subst; try congruence; try (exfalso; not_this TD FD).
  match goal with X : dget "fields" d = Some ?v, Y : py_iter ?v = Ok ?k, Z : Forall2 _ ?k ?fs |- _ =>
    rewrite FD in X; injection X; intros; subst v; cbn [py_iter] in Y; injection Y; intros; subst k; rename Z into FZ end.
  inversion W as [|? b ? WB D]; subst. inversion WB as [? ? LB| | | | | | | | | | |? ? l' NL FW| | |]; subst; [inversion LB|].
  assert (TR : dget "type" r = Some (PStr "record")) by (rewrite D, dget_app, labels_free by (cbn; tauto); reflexivity).
  assert (FR : dget "fields" r = Some (PList (map PDict l'))) by (rewrite D, dget_app, labels_free by (cbn; tauto); reflexivity).
  assert (LR : dget "logicalType" r = None) by (rewrite D, dget_app, labels_free by (cbn; tauto); reflexivity).
  assert (Q : exists o', In (PDict o') (map PDict l') /\ dget "type" o' = Some (PStr s)).
  { clear - FZ FW IO LO TO LE TE KE I. revert l' FW. induction FZ as [|j f l fs RJ FZ IH]; [destruct IO|]. intros l' FW. inversion FW as [|? o' ? l2 WF FW']; subst.
    destruct IO as [->|IO].
    - exists o'. split; [now left|]. exact (direct_written _ o e s k u f o' LO TO LE TE KE I RJ WF).
    - destruct (IH IO _ FW') as (o2 & I2 & T2). exists o2. split; [now right|exact T2]. }
  destruct Q as (o' & IO' & TO').
  inversion DW as [| |? ? j ? IG TJ DJ|? ? ? ? LJ| ? ? ? ? ? TJ|? ? ? ? ? TJ|? ? ? ? ? TJ|? ? ? ? ? TJ|? ? ns2 nm2 l2 r2 IG TJ NA FL FS|]; subst; try congruence.
  - rewrite TR in TJ. injection TJ; intros; subst j. apply named_data in DJ. apply DJ. cbn. tauto.
  - rewrite FR in FL. injection FL; intros; subst l2. destruct (fields_each _ _ _ _ _ _ FS IO') as (j & x & TJ2 & DJ).
    rewrite TO' in TJ2. injection TJ2; intros; subst j. apply named_data in DJ. apply DJ. cbn in I. repeat destruct I as [I|I]; try contradiction; injection I; intros; subst; cbn; tauto.
Qed.
