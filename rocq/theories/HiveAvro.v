(** Proofs for C131: the Avro schemas of tables. *)
From Coq Require Import String Ascii List NArith ZArith QArith Bool Lia.
From Verif Require RowHive AvroProps FromDict NullableFacts PyValFacts.
From Verif Require Import PyVal PyValFacts RType Registry SpecTypes Nullable Url Dbapi SpecDb DbapiFacts DbapiMore BigQuery Hive SpecHive HiveFacts HiveMore
  Avro SpecAvro SpecAvroSchema SpecInstances SpecPrinted Commands PrintedFormats SpecRows SpecAvroData AvroDataWritten SpecNested SpecHiveAvro.
Import ListNotations.
Open Scope nat_scope.
Open Scope string_scope.
Open Scope list_scope.

(** ** What is printed *)
Definition avro_node (t : rtype) : Prop :=
  c_alias (get_c t) = PNone /\
  match t with
  | TNull c | TBool c | TUnion c _ | TList c _ _ _ => c_logical c = PNone
  | TFloat c n => c_logical c = PNone /\ (n = PInt 32 \/ n = PInt 64)
  | TInt c n s => s = PBool true /\ ((c_logical c = PNone /\ exists z, n = PInt z /\ (z <= 64)%Z) \/ (logical_is c "build.recap.Date" /\ n = PInt 32))
  | TString c n v => c_logical c = PNone /\ exists z, n = PInt z /\ (z <= max_len)%Z
  | TBytes c n v => (c_logical c = PNone /\ n = PInt 2147483647 /\ v = PBool true) \/
      (logical_is c "build.recap.Decimal" /\ n = PInt 16 /\ v = PBool false /\
       exists p m, extra_is c "precision" (PInt p) /\ extra_is c "scale" (PInt m) /\ (0 < p)%Z /\ (0 <= m <= p)%Z)
  | _ => False
  end.
Lemma pop_node t : avro_node t -> avro_node (after_pop t).
Proof.
  intros [A H]. unfold after_pop. split; [destruct t; exact A|]. destruct t; cbn [get_c set_c c_logical] in *; auto.
  unfold logical_is, extra_is in *. cbn [c_logical c_extra].
  destruct H as [H|(L & N & V & p & m & P & M & R)]; [left; exact H|]. right. split; auto. split; auto. split; auto. exists p, m.
  rewrite !dget_ddel. cbn. auto.
Qed.
(** The same types with texts of any length that Avro allows. *)
Inductive wide : htype -> Prop :=
| wi_prim p : In p [HVoid; HBoolean; HByte; HShort; HInt; HLong; HFloat; HDouble; HBinary; HDate] -> wide (HPrim p)
| wi_decimal p s : (1 <= p <= 38)%Z -> (0 <= s <= p)%Z -> wide (HDecimal p s)
| wi_varchar n : (n <= max_len)%Z -> wide (HVarchar n)
| wi_char n : (n <= max_len)%Z -> wide (HChar n)
| wi_list h : wide h -> wide (HList h)
| wi_union hs : Forall wide hs -> wide (HUnion hs).
Lemma shown_wide h : avro_shown h -> wide h.
Proof.
  induction h using htype_ind'; intros S; inversion S; subst; constructor; auto; try (unfold max_len; lia).
  rewrite Forall_forall in *. auto.
Qed.
Lemma parse_node h d e t : fine d e -> wide h -> hive_parse d e h = Ok t -> every avro_node t.
Proof.
  apply every_parse with (Q := wide).
  - apply pop_node.
  - intros u ts [A _] _. split; reflexivity.
  - split; reflexivity.
  - intros c ts ts' H. exact H.
  - intros c v l r v' _. split; reflexivity.
  - intros c k v k' v' [_ []].
  - intros c fs fs' [_ []].
  - intros p d' e' [_ _] Q. inversion Q as [? I| | | | |]; subst. split; [destruct p; reflexivity|].
    destruct p; cbn [hive_prim c_logical] in *; auto; try (split; auto; left; split; auto; eexists; split; [reflexivity|lia]); try (split; auto; fail);
      try (exfalso; cbn in I; intuition discriminate).
    split; auto. right. split; reflexivity.
  - intros p s d' e' _ Q. inversion Q; subst. split; [reflexivity|]. right. split; [reflexivity|]. split; auto. split; auto. exists p, s.
    split; [reflexivity|]. split; [reflexivity|]. lia.
  - intros n d' e' _ Q. inversion Q; subst. split; [reflexivity|]. split; [reflexivity|]. eexists. split; auto.
  - intros n d' e' _ Q. inversion Q; subst. split; [reflexivity|]. split; [reflexivity|]. eexists. split; auto.
  - intros k v Q. inversion Q.
  - intros x Q. inversion Q; subst. split; auto. intros. split; reflexivity.
  - intros hs Q. inversion Q; subst. split; auto. intros. split; reflexivity.
  - intros ns hs Q. inversion Q.
Qed.
Lemma head_ok c : c_alias c = PNone -> exists d, avro_head c = Ok d.
Proof. intros A. unfold avro_head. rewrite A. cbn [truthy]. eauto. Qed.
Definition schema_like (v : pyval) : Prop := (exists d, v = PDict d) \/ exists s, v = PStr s.
Lemma short_like d : schema_like (avro_short d).
Proof. unfold avro_short, schema_like. destruct (Nat.eqb _ _); [|eauto]. destruct (dget "type" d) as [[]|]; eauto. Qed.
Lemma node_printed prox R t : every avro_node t -> exists v, avro_tree prox R t = Ok v /\ schema_like v.
Proof.
  induction t as [c|c|c b0 s0|c b0|c n0 va|c n0 va|c x l r IH|c k x IHk IHx|c fs IH|c s|c ts IH|c rg] using rtype_ind'; intros E;
    apply every_iff in E as [[A N] F]; cbn [get_c children] in *; destruct (head_ok _ A) as [d HD]; cbn [avro_tree get_c]; rewrite HD; cbn [rbind];
    try (destruct N; fail); try (rewrite N; eexists; split; [reflexivity|apply short_like]; fail).
  - destruct N as [-> [[-> (z & -> & Z)]|[L ->]]].
    + cbn [as_int andb negb]. destruct (Z.leb_spec z 32); [eexists; split; [reflexivity|apply short_like]|].
      destruct (Z.leb_spec z 64); [|lia]. rewrite orb_true_r. eexists; split; [reflexivity|apply short_like].
    + unfold logical_is in L. rewrite L. destruct c as [lo al dc ex]; cbn [c_logical] in L; subst lo. eexists. split; [reflexivity|apply short_like].
  - destruct N as [-> [-> | ->]]; (eexists; split; [reflexivity|apply short_like]).
  - destruct N as [-> (z & -> & Z)]. cbn [as_int]. apply Z.leb_le in Z. rewrite Z. eexists; split; [reflexivity|apply short_like].
  - destruct N as [(-> & -> & ->)|(L & -> & -> & p & m & P & M & _)]; [eexists; split; [reflexivity|apply short_like]|].
    unfold logical_is, extra_is in *. destruct c as [lo al dc ex]; cbn [c_logical c_extra] in *; subst lo. cbn [avro_logical as_int get_c c_extra]. rewrite P.
    eexists. split; [reflexivity|apply short_like].
  - rewrite N. inversion F; subst. destruct (IH ltac:(assumption)) as (v & V & _). rewrite V. cbn [rbind]. eexists. split; [reflexivity|apply short_like].
  - rewrite N. clear N.
    assert (X : exists l, (fix go (l : list rtype) : res (list pyval) :=
                  match l with
                  | [] => Ok []
                  | x :: xs => (y <- avro_tree prox R x ;; ys <- go xs ;; Ok (y :: ys))%res
                  end) ts = Ok l).
    { clear HD A. induction ts as [|x ts IHt]; [eauto|]. inversion IH; inversion F; subst.
      destruct IHt as [l L]; auto. match goal with H : _ -> exists v, avro_tree prox R x = Ok v /\ _ |- _ => destruct H as (v & V & _); auto end.
      rewrite V. cbn [rbind]. rewrite L. cbn [rbind]. eauto. }
    destruct X as [l L]. rewrite L. cbn [rbind]. eexists. split; [reflexivity|apply short_like].
Qed.
Lemma struct_printed prox R c fs : c_alias c = PNone -> c_logical c = PNone -> (forall f, In f fs -> exists v, avro_tree prox R f = Ok v /\ schema_like v) ->
  exists d, avro_tree prox R (TStruct c fs) = Ok (PDict d).
Proof.
  intros A L H. destruct (head_ok _ A) as [d HD]. cbn [avro_tree get_c]. rewrite HD, L. cbn [rbind].
  assert (X : exists l, (fix go (l : list rtype) : res (list pyval) :=
                  match l with
                  | [] => Ok []
                  | x :: xs => (y <- avro_tree prox R x ;; y <- avro_field y ;; ys <- go xs ;; Ok (y :: ys))%res
                  end) fs = Ok l).
  { clear HD A L. induction fs as [|x fs IH]; [eauto|]. destruct IH as [l L]; [intros; apply H; now right|]. destruct (H x (or_introl eq_refl)) as (v & V & S).
    rewrite V. cbn [rbind]. destruct S as [[o ->]|[s ->]]; cbn [avro_field rbind]; rewrite L; cbn [rbind]; eauto. }
  destruct X as [l X]. rewrite X. cbn [rbind]. unfold avro_short.
  assert (T : dget "type" (dset "fields" (PList l) (dset "type" (PStr "record") d)) = Some (PStr "record")) by (rewrite !dget_dset; reflexivity).
  assert (T2 : dget "fields" (dset "fields" (PList l) (dset "type" (PStr "record") d)) = Some (PList l)) by (rewrite !dget_dset; reflexivity).
  remember (dset "fields" _ _) as o eqn:O. clear O. destruct (Nat.eqb_spec (List.length o) 1) as [E|E]; [|eauto].
  destruct o as [|[a x] [|? ?]]; cbn in E; try lia. cbn [dget] in T, T2. destruct (String.eqb_spec "type" a) as [<-|]; [|discriminate].
  discriminate T2.
Qed.
Lemma table_columns name cols t : hive_to_recap name cols = Ok t ->
  exists fs, t = TStruct (mkC PNone PNone PNone [("name", PStr name)]) fs /\ Forall2 (fun c f => hive_column c = Ok f) cols fs.
Proof.
  unfold hive_to_recap. intros H. apply rbind_Ok in H as (fs & M & H). injection H as <-. exists fs. split; auto. eapply rmap_forall2; [|exact M]. auto.
Qed.
Lemma Forall2_in_r {A B} (P : A -> B -> Prop) l m y : Forall2 P l m -> In y m -> exists x, In x l /\ P x y.
Proof. induction 1; intros []; subst; eauto using in_eq. destruct IHForall2 as (z & I & Q); auto. eauto using in_cons. Qed.
Lemma Forall2_in_l {A B} (P : A -> B -> Prop) l m x : Forall2 P l m -> In x l -> exists y, In y m /\ P x y.
Proof. induction 1; intros []; subst; eauto using in_eq. destruct IHForall2 as (z & I & Q); auto. eauto using in_cons. Qed.
Lemma column_nodes c f : wide (hc_type c) -> hive_column c = Ok f -> every avro_node f.
Proof. intros S H. unfold hive_column in H. eapply parse_node; eauto using column_fine. Qed.
Theorem hive_avro_printed name cols t : Forall (fun c => avro_shown (hc_type c)) cols -> hive_to_recap name cols = Ok t ->
  exists o, schema_output FAvro t = Ok (ODocument (PDict o)).
Proof.
  intros S H. destruct (table_columns _ _ _ H) as (fs & -> & F). rewrite Forall_forall in S.
  unfold schema_output, avro_from. cbn [avro_from_f].
  match goal with |- context [avro_tree ?p ?R ?t] => destruct (struct_printed p R (mkC PNone PNone PNone [("name", PStr name)]) fs) as [d D] end; auto.
  - intros f I. destruct (Forall2_in_r _ _ _ _ F I) as (c & J & E). apply node_printed. apply (column_nodes c); auto. apply shown_wide. auto.
  - rewrite D. cbn [rbind]. eauto.
Qed.

(** ** Rows *)
Lemma node_fit t : every avro_node t -> fit false t.
Proof.
  induction t as [c|c|c b0 s0|c b0|c n0 va|c n0 va|c x l r IH|c k x IHk IHx|c fs IH|c s|c ts IH|c rg] using rtype_ind'; intros E;
    apply every_iff in E as [[A N] F]; cbn [get_c children] in *; try (destruct N; fail).
  - now constructor.
  - now constructor.
  - destruct N as [-> [[L (z & -> & Z)]|[L ->]]]; [now constructor|]. now apply fit_date.
  - now constructor.
  - destruct N as [L (z & -> & _)]. now constructor.
  - destruct N as [(L & -> & ->)|(L & -> & -> & p & m & P & M & B1 & B2)]; [now constructor|]. eapply fit_decimal; eauto.
  - inversion F; subst. constructor; auto.
  - constructor; auto. rewrite Forall_forall in *. auto.
Qed.
Lemma node_proper t : every avro_node t -> proper t.
Proof.
  induction t as [c|c|c b0 s0|c b0|c n0 va|c n0 va|c x l r IH|c k x IHk IHx|c fs IH|c s|c ts IH|c rg] using rtype_ind'; intros E;
    apply every_iff in E as [[A N] F]; cbn [get_c children] in *; try (destruct N; fail); (constructor; [unfold sized_alias; cbn [get_c]; rewrite A; auto|exact Logic.I|cbn [children]]); auto.
  - inversion F; subst. auto.
  - rewrite Forall_forall in *. auto.
Qed.
(** Values of the same kind with texts of other lengths; the schema does not show lengths. *)
Inductive retold : datum -> datum -> Prop :=
| re_same v : retold v v
| re_text s s' : (Z.of_nat (String.length s) <= max_len)%Z -> retold (DText s) (DText s')
| re_list l l' : Forall2 retold l l' -> retold (DList l) (DList l').
Fixpoint widen (t : rtype) : rtype :=
  match t with
  | TString c _ _ => TString c (PInt max_len) (PBool true)
  | TList c x n va => TList c (widen x) n va
  | TUnion c ts => TUnion c (map widen ts)
  | _ => t
  end.
Lemma widen_c t : get_c (widen t) = get_c t.
Proof. destruct t; reflexivity. Qed.
Lemma widen_node t : every avro_node t -> every avro_node (widen t).
Proof.
  induction t as [c|c|c b0 s0|c b0|c n0 va|c n0 va|c x l r IH|c k x IHk IHx|c fs IH|c s|c ts IH|c rg] using rtype_ind'; cbn [widen]; auto; intros E;
    apply every_iff in E as [[A N] F]; cbn [get_c children] in *; apply every_iff; (split; [split; cbn [get_c]; auto|cbn [children]; auto]).
  - destruct N as [N _]. split; auto. eexists. split; [reflexivity|]. reflexivity || lia.
  - inversion F; subst. constructor; auto.
  - apply Forall_forall. intros y I. apply in_map_iff in I as (z & <- & I). rewrite Forall_forall in *. auto.
Qed.
Lemma widen_tree prox R t : every avro_node t -> avro_tree prox R (widen t) = avro_tree prox R t.
Proof.
  induction t as [c|c|c b0 s0|c b0|c n0 va|c n0 va|c x l r IH|c k x IHk IHx|c fs IH|c s|c ts IH|c rg] using rtype_ind'; cbn [widen]; auto; intros E;
    apply every_iff in E as [[A N] F]; cbn [get_c children] in *.
  - destruct N as [L (z & -> & Z)]. cbn [avro_tree get_c]. rewrite L. destruct (avro_head c); cbn [rbind]; auto. cbn [as_int].
    apply Z.leb_le in Z. rewrite Z. reflexivity.
  - inversion F; subst. cbn [avro_tree get_c]. rewrite IH by assumption. reflexivity.
  - cbn [avro_tree get_c]. rewrite N. destruct (avro_head c); cbn [rbind]; auto.
    match goal with |- rbind ?a _ = rbind ?b _ => assert (EQ : a = b); [|now rewrite EQ] end. clear -IH F.
    induction ts as [|x ts IHt]; auto. inversion IH; inversion F; subst. cbn [map]. rewrite IHt by assumption.
    match goal with H : _ -> avro_tree prox R (widen x) = _ |- _ => rewrite H by assumption end. reflexivity.
Qed.
Lemma same_length {A B} (P : A -> B -> Prop) l m : Forall2 P l m -> List.length l = List.length m.
Proof. induction 1; cbn; auto. Qed.
Lemma widen_holds env t : every avro_node t -> forall v w, holds env t w -> retold v w -> holds env (widen t) v.
Proof.
  induction t as [c|c|c b0 s0|c b0|c n0 va|c n0 va|c x l r IH|c k x IHk IHx|c fs IH|c s|c ts IH|c rg] using rtype_ind'; intros E v w H V;
    apply every_iff in E as [[A N] F]; cbn [get_c children] in *; try (destruct N; fail); cbn [widen].
  - inversion H; subst; inversion V; subst; auto.
  - inversion H; subst; inversion V; subst; auto.
  - inversion H; subst; inversion V; subst; auto.
  - inversion H; subst; inversion V; subst; auto.
  - inversion H as [| | | | | | |c1 n1 va1 s1 FT| | | | | | | |]; subst. destruct N as [_ (z & -> & Z)]. inversion V; subst; constructor.
    + unfold fits in *. cbn [truthy]. destruct (truthy va); lia.
    + unfold fits. cbn [truthy]. auto.
  - inversion H; subst; inversion V; subst; auto.
  - inversion H as [| | | | | | | | | |c1 t1 n1 va1 l1 FT HT| | | | |]; subst. inversion F; subst. inversion V; subst.
    + constructor; auto. intros y I. eapply IH; eauto. constructor.
    + constructor.
      * match goal with FA : Forall2 retold _ _ |- _ => rewrite (same_length _ _ _ FA) end. auto.
      * intros y I. match goal with FA : Forall2 retold _ _ |- _ => destruct (Forall2_in_l _ _ _ _ FA I) as (y' & J & RE) end. eauto.
  - inversion H; subst. rewrite Forall_forall in *. eapply h_union; [apply List.in_map; eassumption|]. eauto.
Qed.
Lemma text_of n : exists s, String.length s = n.
Proof. induction n as [|n [s E]]; [now exists ""|]. exists (String "a" s). cbn. now rewrite E. Qed.
Lemma shown_retold h : avro_shown h -> forall v, hive_in hive_stored h v -> exists w, retold v w /\ hive_in hive_taken h w.
Proof.
  induction h as [p|p s|n|n|k IHk x IHx|x IHx|hs IH|ns hs IH|] using htype_ind'; intros S v V; inversion S as [? I|? ? P Q|? B|? B|? S1|? S1]; subst.
  - exists v. split; [constructor|]. apply RowHive.hive_kept; auto. constructor; intros ->; cbn in I; intuition discriminate.
  - exists v. split; [constructor|]. apply RowHive.hive_kept; auto. constructor.
  - cbn [hive_in hive_stored] in V. destruct V as (s & -> & T1 & T2). exists (DText ""). split; [constructor; unfold max_len; lia|].
    cbn [hive_in hive_taken]. exists "". split; auto. cbn. lia.
  - cbn [hive_in hive_stored] in V. destruct V as (s & -> & T1 & T2). destruct (text_of (Z.to_nat n)) as [s' E].
    exists (DText s'). split; [constructor; unfold max_len; lia|]. cbn [hive_in hive_taken]. exists s'. split; auto. lia.
  - cbn [hive_in] in *. destruct V as (l & -> & V).
    assert (X : exists l', Forall2 retold l l' /\ forall w, In w l' -> w = DNull \/ hive_in hive_taken x w).
    { induction l as [|y l IHl]; [exists []; split; [constructor|intros ? []]|]. destruct IHl as (l' & F & G); [intros; apply V; now right|].
      destruct (V y (or_introl eq_refl)) as [->|Y].
      - exists (DNull :: l'). split; [constructor; auto; constructor|]. intros w [<-|I]; auto.
      - destruct (IHx S1 y Y) as (w & RW & HW). exists (w :: l'). split; [constructor; auto|]. intros u [<-|I]; auto. }
    destruct X as (l' & F & G). exists (DList l'). split; [now constructor|]. eauto.
  - cbn [hive_in] in *. clear S. induction hs as [|x hs IHs]; [destruct V|]. inversion IH; inversion S1; subst. destruct V as [V|V].
    + match goal with H : avro_shown x -> _ |- _ => destruct (H ltac:(assumption) v V) as (w & RW & HW) end. eauto.
    + destruct IHs as (w & RW & HW); auto. eauto.
Qed.
Lemma struct_same prox R c fs fs' : Forall2 (fun f g => avro_tree prox R f = avro_tree prox R g) fs fs' ->
  avro_tree prox R (TStruct c fs) = avro_tree prox R (TStruct c fs').
Proof.
  intros F. cbn [avro_tree get_c]. destruct (avro_head c); cbn [rbind]; auto. destruct (c_logical c); auto;
  match goal with |- rbind ?a _ = rbind ?b _ => assert (EQ : a = b); [|now rewrite EQ] end; induction F as [|f1 f2 fs1 fs2 E1 F1 IH]; auto; rewrite E1, IH; auto.
Qed.
Theorem hive_avro_rows name cols t v row : name <> "" -> Forall (fun c => hc_name c <> "" /\ avro_shown (hc_type c)) cols -> hive_to_recap name cols = Ok t ->
  schema_output FAvro t = Ok (ODocument v) -> hive_row hive_stored cols row -> data "" v "" v (DRow row).
Proof.
  intros NE S H P W. destruct (table_columns _ _ _ H) as (fs & -> & F). rewrite Forall_forall in S.
  unfold schema_output in P. apply rbind_Ok in P as (w & P & E). injection E as <-.
  assert (N : forall f, In f fs -> every avro_node f /\ fit true (widen f) /\ has_name (widen f)).
  { intros f I. destruct (Forall2_in_r _ _ _ _ F I) as (c & J & E). destruct (S c J) as [NM SH].
    assert (EN : every avro_node f) by (apply (column_nodes c); auto; now apply shown_wide). split; auto.
    unfold hive_column in E. assert (NO : name_only [("name", PStr (hc_name c))]) by (right; eauto).
    destruct (RowHive.hive_exact (fun _ _ => False) _ _ _ _ NO E) as (_ & K & _). split.
    - pose proof (node_fit _ (widen_node f EN)) as FF. destruct K as [K|K]; destruct f; try discriminate K; cbn [widen] in *; inversion FF; subst; now constructor.
    - exists (hc_name c). split; auto. unfold extra. rewrite widen_c. rewrite (g_attrs _ _ _ _ (proj1 (hive_main _ _ _ NO) _ E)). cbn [c_extra]. destruct (is_null f); reflexivity. }
  assert (X : exists row', Forall2 (fun a b => fst a = fst b /\ retold (snd a) (snd b)) row row' /\ hive_row hive_taken cols row').
  { clear -W S. unfold hive_row in *. induction W as [|c nv cols row [A B] W IH]; [exists []; split; constructor|].
    destruct IH as (row' & FR & HR); [intros; apply S; now right|]. destruct B as [B|B].
    - exists (nv :: row'). split; constructor; auto. split; auto. constructor.
    - destruct (shown_retold _ (proj2 (S c (or_introl eq_refl))) _ B) as (u & RU & HU). exists ((fst nv, u) :: row'). split; constructor; auto. }
  destruct X as (row' & FR & HR). apply (RowHive.hive_rows (fun _ _ => False) _ _ _ _ H) in HR.
  inversion HR as [| | | | | | | | | | | |? ? ? LEN NAMES HOLD| | |]; subst.
  eapply (data_written (fun _ _ => False) _ (TStruct (mkC PNone PNone PNone [("name", PStr name)]) (map widen fs))).
  - constructor; [left; reflexivity|exact Logic.I|]. cbn [children]. apply Forall_forall. intros f I. apply in_map_iff in I as (g & <- & I).
    apply node_proper. apply widen_node. now apply N.
  - constructor; [reflexivity|exists name; split; [reflexivity|auto]|]. intros f I. apply in_map_iff in I as (g & <- & I). split; apply N; auto.
  - rewrite <- P. unfold avro_from. cbn [avro_from_f]. f_equal. apply struct_same. clear -N. induction fs as [|f fs IH]; cbn [map]; constructor.
    + apply widen_tree. apply N. now left.
    + apply IH. intros g I. apply N. now right.
  - assert (AT : forall i n d, nth_error row i = Some (n, d) -> exists d', nth_error row' i = Some (n, d') /\ retold d d').
    { clear -FR. induction FR as [|a b r r' [A B] FR IH]; intros [|i] n d E; cbn in *; try discriminate; eauto.
      injection E as ->. destruct b as [b1 b2]. cbn in *. subst. eauto. }
    constructor.
    + rewrite map_length, LEN. symmetry. exact (same_length _ _ _ FR).
    + intros i f n d I J. rewrite nth_error_map in I. destruct (nth_error fs i) as [g|] eqn:G; [|discriminate]. injection I as <-.
      destruct (AT _ _ _ J) as (d' & K & _). unfold extra. rewrite widen_c. exact (NAMES _ _ _ _ G K).
    + intros i f n d I J. rewrite nth_error_map in I. destruct (nth_error fs i) as [g|] eqn:G; [|discriminate]. injection I as <-.
      destruct (AT _ _ _ J) as (d' & K & RD). eapply widen_holds; eauto. apply N. eapply nth_error_In; eauto.
Qed.

(** ** Tables that are not printed *)
Definition keyed_by_text (k : rtype) : bool := match k with TString _ _ _ => true | _ => false end.
Inductive barred : rtype -> Prop :=
| ba_text c va : barred (TString c PNone va)
| ba_stamp c b s : c_logical c = PStr "build.recap.Timestamp" -> extra_is c "unit" (PStr "nanosecond") -> barred (TInt c b s)
| ba_interval c n : c_logical c = PStr "build.recap.Interval" -> barred (TBytes c n (PBool true))
| ba_map c k v : keyed_by_text k = false -> barred (TMap c k v)
| ba_list c x n va : barred x -> barred (TList c x n va)
| ba_union c ts x : In x ts -> barred x -> barred (TUnion c ts)
| ba_struct c fs f : In f fs -> barred f -> barred (TStruct c fs).
Lemma barred_tree prox R t : barred t -> forall v, avro_tree prox R t <> Ok v.
Proof.
  induction 1 as [c va|c b s L U|c n L|c k x K|c x n va B IH|c ts x I B IH|c fs f I B IH]; intros v T; cbn [avro_tree get_c] in T; apply rbind_Ok in T as (d & _ & T).
  - destruct c as [lo al dc ex]. cbn [c_logical] in T. destruct lo; discriminate T.
  - rewrite L in T. apply rbind_Ok in T as (l & T & _). destruct c as [lo al dc ex]. cbn [c_logical] in L. subst lo.
    unfold extra_is in U. cbn [c_extra] in U. cbn [avro_logical get_c c_extra] in T. unfold FromDict.kwarg in T. rewrite U in T.
    destruct s as [|w|z|q|w|w|w]; try discriminate T; destruct w; try discriminate T. destruct (as_int b); [|discriminate T]. cbn in T. rewrite !andb_false_r in T. discriminate T.
  - rewrite L in T. apply rbind_Ok in T as (l & T & _). destruct c as [lo al dc ex]. cbn [c_logical] in L. subst lo.
    cbn [avro_logical] in T. destruct (as_int n); [|discriminate T]. cbn in T. rewrite ?andb_false_r in T. cbn in T. rewrite ?andb_false_r in T. discriminate T.
  - destruct c as [lo al dc ex]. cbn [c_logical] in T. destruct lo, k; try discriminate K; discriminate T.
  - assert (X : exists w, avro_tree prox R x = Ok w).
    { destruct c as [lo al dc ex]. cbn [c_logical] in T. destruct lo; try discriminate T; apply rbind_Ok in T as (w & T & _); eauto. }
    destruct X as [w X]. exact (IH w X).
  - assert (X : exists w, avro_tree prox R x = Ok w).
    { assert (Y : exists l, (fix go (l : list rtype) : res (list pyval) :=
                  match l with
                  | [] => Ok []
                  | x :: xs => (y <- avro_tree prox R x ;; ys <- go xs ;; Ok (y :: ys))%res
                  end) ts = Ok l).
      { destruct c as [lo al dc ex]. cbn [c_logical] in T. destruct lo; try discriminate T; apply rbind_Ok in T as (w & T & _); eauto. }
      destruct Y as [l Y]. clear T IH B. revert l Y. induction ts as [|y ts IHt]; intros l Y; [destruct I|].
      apply rbind_Ok in Y as (w & W & Y). apply rbind_Ok in Y as (ws & WS & _). destruct I as [<-|I]; eauto. }
    destruct X as [w X]. exact (IH w X).
  - assert (X : exists w, avro_tree prox R f = Ok w).
    { assert (Y : exists l, (fix go (l : list rtype) : res (list pyval) :=
                  match l with
                  | [] => Ok []
                  | x :: xs => (y <- avro_tree prox R x ;; y <- avro_field y ;; ys <- go xs ;; Ok (y :: ys))%res
                  end) fs = Ok l).
      { destruct c as [lo al dc ex]. cbn [c_logical] in T. destruct lo; try discriminate T; apply rbind_Ok in T as (w & T & _); eauto. }
      destruct Y as [l Y]. clear T IH B. revert l Y. induction fs as [|y ts IHt]; intros l Y; [destruct I|].
      apply rbind_Ok in Y as (w & W & Y). apply rbind_Ok in Y as (w' & _ & Y). apply rbind_Ok in Y as (ws & WS & _). destruct I as [<-|I]; eauto. }
    destruct X as [w X]. exact (IH w X).
Qed.
Lemma barred_eq a : forall b, every RowHive.typed a -> every RowHive.typed b -> rt_eq a b = true -> barred a -> barred b.
Proof.
  induction a as [c|c|c b0 s0|c b0|c n0 va|c n0 va|c x l r IH|c k x IHk IHx|c fs IH|c s|c ts IH|c rg] using rtype_ind';
    intros b Ta Tb E H; apply every_iff in Ta as [Ta Fa]; apply every_iff in Tb as [Tb Fb];
    destruct b as [c'|c'|c' b' s'|c' b'|c' n' va'|c' n' va'|c' x' l' r'|c' k' x'|c' fs'|c' s'|c' ts'|c' rg']; try discriminate E; cbn [RowHive.typed children] in *;
    inversion H as [? ? |? ? ? L U|? ? L|? ? ? K|? ? ? ? B|? ? y I B|? ? y I B]; subst.
  - cbn [rt_eq] in E. rewrite !andb_true_iff in E. destruct E as (EC & E1 & E2). destruct Ta as (TC & _), Tb as (TC' & _).
    apply ba_stamp; [rewrite <- (RowHive.eq_logical _ _ TC TC' EC); auto|]. eapply RowHive.eq_unit; eauto.
  - cbn [rt_eq] in E. rewrite !andb_true_iff in E. destruct E as (EC & E1 & E2). destruct (RowHive.eq_limit _ _ _ _ Ta Tb E1 E2) as [<- <-]. constructor.
  - cbn [rt_eq] in E. rewrite !andb_true_iff in E. destruct E as (EC & E1 & E2). destruct Ta as [TC Ta], Tb as [TC' Tb].
    destruct (RowHive.eq_limit _ _ _ _ Ta Tb E1 E2) as [<- <-]. apply ba_interval. rewrite <- (RowHive.eq_logical _ _ TC TC' EC). auto.
  - cbn [rt_eq] in E. rewrite !andb_true_iff in E. destruct E as (EC & E1 & _). inversion Fa; inversion Fb; subst. constructor. auto.
  - cbn [rt_eq] in E. rewrite !andb_true_iff in E. destruct E as (EC & E1 & E2). constructor. destruct k, k'; auto; discriminate E1.
  - rewrite NullableFacts.rt_eq_struct in E. apply andb_true_iff in E as [_ E]. apply PyValFacts.all2_spec in E. destruct (Forall2_in_l _ _ _ _ E I) as (y' & I' & E').
    rewrite Forall_forall in *. eapply ba_struct; eauto.
  - rewrite NullableFacts.rt_eq_union in E. apply andb_true_iff in E as [_ E]. apply PyValFacts.all2_spec in E. destruct (Forall2_in_l _ _ _ _ E I) as (y' & I' & E').
    rewrite Forall_forall in *. eapply ba_union; eauto.
Qed.
Lemma barred_rewrap t : barred t -> barred (rewrap t).
Proof.
  induction 1 as [c va|c b s L U|c n L|c k x K|c x n va B IH|c ts x I B IH|c fs f I B IH]; cbn [rewrap]; try (constructor; auto; fail).
  - constructor. destruct k; auto.
  - eapply ba_union; [apply List.in_map; exact I|auto].
  - eapply ba_struct; [apply List.in_map; exact I|auto].
Qed.
Lemma hidden_barred h : avro_hidden h -> forall d e t, name_only e -> hive_parse d e h = Ok t -> barred t.
Proof.
  induction 1 as [p I|k w|h S IH|hs h I S IH|ns hs n h I S IH]; intros d e t NO H.
  - cbn [hive_parse] in H.
    assert (W : forall l x b, (exists r, hive_finish (hive_prim d e p) = Ok r /\ finished d e (set_c b (mkC l PNone PNone x)) r) ->
       barred (set_c b (mkC l PNone PNone x)) -> barred t).
    { intros l x b (r & Er & Fr) N. rewrite H in Er. injection Er as <-. rewrite Fr. eapply ba_union; [|exact N]. cbn. auto. }
    destruct p; try (exfalso; cbn in I; intuition discriminate); unfold hive_prim in *;
    (match type of H with hive_finish ?t = _ =>
      match t with
      | context [mkC ?l PNone d (?x ++ e)] => refine (W l x t _ _);
          [apply finish_other; [assumption|reflexivity|cbn; auto 8|intros; cbn; congruence|reflexivity|reflexivity]|]
      | context [mkC ?l PNone d e] => refine (W l [] t _ _);
          [apply finish_other; [assumption|reflexivity|cbn; auto 8|intros; cbn; congruence|reflexivity|reflexivity]|]
      end end; cbn [set_c]; constructor; reflexivity).
  - cbn [hive_parse] in H. apply rbind_Ok in H as (a & A & H). apply rbind_Ok in H as (b & B & H).
    destruct (finish_other (TMap (mkC PNone PNone d e) a b) PNone d [] e) as (r & E' & Fr); auto; try (cbn; auto; fail); try (intros; cbn; congruence).
    rewrite H in E'. injection E' as <-. rewrite Fr. eapply ba_union; [right; left; reflexivity|]. cbn [set_c]. constructor.
    destruct (RowHive.hive_exact (fun _ _ => False) _ _ _ _ (or_introl eq_refl) A) as (_ & K & _). destruct a; destruct K; try discriminate; reflexivity.
  - cbn [hive_parse] in H. apply rbind_Ok in H as (a & A & H).
    destruct (finish_other (TList (mkC PNone PNone d e) a PNone (PBool true)) PNone d [] e) as (r & E' & Fr); auto; try (cbn; auto; fail); try (intros; cbn; congruence).
    rewrite H in E'. injection E' as <-. rewrite Fr. eapply ba_union; [right; left; reflexivity|]. cbn [set_c]. constructor. exact (IH _ _ _ (or_introl eq_refl) A).
  - pose proof H as H0. destruct (RowHive.hive_exact (fun _ _ => False) _ _ _ _ NO H0) as (T & K & _).
    rewrite parse_union in H0. destruct (parse_all hs) as [us|] eqn:U; cbn [rbind] in H0; [|discriminate]. rewrite flatten_members in H0. cbn [hive_finish] in H0. injection H0 as <-.
    match type of H with hive_parse _ _ _ = Ok (TUnion _ ?ms) => set (members_of := ms) in * end.
    destruct (union_members _ _ _ _ _ _ NO H U) as [HN EM]. rewrite Forall_forall in HN.
    assert (X : exists u, In u us /\ hive_parse PNone [] h = Ok u).
    { clear -U I. unfold parse_all in U. revert us U. induction hs as [|y hs IH]; intros us U; [destruct I|]. cbn [rmap] in U.
      apply rbind_Ok in U as (u & Y & U). apply rbind_Ok in U as (us' & U' & U). injection U as <-. destruct I as [<-|I]; [exists u; split; [now left|auto]|].
      destruct (IH I us' U') as (u' & J & E). exists u'. split; [now right|auto]. }
    destruct X as (u & J & P). pose proof (barred_rewrap _ (IH _ _ _ (or_introl eq_refl) P)) as B.
    destruct (RowHive.hive_exact (fun _ _ => False) _ _ _ _ (or_introl eq_refl) P) as (TU & KU & _).
    assert (TR : every RowHive.typed (rewrap u)) by (apply RowHive.erase_typed; rewrite (erase_rewrap u (HN u J)); now apply (proj1 (RowHive.erase_typed u))).
    assert (Z : exists x, In x (members (rewrap u)) /\ barred x /\ every RowHive.typed x).
    { destruct KU as [KU|KU]; destruct u; try discriminate KU; cbn [rewrap] in *; [|inversion B].
      inversion B as [| | | | |? ? x IX BX|]; subst. exists x. split; auto. split; auto. apply every_iff in TR as [_ TR]. cbn [children] in TR. rewrite Forall_forall in TR. auto. }
    destruct Z as (x & IX & BX & TX). destruct (flat_fold_has (map rewrap us) (rewrap u) x (List.in_map _ _ _ J) IX [TNull c0]) as (m & IM & EQ).
    rewrite <- EM in IM. apply ba_union with m; auto. destruct EQ as [<-|EQ]; auto. eapply barred_eq; eauto.
    apply every_iff in T as [_ T]. cbn [children] in T. rewrite Forall_forall in T. auto.
  - rewrite parse_struct in H. apply rbind_Ok in H as (fs & A & H).
    destruct (finish_other (TStruct (mkC PNone PNone d e) fs) PNone d [] e) as (r & E' & Fr); auto; try (cbn; auto; fail); try (intros; cbn; congruence).
    rewrite H in E'. injection E' as <-. rewrite Fr. eapply ba_union; [right; left; reflexivity|]. cbn [set_c].
    assert (Y : exists f, In f fs /\ hive_parse PNone [("name", PStr n)] h = Ok f).
    { clear -A I. revert hs fs A I. induction ns as [|m ns IH]; intros [|k hs] fs A I; try destruct I as [[= -> ->]|I]; try (destruct I; fail); cbn [parse_fields] in A.
      - apply rbind_Ok in A as (f & F & A). apply rbind_Ok in A as (l & L & A). injection A as <-. exists f. split; [now left|exact F].
      - apply rbind_Ok in A as (f & F & A). apply rbind_Ok in A as (l & L & A). injection A as <-. destruct (IH hs l L I) as (g & J & G). exists g. split; [now right|exact G]. }
    destruct Y as (f & J & Y). eapply ba_struct; [exact J|]. eapply IH; [|exact Y]. right. eauto.
Qed.
Theorem hive_avro_hidden name cols t c v : hive_to_recap name cols = Ok t -> In c cols -> avro_hidden (hc_type c) -> schema_output FAvro t <> Ok v.
Proof.
  intros H I S P. destruct (table_columns _ _ _ H) as (fs & -> & F). destruct (Forall2_in_l _ _ _ _ F I) as (f & J & E).
  unfold schema_output, avro_from in P. apply rbind_Ok in P as (w & P & _). apply rbind_Ok in P as (u & P & _). cbn [avro_from_f] in P.
  destruct (tree_struct _ _ _ _ _ f P eq_refl J) as (z & Z). unfold hive_column in E. refine (barred_tree _ _ _ (hidden_barred _ S _ _ _ _ E) _ Z). right. eauto.
Qed.

(** ** Records without names *)
Lemma no_text_row start doc ns s r : In s ["record"; "null"] -> ~ data start doc ns (PStr s) (DRow r).
Proof.
  intros I D. inversion D as [? ? ? P|? ? ? ? ? [R1 R2]| | | | | | | |]; subst; [inversion P|].
  destruct I as [<-|[<-|[]]]; [apply R2; cbn; auto|apply R1; cbn; auto 10].
Qed.
Lemma unnamed_record start doc ns o r : dget "type" o = Some (PStr "record") -> dget "name" o = None -> ~ data start doc ns (PDict o) (DRow r).
Proof.
  intros T N D. inversion D as [| |? ? ? ? _ T' D'|? ? ? ? _ _ L| | | | |? ? ? ? ? ? _ _ NM|]; subst.
  - rewrite T in T'. injection T' as <-. eapply no_text_row; [|exact D']. cbn. auto.
  - inversion L.
  - inversion NM; congruence.
Qed.
(** What is printed for a struct is a record. *)
Lemma record_printed prox R c fs v : c_logical c = PNone -> avro_tree prox R (TStruct c fs) = Ok v ->
  exists o l d, v = PDict o /\ avro_head c = Ok d /\ o = dset "fields" (PList l) (dset "type" (PStr "record") d) /\
    Forall2 (fun f j => exists y, avro_tree prox R f = Ok y /\ avro_field y = Ok j) fs l.
Proof.
  intros L T. cbn [avro_tree get_c] in T. apply rbind_Ok in T as (d & HD & T). rewrite L in T. apply rbind_Ok in T as (l & G & T).
  assert (F : Forall2 (fun f j => exists y, avro_tree prox R f = Ok y /\ avro_field y = Ok j) fs l).
  { clear T HD. revert l G. induction fs as [|f fs IH]; intros l G; [injection G as <-; constructor|].
    apply rbind_Ok in G as (y & Y & G). apply rbind_Ok in G as (y' & Y' & G). apply rbind_Ok in G as (ys & YS & G). injection G as <-. constructor; eauto. }
  exists (dset "fields" (PList l) (dset "type" (PStr "record") d)), l, d. split; [|auto].
  assert (T1 : dget "type" (dset "fields" (PList l) (dset "type" (PStr "record") d)) = Some (PStr "record")) by (rewrite !dget_dset; reflexivity).
  assert (T2 : dget "fields" (dset "fields" (PList l) (dset "type" (PStr "record") d)) = Some (PList l)) by (rewrite !dget_dset; reflexivity).
  assert (E : forall a b : pyval, Ok a = Ok b -> b = a) by congruence. apply E in T. rewrite T. clear T E F G HD. remember (dset "fields" _ _) as o eqn:O. clear O.
  unfold avro_short. destruct (Nat.eqb_spec (List.length o) 1) as [E|E]; auto.
  destruct o as [|[a x] [|? ?]]; cbn in E; try lia. cbn [dget] in T1, T2. destruct (String.eqb_spec "type" a) as [<-|]; [|discriminate]. discriminate T2.
Qed.
Theorem unnamed_tables :
  (forall p cols R R' t v row, db_parser p -> to_recap p cols R = (R', Ok t) -> schema_output FAvro t = Ok (ODocument v) -> ~ data "" v "" v (DRow row)) /\
  (forall fields t v row, bq_to_recap fields = Ok t -> schema_output FAvro t = Ok (ODocument v) -> ~ data "" v "" v (DRow row)).
Proof.
  assert (G : forall fs v row, schema_output FAvro (TStruct c0 fs) = Ok (ODocument v) -> ~ data "" v "" v (DRow row)).
  { intros fs v row P. unfold schema_output, avro_from in P. apply rbind_Ok in P as (w & P & E). injection E as <-. apply rbind_Ok in P as (u & P & E). cbn [avro_from_f] in P.
    apply record_printed in P as (o & l & d & -> & HD & -> & _); [|reflexivity]. injection E as <-. injection HD as <-. apply unnamed_record; reflexivity. }
  split.
  - intros p cols R R' t v row DB H. destruct (columns_to_fields _ _ _ _ _ DB H) as (bs & fs & -> & _). apply G.
  - intros fields t v row H. unfold bq_to_recap in H. apply rbind_Ok in H as (fs & _ & H). injection H as <-. apply G.
Qed.
(** A field that is a struct. *)
Theorem struct_rows name cols t v i c ns hs row n r : hive_to_recap name cols = Ok t -> schema_output FAvro t = Ok (ODocument v) ->
  nth_error cols i = Some c -> hc_type c = HStruct ns hs -> nth_error row i = Some (n, DRow r) -> ~ data "" v "" v (DRow row).
Proof.
  intros H P C HT RW D. destruct (table_columns _ _ _ H) as (fs & -> & F).
  unfold schema_output, avro_from in P. apply rbind_Ok in P as (w & P & E). injection E as <-. apply rbind_Ok in P as (u & P & E). cbn [avro_from_f] in P.
  apply record_printed in P as (o & l & d & -> & HD & -> & FL); [|reflexivity]. injection E as <-.
  match type of FL with Forall2 (fun f j => exists y, avro_tree ?p _ f = _ /\ _) _ _ => generalize dependent p end. intros prox FL.
  assert (LT : dget "logicalType" (dset "fields" (PList l) (dset "type" (PStr "record") d)) = None).
  { injection HD as <-. rewrite !dget_dset. cbn. destruct (String.eqb name ""); reflexivity. }
  assert (T1 : dget "type" (dset "fields" (PList l) (dset "type" (PStr "record") d)) = Some (PStr "record")) by (rewrite !dget_dset; reflexivity).
  assert (T2 : dget "fields" (dset "fields" (PList l) (dset "type" (PStr "record") d)) = Some (PList l)) by (rewrite !dget_dset; reflexivity).
  revert D. generalize "" at 1 as s0. generalize (PDict (dset "fields" (PList l) (dset "type" (PStr "record") d))) at 1 as doc.
  generalize dependent (dset "fields" (PList l) (dset "type" (PStr "record") d)). intros o LT T1 T2 doc s0 D.
  assert (X : exists ns', fields s0 doc ns' l row).
  { inversion D as [| |? ? ? ? _ T' D'|? ? ? ? L' _ _| | | | |? ? ? ? ? ? _ _ NM FL' FD|]; subst; try congruence.
    - rewrite T1 in T'. injection T' as <-. exfalso. eapply no_text_row; [|exact D']. cbn. auto.
    - rewrite T2 in FL'. injection FL' as <-. eauto. }
  destruct X as (ns' & FD).
  assert (Y : exists f j o', nth_error fs i = Some f /\ hive_column c = Ok f /\ (exists y, avro_tree prox builtin_aliases f = Ok y /\ avro_field y = Ok (PDict o')) /\
     dget "type" o' = Some j /\ data s0 doc ns' j (DRow r)).
  { clear -F FL FD C RW. revert fs l row i F FL FD C RW. induction cols as [|c1 cols IH]; intros fs l row i F FL FD C RW; [destruct i; discriminate|].
    inversion F as [|? f ? fs' E F']; subst. inversion FL as [|? j ? l' TR FL']; subst. inversion FD as [|? o n1 j1 v1 ? r' NM TY DT FD']; subst.
    destruct i as [|i]; cbn [nth_error] in *.
    - injection C as ->. injection RW as -> ->. exists f, j1, o. auto.
    - eapply IH; eauto. }
  destruct Y as (f & j & o' & _ & E & (y & Y1 & Y2) & TY & DJ). unfold hive_column in E. rewrite HT, parse_struct in E. apply rbind_Ok in E as (gs & A & E).
  match type of E with hive_finish (TStruct (mkC PNone PNone ?d0 ?e0) gs) = _ =>
    destruct (finish_other (TStruct (mkC PNone PNone d0 e0) gs) PNone d0 [] e0) as (rr & E' & Fr); auto; try (cbn; auto; fail); try (intros; cbn; congruence); [right; eauto|] end.
  rewrite E in E'. injection E' as <-. rewrite Fr in Y1. clear Fr E. cbn [set_c] in Y1.
  cbn [avro_tree get_c c_logical] in Y1. apply rbind_Ok in Y1 as (d1 & HD1 & Y1). apply rbind_Ok in Y1 as (l1 & L1 & Y1).
  change (rbind (avro_tree prox builtin_aliases (TNull c0)) (fun y => rbind (rbind (avro_tree prox builtin_aliases (TStruct (mkC PNone PNone PNone []) gs)) (fun y => rbind (Ok []) (fun ys => Ok (y :: ys)))) (fun ys => Ok (y :: ys))) = Ok l1) in L1.
  apply rbind_Ok in L1 as (y1 & N1 & L1). injection N1 as <-. apply rbind_Ok in L1 as (ys & L1 & E1). injection E1 as <-. apply rbind_Ok in L1 as (y2 & S2 & E2). injection E2 as <-.
  apply record_printed in S2 as (o2 & l2 & d2 & -> & HD2 & -> & _); [|reflexivity]. injection HD2 as <-.
  match type of Y1 with Ok (avro_short ?q) = _ => assert (Q : dget "type" q = Some (PList [PStr "null"; PDict (dset "fields" (PList l2) (dset "type" (PStr "record") []))])) by (rewrite dget_dset; reflexivity); generalize dependent q end.
  intros q Y1 Q. assert (YD : y = PDict q).
  { assert (EE : forall a b : pyval, Ok a = Ok b -> b = a) by congruence. apply EE in Y1. rewrite Y1. unfold avro_short. rewrite Q. destruct (Nat.eqb _ _); reflexivity. }
  subst y. cbn [avro_field] in Y2. injection Y2 as <-. rewrite Q in TY. injection TY as <-.
  inversion DJ as [| | | | | | | | |? ? j' ? IN DJ']; subst. destruct IN as [<-|[<-|[]]].
  - eapply no_text_row; [|exact DJ']. cbn. auto.
  - eapply unnamed_record; [| |exact DJ']; reflexivity.
Qed.
