(** Proofs for C125: rows of tables and the JSON schemas that are printed for the tables. *)
From Coq Require Import String Ascii List NArith ZArith QArith Bool Lia.
From Verif Require Import PyVal PyValFacts RType Registry SpecTypes SpecDb SpecPrinted SpecJson SpecInstances SpecRows SpecTableJson Dbapi DbapiFacts DbapiMore
  FromDict ToDict Nullable NullableFacts Url JsonSchema JsonWrite JsonFits Commands PrintedFormats RowFacts RowTypes RowMysql RowPostgres RowSnowflake.
Import ListNotations.
Open Scope nat_scope.
Open Scope string_scope.
Open Scope list_scope.

(** ** Types without parts *)
Inductive member_of : rtype -> member -> Prop :=
| mo_bool c : member_of (TBool c) (MType "boolean")
| mo_int c b s : member_of (TInt c b s) (MType "integer")
| mo_float c b : member_of (TFloat c b) (MType "number")
| mo_string c b v : member_of (TString c b v) (MType "string")
| mo_bytes c b v : member_of (TBytes c b v) (MType "string")
| mo_enum c ls : member_of (TEnum c (PList (map PStr ls))) (MOneOf ls).
Lemma member_set t m c : member_of t m -> member_of (set_c t c) m.
Proof. intros []; constructor. Qed.

(** A schema that takes the documents of a member and no others. *)
Definition just (m : member) (q : dict) : Prop := forall doc x,
  (accepts doc (PDict q) x <-> takes m x) /\ (~ takes m x -> rejects doc (PDict q) x).
Definition says (m : member) (q : dict) : Prop :=
  match m with
  | MType ty => dget "type" q = Some (PStr ty) /\ forall k, In k keywords -> k <> "type" -> dget k q = None
  | MOneOf ls => dget "type" q = Some (PStr "string") /\ dget "enum" q = Some (PList (map PStr ls)) /\
      forall k, In k keywords -> k <> "type" -> k <> "enum" -> dget k q = None
  end.
Lemma kw_is_type doc d s v : keyword doc d "type" (PStr s) v -> has_type v s.
Proof. intros H. inversion H; subst; auto; try (destruct H0; discriminate); cbn in *; intuition discriminate. Qed.
Lemma kw_is_enum doc d l v : keyword doc d "enum" (PList l) v -> In v l.
Proof. intros H. inversion H; subst; auto; try (destruct H0; discriminate); cbn in *; intuition discriminate. Qed.
Lemma kw_is_properties doc d ps v : keyword doc d "properties" (PDict ps) v ->
  forall o k s x, v = PDict o -> In (k, s) ps -> dget k o = Some x -> accepts doc s x.
Proof.
  intros H. inversion H as [| |? ? ? X| | | | | |? ? ? ? ? [X|X]|? ? ? ? X]; subst; auto; try discriminate. exfalso. apply X. cbn. tauto.
Qed.
Lemma kw_is_required doc d l v : keyword doc d "required" (PList l) v -> forall o n, v = PDict o -> In (PStr n) l -> dget n o <> None.
Proof.
  intros H. inversion H as [| | |? ? ? X| | | | |? ? ? ? ? [X|X]|? ? ? ? X]; subst; auto; try discriminate. exfalso. apply X. cbn. tauto.
Qed.
Lemma says_just m q : says m q -> just m q.
Proof.
  destruct m as [ty|ls]; intros S doc x; cbn [says takes] in *.
  - destruct S as [T O]. split; [split|].
    + intros A. inversion A as [|? ? K]; subst. eapply kw_is_type, K, T.
    + intros H. eapply acc_type; eauto.
    + intros H. eapply rej_type; eauto.
  - destruct S as (T & E & O). split; [split|].
    + intros A. inversion A as [|? ? K]; subst. apply K, kw_is_enum in E. apply in_map_iff in E as (s & <- & I). eauto.
    + intros (s & -> & I). constructor. intros k v G. destruct (string_dec k "type") as [->|N].
      { rewrite T in G. injection G as <-. apply kw_type. econstructor. reflexivity. }
      destruct (string_dec k "enum") as [->|N'].
      { rewrite E in G. injection G as <-. apply kw_enum. now apply List.in_map. }
      destruct (in_dec string_dec k keywords) as [J|NI]; [rewrite (O k J N N') in G; discriminate|now apply kw_other].
    + intros H. eapply rej_object; [exact E|]. apply rf_enum. intros I. apply in_map_iff in I as (s & <- & I). apply H. eauto.
Qed.
Lemma not_label k : In k keywords -> k <> "default" /\ k <> "description".
Proof. intros K. split; intros ->; cbn in K; intuition discriminate. Qed.
Lemma says_labels m t q : NoDup (dkeys q) -> says m q -> says m (dupd (js_labels t) q).
Proof.
  intros N. assert (E : forall k, In k keywords -> dget k (dupd (js_labels t) q) = dget k q).
  { intros k K. destruct (not_label k K). now apply dget_labelled. }
  destruct m; cbn [says].
  - intros [T O]. rewrite E by (cbn; tauto). split; auto. intros k K X. rewrite E; auto.
  - intros (T & EN & O). rewrite !E by (cbn; tauto). repeat split; auto. intros k K X Y. rewrite E; auto.
Qed.
Lemma member_written prox R f m p : member_of f m -> not_aliased f -> js_tree prox R true f = Ok p -> says m p.
Proof.
  intros M A H. rewrite tree_free in H by auto.
  assert (G : forall e, Ok (dupd (js_labels f) e) = Ok p -> NoDup (dkeys e) -> says m e -> says m p).
  { intros e E N S. assert (p = dupd (js_labels f) e) as -> by congruence. now apply says_labels. }
  destruct M; cbn [node] in H; (eapply G; [exact H|cbn; repeat constructor; cbn; intuition discriminate|]); cbn [says dget String.eqb Ascii.eqb Bool.eqb];
    repeat split; auto; intros k K; repeat (destruct K as [<-|K]; [try reflexivity; congruence|]); destruct K.
Qed.
Lemma column_written R col b f m p : fresh_type b -> member_of b m -> c_alias (get_c b) = PNone -> Dbapi.finish col b = Ok f ->
  converts R true f p -> says m p.
Proof.
  intros F M A FI [n H].
  assert (EX : exists prox, js_field_f n R true f = js_tree prox R true f) by (destruct n; eexists; reflexivity).
  destruct EX as (prox & E). rewrite E in H. clear E.
  assert (U : is_union b = false) by (destruct M; reflexivity).
  destruct (finish_union col b f F U FI) as [(c & AC & ->)|(c & AC & D & ->)].
  - eapply member_written; [apply member_set, M| |exact H]. intros a X. rewrite get_set_c in X. congruence.
  - rewrite tree_free in H by (right; intros a X; cbn [get_c] in X; congruence). cbn [node] in H.
    assert (O : is_optional c [TNull c0; b] = true).
    { unfold is_optional. assert (N : rt_eq b (TNull c0) = false) by (destruct M; reflexivity).
      cbn [existsb rt_eq filter negb length]. rewrite D. destruct M; reflexivity. }
    rewrite O in H. apply rbind_Ok in H as (q & Q & H).
    assert (Q' : js_tree prox R true b = Ok q) by (destruct M; exact Q).
    assert (p = dupd (js_labels (TUnion c [TNull c0; b])) q) as -> by congruence.
    apply says_labels.
    + clear -Q' M A. rewrite tree_free in Q' by (right; intros a X; congruence).
      assert (G : forall e, Ok (dupd (js_labels b) e) = Ok q -> NoDup (dkeys q)).
      { intros e E. assert (q = dupd (js_labels b) e) as -> by congruence. apply dupd_NoDup, labels_nodup. }
      destruct M; cbn [node] in Q'; eapply G; exact Q'.
    + eapply member_written; eauto. intros a X. congruence.
Qed.

(** ** Structs *)
Lemma struct_keys R fs d : js_from R (TStruct c0 fs) = Ok d -> 
  (forall k, In k keywords -> ~ In k ["type"; "properties"; "required"] -> dget k d = None) /\
  forall v, dget "required" d = Some v -> exists l, v = PList l.
Proof.
  intros H. unfold js_from in H. apply rbind_Ok in H as (m & M & H). apply rbind_Ok in H as (defs & _ & H).
  assert (X : forall k, k <> "$defs" -> dget k d = dget k m).
  { intros k K. assert (E : d = match defs with [] => m | _ => dset "$defs" (PDict defs) m end) by congruence. rewrite E.
    destruct defs; auto. rewrite dget_dset. apply String.eqb_neq in K. now rewrite K. }
  unfold js_field, js_field_f in M. fold js_field_f in M. rewrite tree_free in M by (right; intros a Y; discriminate).
  cbn [node] in M. apply rbind_Ok in M as ((ps & rq) & _ & M). cbn [fst snd] in M.
  set (e := ("type", PStr "object") :: ("properties", PDict ps) :: match rq with [] => [] | p :: l => [("required", PList (p :: l))] end).
  change (Ok (dupd (js_labels (TStruct c0 fs)) e) = Ok m) in M.
  assert (HM : m = dupd (js_labels (TStruct c0 fs)) e) by congruence.
  assert (ND : NoDup (dkeys e)).
  { unfold e. destruct rq; cbn; repeat (constructor; [cbn; intuition discriminate|]); constructor. }
  split.
  - intros k K N. destruct (not_label k K) as [N1 N2]. rewrite X by (intros ->; cbn in K; intuition discriminate).
    rewrite HM, dget_labelled by auto. cbn [In] in N. unfold e. cbn [dget].
    destruct (String.eqb k "type") eqn:E1; [apply String.eqb_eq in E1; subst; tauto|].
    destruct (String.eqb k "properties") eqn:E2; [apply String.eqb_eq in E2; subst; tauto|].
    destruct rq; cbn [dget]; auto. destruct (String.eqb k "required") eqn:E3; [apply String.eqb_eq in E3; subst; tauto|]. reflexivity.
  - intros v. rewrite X, HM, dget_labelled by (auto; discriminate). unfold e. destruct rq; cbn [dget String.eqb Ascii.eqb Bool.eqb]; [discriminate|].
    intros [= <-]. eauto.
Qed.

(** ** Tables *)
Section Table.
Context {A : Type}.
Variable mem : A -> member.
Variable p : column -> M rtype.
Hypothesis DB : db_parser p.
Definition good (d : decl A) (col : column) : Prop :=
  SpecPrinted.called col (d_name d) /\ (nullable_column col <-> d_null d = true) /\
    forall R1 R2 b, p col R1 = (R2, Ok b) -> member_of b (mem (d_type d)) /\ c_alias (get_c b) = PNone.

Lemma table_schema ds cols R R' t d : Forall2 good ds cols -> NoDup (map d_name ds) -> to_recap p cols R = (R', Ok t) ->
  schema_output FJson t = Ok (ODocument (PDict d)) ->
  exists ps, dget "type" d = Some (PStr "object") /\ dget "properties" d = Some (PDict ps) /\
    NoDup (dkeys ps) /\
    (forall k, In k keywords -> ~ In k ["type"; "properties"; "required"] -> dget k d = None) /\
    (forall v, dget "required" d = Some v -> exists l, v = PList l) /\
    (forall n, In n (dkeys ps) -> exists c, In c ds /\ d_name c = n) /\
    (forall c, In c ds -> exists q, dget (d_name c) ps = Some (PDict q) /\ says (mem (d_type c)) q) /\
    forall n, required_name d n <-> exists c, In c ds /\ d_name c = n /\ d_null c = false.
Proof.
  intros G ND H S. set (ns := map d_name ds) in *.
  assert (CA : Forall2 SpecPrinted.called cols ns).
  { unfold ns. clear -G. induction G as [|c col ds cols [C _] G IH]; constructor; auto. }
  destruct (table_json p cols ns R R' t DB CA H) as (bases & fs & d' & ps & -> & _ & _ & _ & NM & J & TY & PS & _ & _).
  unfold schema_output in S. rewrite J in S. injection S; intros; subst d'. clear S.
  destruct (from_required builtin_aliases c0 fs d) as (ms & ps' & N' & _ & PS' & _ & K & RQ); auto.
  { intros a X. discriminate. }
  rewrite <- (same_names _ _ _ NM N') in *. unfold SpecJson.holds in PS'. rewrite PS in PS'. injection PS'; intros; subst ps'. destruct (K ND) as [KE CV].
  unfold to_recap, mbind, ret in H. destruct (fields_of _ cols R) as [R1 [gs|]] eqn:FO; [|discriminate]. injection H; intros; subst gs. clear H.
  pose proof (fields_columns _ _ _ _ _ FO) as FC. destruct (struct_keys _ _ _ J) as [KN KR].
  assert (AT : forall i c, nth_error ds i = Some c -> exists col f b R1 R2, nth_error fs i = Some f /\ good c col /\ p col R1 = (R2, Ok b) /\ Dbapi.finish col b = Ok f).
  { intros i c I. destruct (Forall2_at _ _ _ _ _ G I) as (col & C & GC). destruct (Forall2_at _ _ _ _ _ FC C) as (f & F & R2 & R3 & b & X & Y).
    exists col, f, b, R2, R3. auto. }
  assert (NA : forall i c, nth_error ds i = Some c -> nth_error ns i = Some (d_name c)).
  { intros i c I. unfold ns. now apply map_nth_error. }
  assert (OPT : forall c col f b R1 R2, good c col -> p col R1 = (R2, Ok b) -> Dbapi.finish col b = Ok f -> (optional_union f <-> d_null c = true)).
  { intros c col f b R2 R3 (_ & NU & PB) X Y. destruct (PB _ _ _ X) as [M AL]. pose proof (db_fresh _ DB _ _ _ _ X) as FR.
    rewrite (optional_column col b f FR); [exact NU|destruct M; reflexivity|]. apply finish_spec; auto. }
  exists ps. split; auto. split; auto. split; [rewrite KE; exact ND|]. split; [exact KN|]. split; [exact KR|]. split; [|split].
  - intros n I. rewrite KE in I. unfold ns in I. apply in_map_iff in I as (c & E & I). eauto.
  - intros c I. apply In_nth_error in I as [i I]. destruct (AT _ _ I) as (col & f & b & R2 & R3 & F & (_ & _ & PB) & X & Y).
    destruct (Forall2_at _ _ _ _ _ CV F) as (n & N & q & Q & HQ). rewrite (NA _ _ I) in N. injection N as <-.
    exists q. split; [exact HQ|]. destruct (PB _ _ _ X) as [M AL]. eapply column_written; eauto. eapply db_fresh; eauto.
  - intros n. rewrite RQ. split.
    + intros (f & I & O). apply In_nth_error in I as [i I].
      assert (FN : nth_error fs i = Some f /\ nth_error ns i = Some n).
      { clear -I. revert fs I. generalize ns. induction i as [|i IH]; intros [|m ms] [|g gs] I; try discriminate; cbn in *; auto. injection I as -> ->. auto. }
      destruct FN as [F N]. assert (C : exists c, nth_error ds i = Some c).
      { destruct (nth_error ds i) as [c|] eqn:E; eauto. apply nth_error_None in E. assert (nth_error ns i = None) by (apply nth_error_None; unfold ns; now rewrite map_length). congruence. }
      destruct C as [c C]. rewrite (NA _ _ C) in N. injection N as <-. destruct (AT _ _ C) as (col & f' & b & R2 & R3 & F' & GC & X & Y).
      rewrite F in F'. injection F' as <-. exists c. split; [eapply nth_error_In; eauto|]. split; auto.
      destruct (d_null c) eqn:E; auto. exfalso. apply O. now apply (OPT _ _ _ _ _ _ GC X Y).
    + intros (c & I & <- & NU). apply In_nth_error in I as [i I]. destruct (AT _ _ I) as (col & f & b & R2 & R3 & F & GC & X & Y).
      exists f. split; [eapply combine_at; eauto|]. intros O. apply (OPT _ _ _ _ _ _ GC X Y) in O. congruence.
Qed.

Theorem table_accepts ds cols R R' t d o : Forall2 good ds cols -> NoDup (map d_name ds) -> to_recap p cols R = (R', Ok t) ->
  schema_output FJson t = Ok (ODocument (PDict d)) ->
  (accepts (PDict d) (PDict d) (PDict o) <-> table_object mem ds o) /\
    (misfit mem ds o -> rejects (PDict d) (PDict d) (PDict o)).
Proof.
  intros G ND H S. destruct (table_schema ds cols R R' t d G ND H S) as (ps & TY & PS & PN & KN & KR & PK & PC & RQ).
  split; [split|].
  - intros ACC. inversion ACC as [|? ? K]; subst. intros c I. split.
    + intros NU. assert (RN : required_name d (d_name c)) by (apply RQ; eauto). destruct RN as (l & L & IN).
      eapply (kw_is_required _ _ _ _ (K _ _ L)); eauto.
    + intros x X. destruct (PC c I) as (q & Q & SQ). apply (says_just _ _ SQ (PDict d) x).
      eapply (kw_is_properties _ _ _ _ (K _ _ PS)); eauto. now apply dget_In.
  - intros TO. constructor. intros k s E. destruct (in_dec string_dec k keywords) as [I|NI]; [|now apply kw_other].
    destruct (in_dec string_dec k ["type"; "properties"; "required"]) as [J|NJ]; [|rewrite (KN k I NJ) in E; discriminate].
    destruct J as [<-|[<-|[<-|[]]]].
    + rewrite TY in E. injection E as <-. apply kw_type. econstructor. reflexivity.
    + rewrite PS in E. injection E as <-. apply kw_properties. intros o' k s x [= <-] IN X.
      destruct (PK k) as (c & C & <-). { apply (List.in_map fst) in IN. exact IN. }
      destruct (PC c C) as (q & Q & SQ). pose proof (In_dget _ _ _ PN IN) as Y. rewrite Q in Y. injection Y as <-.
      apply (says_just _ _ SQ). now apply (TO c C).
    + destruct (KR _ E) as [l ->]. apply kw_required. intros o' n [= <-] IN. assert (RN : required_name d n) by (exists l; auto).
      apply RQ in RN as (c & C & <- & NU). now apply (TO c C).
  - intros (c & C & [[NU X]|(x & X & NT)]).
    + assert (RN : required_name d (d_name c)) by (apply RQ; eauto). destruct RN as (l & L & IN).
      eapply rej_object; [exact L|]. eapply rf_required; eauto.
    + destruct (PC c C) as (q & Q & SQ). eapply rej_object; [exact PS|]. eapply rf_properties; [apply dget_In; exact Q|exact X|]. now apply (says_just _ _ SQ).
Qed.

(** Rows. *)
Variable facts : A -> list (string * pyval).
Variable values : A -> datum -> Prop.
Hypothesis V : forall a v, values a v -> v <> DNull /\ forall x, json_datum v x -> takes (mem a) x.
Lemma row_fits ds row o : in_table A values ds row -> NoDup (map d_name ds) -> row_object row o -> table_object mem ds o.
Proof.
  intros IT _ RO c I. apply In_nth_error in I as [i I]. destruct (Forall2_at _ _ _ _ _ IT I) as ([n v] & J & E & X). cbn [fst snd] in *. subst n.
  apply nth_error_In in J. specialize (RO _ _ J). split.
  - intros NU. destruct X as [[E _]|X]; [congruence|]. destruct (V _ _ X) as [N _]. destruct v; try congruence; destruct RO as (x & -> & _); discriminate.
  - intros x G. destruct X as [[_ ->]|X]; [congruence|]. destruct (V _ _ X) as [N T]. apply T.
    destruct v; try congruence; destruct RO as (y & Y & Z); congruence.
Qed.
End Table.

Lemma described_null A facts (d : decl A) col : described A facts d col -> (nullable_column col <-> d_null d = true).
Proof.
  intros D. pose proof (de_null _ _ _ _ D) as N. unfold nullable_column. rewrite N. split.
  - intros (s & [= <-] & C). apply nullable_upper in C. destruct (d_null d); [reflexivity|vm_compute in C; discriminate C].
  - intros ->. exists "YES". split; auto. now apply nullable_upper.
Qed.
Lemma described_called A facts (d : decl A) col : described A facts d col -> d_name d <> "" -> SpecPrinted.called col (d_name d).
Proof. intros D N. split; [exact (de_name _ _ _ _ D)|exact N]. Qed.
Lemma all_good A (mem : A -> member) p (legal : A -> Prop) facts ds cols : Forall (fun d => legal (d_type d)) ds ->
  Forall2 (described A facts) ds cols -> Forall (fun d => d_name d <> "") ds ->
  (forall d col R1 R2 b, legal (d_type d) -> described A facts d col -> p col R1 = (R2, Ok b) -> member_of b (mem (d_type d)) /\ c_alias (get_c b) = PNone) ->
  Forall2 (good mem p) ds cols.
Proof.
  intros L F N C. induction F as [|d col ds cols D F IH]; constructor.
  - inversion L; inversion N; subst. split; [eapply described_called; eauto|]. split; [eapply described_null; eauto|]. intros R1 R2 b X. eapply C; eauto.
  - inversion L; inversion N; subst. auto.
Qed.

(** ** MySQL *)
Lemma my_good d col R1 R2 b : my_legal (d_type d) -> described my_type my_facts d col -> pure mysql_type col R1 = (R2, Ok b) ->
  member_of b (my_member (d_type d)) /\ c_alias (get_c b) = PNone.
Proof.
  intros L D H. unfold pure, lift in H. injection H as _ H. rewrite (my_type_read d col L D) in H.
  destruct (d_type d); cbn [my_read my_member] in *; try discriminate H; injection H as <-; split; try constructor; reflexivity.
Qed.
Ltac fit := split; [discriminate|]; cbn [json_datum]; intros x X; first
  [subst x; econstructor; reflexivity|eapply ty_number; exact X|eapply ty_integer; exact X
  |destruct X as [w X]; first [eapply ty_integer; exact X|eapply ty_string; exact X]].
Lemma my_fits a v : my_values a v -> v <> DNull /\ forall x, json_datum v x -> takes (my_member a) x.
Proof.
  destruct a; cbn [my_values my_member takes]; unfold instants; try intros (z & -> & _); try intros (z & ->); fit.
Qed.

(** ** PostgreSQL without arrays *)
Lemma pg_good enforce ns d col R1 R2 b : pg_legal (d_type d) /\ not_array (d_type d) -> described pg_decl pg_facts d col -> pg_type enforce ns col R1 = (R2, Ok b) ->
  member_of b (pg_member (d_type d)) /\ c_alias (get_c b) = PNone.
Proof.
  intros [L NAR] D H. rewrite pg_type_cases in H. destruct (pg_header_read d col D) as (oc & ml & nd & E & O & M & ND). rewrite E in H.
  destruct (d_type d) as [c|c n] eqn:T; [|destruct NAR]. cbn [pg_legal] in L.
  destruct (pg_scalar_read d col c oc ml L D T O M) as [NA S]. apply String.eqb_neq in NA. rewrite NA, S in H. injection H as _ H.
  destruct c as [| | | | | |[[p s]|]| |[n|]|n|bi| | |n|n|nm ls|z p| |p| ]; cbn [pg_base_read pg_member] in *; try discriminate H; injection H as <-; split; try constructor; reflexivity.
Qed.
Lemma pg_fits a v : not_array a -> pg_values a v -> v <> DNull /\ forall x, json_datum v x -> takes (pg_member a) x.
Proof.
  destruct a as [c|c n]; [intros _|intros []].
  destruct c as [| | | | | |[[p s]|]| |[n|]|n|bi| | |n|n|nm ls|z p| |p| ]; cbn [pg_values pg_base_values pg_member takes]; unfold instants;
    try (intros (y & -> & I); (split; [discriminate|]); cbn [json_datum]; intros x ->; eauto; fail);
    try intros (y & k & ->); try intros (y & -> & _); try intros (y & ->); fit.
Qed.

(** ** Snowflake *)
Lemma sf_good d col R1 R2 b : sf_legal (d_type d) -> described sf_type sf_facts d col -> pure snowflake_type col R1 = (R2, Ok b) ->
  member_of b (sf_member (d_type d)) /\ c_alias (get_c b) = PNone.
Proof.
  intros L D H. unfold pure, lift in H. injection H as _ H. rewrite (sf_type_read d col L D) in H.
  destruct (d_type d); cbn [sf_read sf_member] in *; try discriminate H; injection H as <-; split; try constructor; reflexivity.
Qed.
Lemma sf_fits a v : sf_values a v -> v <> DNull /\ forall x, json_datum v x -> takes (sf_member a) x.
Proof.
  destruct a; cbn [sf_values sf_member takes]; unfold instants; try intros (z & -> & _); try intros (z & ->); fit.
Qed.

(** ** SQLite: a column of numeric affinity *)
Definition numeric_members : list rtype :=
  [TNull c0; int_t 64 true; float_t 64; TString c0 (PInt sqlite_max_length) (PBool true); TBytes c0 (PInt sqlite_max_length) (PBool true)].
Definition numeric_schemas : list pyval :=
  [PDict [("type", PStr "null")]; PDict [("type", PStr "integer")]; PDict [("type", PStr "number")];
   PDict [("type", PStr "string")]; PDict [("type", PStr "string"); ("format", PStr "byte")]].
Lemma numeric_finish col f : fresh_type (TUnion c0 numeric_members) -> Dbapi.finish col (TUnion c0 numeric_members) = Ok f ->
  exists c, c_alias c = PNone /\ f = TUnion c numeric_members.
Proof.
  intros FR H. unfold Dbapi.finish in H. apply rbind_Ok in H as (n & _ & H). apply rbind_Ok in H as (s & _ & H).
  apply rbind_Ok in H as (t1 & T & H). apply rbind_Ok in H as (d & _ & H). apply rbind_Ok in H as (nm & _ & H).
  assert (X : exists c, c_alias c = PNone /\ t1 = TUnion c numeric_members).
  { destruct (String.eqb (upper s) "YES").
    - rewrite make_nullable_union in T by (now apply fresh_no_clash).
      cbn [snd] in T. injection T as <-. eexists. split; [|reflexivity]. reflexivity.
    - injection T as <-. exists c0. auto. }
  destruct X as (c & A & ->). injection H as <-. unfold set_extra. cbn [get_c set_c].
  match goal with |- context [if ?b then _ else _] => destruct b end; cbn [get_c set_c]; eexists; (split; [|reflexivity]); exact A.
Qed.
Lemma numeric_written R f c p : c_alias c = PNone -> f = TUnion c numeric_members -> ~ optional_union f -> converts R true f p ->
  dget "oneOf" p = Some (PList numeric_schemas).
Proof.
  intros A F NO [n H]. assert (EX : exists prox, js_field_f n R true f = js_tree prox R true f) by (destruct n; eexists; reflexivity).
  destruct EX as (prox & E). rewrite E in H. clear E. subst f. rewrite tree_free in H by (right; intros a X; cbn [get_c] in X; congruence).
  cbn [node] in H. assert (O : is_optional c numeric_members = false).
  { assert (RQ : js_required (TUnion c numeric_members) = true).
    { destruct (js_required (TUnion c numeric_members)) eqn:E; [reflexivity|]. apply required_iff in E. contradiction. }
    unfold js_required in RQ. now apply negb_true_iff in RQ. }
  rewrite O in H. apply rbind_Ok in H as (l & L & H).
  assert (L' : l = numeric_schemas).
  { assert (Z : all_f (js_tree prox R true) numeric_members = Ok numeric_schemas) by reflexivity. congruence. }
  subst l. assert (p = dupd (js_labels (TUnion c numeric_members)) [("oneOf", PList numeric_schemas)]) as -> by congruence.
  rewrite dget_labelled; [reflexivity| |discriminate|discriminate].
  apply NoDup_cons; [intros []|apply NoDup_nil].
Qed.
Lemma numeric_rejects doc p x : dget "oneOf" p = Some (PList numeric_schemas) -> whole_or_text x -> rejects doc (PDict p) x.
Proof.
  intros E W. eapply rej_object; [exact E|].
  assert (S : forall ty q, dget "type" q = Some (PStr ty) -> (forall k, In k keywords -> k <> "type" -> dget k q = None) -> has_type x ty -> accepts doc (PDict q) x).
  { intros ty q T O V. eapply acc_type; eauto. }
  assert (K : forall (q : dict) k, In k keywords -> k <> "type" -> (q = [("type", PStr "integer")] \/ q = [("type", PStr "number")] \/ q = [("type", PStr "string")] \/ q = [("type", PStr "string"); ("format", PStr "byte")]) -> dget k q = None).
  { intros q k I N [->|[->|[->| ->]]]; cbn in I; repeat (destruct I as [<-|I]; [try reflexivity; congruence|]); destruct I. }
  destruct W as [W|W].
  - refine (rf_two doc p [_] _ [] _ [_; _] x _ _).
    + apply (S "integer"); auto.
    + apply (S "number"); auto. inversion W as [| | |z N| | |]; subst. apply (ty_number _ (inject_Z z)). exact N.
  - refine (rf_two doc p [_; _; _] _ [] _ [] x _ _); apply (S "string"); auto.
Qed.
Theorem sqlite_numeric_rejects : forall cols ns R R' t d i col n ty o x,
  Forall2 SpecPrinted.called cols ns -> NoDup ns -> to_recap (pure sqlite_type) cols R = (R', Ok t) ->
  schema_output FJson t = Ok (ODocument (PDict d)) -> nth_error cols i = Some col -> nth_error ns i = Some n ->
  dget "TYPE" col = Some (PStr ty) -> determined ty ClassNumeric ->
  dget n o = Some x -> whole_or_text x -> rejects (PDict d) (PDict d) (PDict o).
Proof.
  intros cols ns R R' t d i col n ty o x CA ND H S C N T DT X W.
  destruct (table_json _ cols ns R R' t db_sqlite CA H) as (bases & fs & d' & ps & -> & _ & _ & _ & NM & J & _ & PS & _ & _).
  unfold schema_output in S. rewrite J in S. injection S; intros; subst d'. clear S.
  destruct (from_required builtin_aliases c0 fs d) as (ms & ps' & N' & _ & PS' & _ & K & RQ); auto.
  { intros a Y. discriminate. }
  rewrite <- (same_names _ _ _ NM N') in *. unfold SpecJson.holds in PS'. rewrite PS in PS'. injection PS'; intros; subst ps'. destruct (K ND) as [KE CV].
  unfold to_recap, mbind, ret in H. destruct (fields_of _ cols R) as [R1 [gs|]] eqn:FO; [|discriminate]. injection H; intros; subst gs. clear H.
  pose proof (fields_columns _ _ _ _ _ FO) as FC. destruct (Forall2_at _ _ _ _ _ FC C) as (f & F & R2 & R3 & b & PB & FI).
  pose proof (db_fresh _ db_sqlite _ _ _ _ PB) as FR. pose proof (finish_spec _ _ _ FR FI) as FS.
  assert (B : b = TUnion c0 numeric_members). { eapply sqlite_numeric; eauto. unfold pure in PB. injection PB; auto. }
  pose proof (numeric_required col b f FR FS B) as NO. subst b. destruct (numeric_finish _ _ FR FI) as (c & AC & E).
  destruct (Forall2_at _ _ _ _ _ CV F) as (n' & N2 & q & Q & HQ). rewrite N in N2. injection N2 as <-.
  pose proof (numeric_written _ _ _ _ AC E NO Q) as OO.
  eapply rej_object; [exact PS|]. eapply rf_properties; [apply dget_In; exact HQ|exact X|]. eapply numeric_rejects; eauto.
Qed.
