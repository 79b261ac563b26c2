(** Values of a type are accepted by the JSON schema that is written for it (C103). *)
From Coq Require Import String Ascii List NArith ZArith QArith Bool Lia.
From Verif Require Import PyVal PyValFacts RType Registry FromDict FromDictFacts RoundTrip
  SpecTypes Url JsonSchema JsonFacts JsonWrite SpecJson JsonProps SpecInstances JsonAccepts.
Import ListNotations.
Open Scope nat_scope.
Open Scope string_scope.
Open Scope list_scope.

(** ** Names of dicts *)
Lemma labels_nodup t : NoDup (dkeys (js_labels t)).
Proof. unfold js_labels. apply dupd_NoDup. destruct (dget "default" _); cbn; repeat constructor; auto. Qed.
Lemma node_nodup prox go R t d : (forall t' d', prox t' = Ok d' -> NoDup (dkeys d')) -> node prox go R t = Ok d -> NoDup (dkeys d).
Proof.
  intros P H.
  assert (D : forall e, Ok (dupd (js_labels t) e) = Ok d -> NoDup (dkeys d)).
  { intros e E. assert (d = dupd (js_labels t) e) as -> by congruence. apply dupd_NoDup, labels_nodup. }
  destruct t as [c|c|c b s|c b|c b v|c b v|c v l va|c k v|c fs|c s|c ts|c rg]; cbn [node] in H; try (eapply D; exact H).
  - apply rbind_Ok in H as (e & _ & H). eapply D; exact H.
  - apply rbind_Ok in H as (e & _ & H). eapply D; exact H.
  - apply rbind_Ok in H as (e & _ & H). eapply D; exact H.
  - destruct (is_optional c ts); apply rbind_Ok in H as (e & _ & H); eapply D; exact H.
  - destruct (c_alias c); try discriminate. destruct (_ || _); [|eapply D; exact H].
    apply rbind_Ok in H as (t' & _ & H). eapply P; exact H.
Qed.
Lemma field_nodup n : forall R u t d, js_field_f n R u t = Ok d -> NoDup (dkeys d).
Proof.
  assert (T : forall prox R u t d, (forall t' d', prox t' = Ok d' -> NoDup (dkeys d')) -> js_tree prox R u t = Ok d -> NoDup (dkeys d)).
  { intros prox R u t d P H. rewrite tree_eq in H. destruct (c_alias (get_c t)); try (eapply node_nodup; eauto; fail).
    destruct (u && _); [|eapply node_nodup; eauto]. injection H as <-. cbn. repeat constructor; auto. }
  induction n as [|n IH]; intros R u t d H; (eapply T; [|exact H]); [discriminate|]. cbn beta. intros t' d'. apply IH.
Qed.

(** ** Kinds of values *)
Definition vkind (v : pyval) : string :=
  match v with PNone => "null" | PBool _ => "boolean" | PInt _ | PFloat _ => "number" | PStr _ => "string" | PList _ => "array" | PDict _ => "object" end.
Definition class (ty : string) : string := if String.eqb ty "integer" then "number" else ty.
Lemma type_class v ty : has_type v ty -> class ty = vkind v.
Proof. intros H. destruct H; subst; try reflexivity; destruct v; try contradiction; reflexivity. Qed.
(** The types that are written as one JSON type. *)
Definition simple (t : rtype) : option string :=
  match t with
  | TNull _ => Some "null" | TBool _ => Some "boolean" | TInt _ _ _ => Some "integer" | TFloat _ _ => Some "number"
  | TString _ _ _ | TBytes _ _ _ | TEnum _ _ => Some "string" | TList _ _ _ _ => Some "array"
  | TMap _ _ _ | TStruct _ _ => Some "object" | _ => None
  end.
Definition kind0 (t : rtype) : option string := option_map class (simple t).
Lemma kind_eq t : kind t = match t with
  | TProxy c _ => match c_alias c with PStr a => match dget a builtin_aliases with Some t => kind0 t | None => None end | _ => None end
  | _ => kind0 t end.
Proof. destruct t as [c|c|c b s|c b|c b v|c b v|c v l va|c k v|c fs|c s|c ts|c rg]; try reflexivity. cbn [kind]. destruct (c_alias c); auto. destruct (dget _ _) as [[]|]; reflexivity. Qed.
Lemma value_kind0 lax env t v k : value lax env t v -> kind0 t = Some k -> k = vkind v.
Proof.
  intros H K. destruct H; cbn in K; try discriminate K; injection K as <-; try reflexivity;
    destruct v; try contradiction; reflexivity.
Qed.
Lemma value_kind lax t v k : value lax builtin_names t v -> kind t = Some k -> k = vkind v.
Proof.
  intros H K. rewrite kind_eq in K. destruct t; try (eapply value_kind0; eauto; fail).
  inversion H; subst. rewrite H2 in K. match goal with B : builtin_names _ _ |- _ => unfold builtin_names in B; rewrite B in K end.
  eapply value_kind0; eauto.
Qed.
Lemma value_type lax env t v ty : value lax env t v -> simple t = Some ty -> has_type v ty.
Proof.
  intros H K. destruct H; cbn in K; try discriminate K; injection K as <-; try (econstructor; eauto; fail).
Qed.

Section Document.
Variable doc : pyval.
Notation acc := (accepts doc).

(** ** Adding attributes *)
Lemma acc_more e e' v : acc (PDict e) v -> (forall k, In k keywords -> dget k e' = dget k e) -> acc (PDict e') v.
Proof.
  intros A E. inversion A as [|? ? K]; subst. constructor. intros k s G.
  destruct (in_dec string_dec k keywords) as [I|N]; [|now apply kw_other].
  rewrite E in G by exact I. apply K in G. 
  assert (P : forall n, named_property e' n <-> named_property e n).
  { intros n. unfold named_property. rewrite E by (cbn; tauto). tauto. }
  destruct G; try (econstructor; eauto; fail).
  - apply kw_additional. intros o k x V G N. apply H with (1 := V) (2 := G). intros X. now apply N, P.
Qed.
Lemma acc_labels t e v : NoDup (dkeys e) -> acc (PDict e) v -> acc (PDict (dupd (js_labels t) e)) v.
Proof.
  intros N A. eapply acc_more; [exact A|]. intros k K. apply dget_labelled; auto; intros ->; cbn in K; intuition discriminate.
Qed.
Lemma acc_type e ty v : has_type v ty -> dget "type" e = Some (PStr ty) -> (forall k, In k keywords -> k <> "type" -> dget k e = None) -> acc (PDict e) v.
Proof.
  intros H T O. constructor. intros k s G. destruct (string_dec k "type") as [->|N].
  - rewrite T in G. injection G as <-. now apply kw_type.
  - destruct (in_dec string_dec k keywords) as [I|NI]; [rewrite (O k I N) in G; discriminate|now apply kw_other].
Qed.
Lemma rej_type e ty v : ~ has_type v ty -> dget "type" e = Some (PStr ty) -> rejects doc (PDict e) v.
Proof. intros H T. eapply rej_object; [exact T|now apply rf_type]. Qed.

(** The "type" of a node that is written. *)
Lemma node_type prox go R t d ty : simple t = Some ty -> node prox go R t = Ok d -> dget "type" d = Some (PStr ty).
Proof.
  intros K H.
  assert (D : forall e, Ok (dupd (js_labels t) (("type", PStr ty) :: e)) = Ok d -> NoDup (dkeys (("type", PStr ty) :: e)) -> dget "type" d = Some (PStr ty)).
  { intros e E N. assert (d = dupd (js_labels t) (("type", PStr ty) :: e)) as -> by congruence. rewrite dget_labelled by (auto; discriminate). reflexivity. }
  assert (ND : forall k0 (v : pyval), k0 <> "type" -> NoDup (dkeys [("type", PStr ty); (k0, v)])).
  { intros k0 v N. cbn. constructor; [cbn; intuition|]. constructor; [intros []|constructor]. }
  assert (N1 : NoDup (dkeys [("type", PStr ty)])) by (cbn; repeat constructor; auto).
  destruct t as [c|c|c b s|c b|c b v|c b v|c v l va|c k v|c fs|c s|c ts|c rg]; cbn in K; try discriminate K; injection K as <-; cbn [node] in H;
    try (eapply D; [exact H|exact N1 || (apply ND; discriminate)]; fail);
    apply rbind_Ok in H as (e & _ & H); try (eapply D; [exact H|apply ND; discriminate]; fail).
  eapply D; [exact H|]. destruct (snd e); cbn; repeat (constructor; [cbn; intuition discriminate|]); constructor.
Qed.

(** ** Built-in references *)
(** Types without parts and without an enumeration. *)
Definition flat (t : rtype) : option string :=
  match t with
  | TNull _ => Some "null" | TBool _ => Some "boolean" | TInt _ _ _ => Some "integer" | TFloat _ _ => Some "number"
  | TString _ _ _ | TBytes _ _ _ => Some "string" | _ => None
  end.
Lemma flat_simple t ty : flat t = Some ty -> simple t = Some ty.
Proof. destruct t; cbn; congruence. Qed.
Lemma set_attr_flat t k v t' : set_attr t k v = Ok t' -> flat t' = flat t.
Proof.
  unfold set_attr. destruct (opaque_attr t k); [discriminate|].
  repeat match goal with |- (if ?b then _ else _) = Ok _ -> _ => destruct b; [try (intros [= <-]; destruct t; reflexivity)|] end.
  - destruct v; try discriminate. intros [= <-]. destruct t; reflexivity.
  - destruct t; repeat match goal with |- (if ?b then _ else _) = Ok _ -> _ => destruct b end; intros [= <-]; reflexivity.
Qed.
Lemma set_attrs_flat l : forall t t', set_attrs t l = Ok t' -> flat t' = flat t.
Proof.
  induction l as [|[k v] l IH]; intros t t' H; cbn [set_attrs] in H; [congruence|]. apply rbind_Ok in H as (u & E & H).
  apply IH in H. apply set_attr_flat in E. congruence.
Qed.
Lemma builtin_flat a t : dget a builtin_aliases = Some t -> exists ty, flat t = Some ty.
Proof.
  intros D. apply dget_In in D. vm_compute in D.
  repeat match type of D with _ \/ _ => destruct D as [D|D] end; [..|destruct D]; injection D as <- <-; eexists; reflexivity.
Qed.
Lemma flat_node prox go R t d ty v : flat t = Some ty -> node prox go R t = Ok d -> has_type v ty -> acc (PDict d) v.
Proof.
  intros S H V. pose proof (node_type _ _ _ _ _ _ (flat_simple _ _ S) H) as T. eapply acc_type; eauto. intros k K NT.
  assert (D : forall e, NoDup (dkeys e) -> Ok (dupd (js_labels t) e) = Ok d -> dget k e = None -> dget k d = None).
  { intros e N E X. assert (d = dupd (js_labels t) e) as -> by congruence. rewrite dget_labelled; auto; intros ->; cbn in K; intuition discriminate. }
  destruct t as [c|c|c b s|c b|c b vv|c b vv|c vv l va|c kk vv|c fs|c s|c ts|c rg]; cbn in S; try discriminate S; injection S as <-; cbn [node] in H;
    (eapply D; [|exact H|]; [cbn; repeat constructor; cbn; intuition discriminate|]);
    cbn in K; repeat (destruct K as [<-|K]; [try reflexivity; congruence|]); destruct K.
Qed.
Lemma resolved R c rg t' : keeps_builtins R -> builtin_reference (TProxy c rg) -> resolve R (TProxy c rg) = Ok t' ->
  exists a t0 ty, c_alias c = PStr a /\ dget a builtin_aliases = Some t0 /\ flat t0 = Some ty /\ flat t' = Some ty /\ not_aliased t'.
Proof.
  intros K B H. pose proof (resolve_builtin _ _ _ K B H) as (_ & _ & N).
  destruct B as (c' & a & [= <- ->] & A & I & _). cbn [resolve] in H. rewrite A in H. apply rbind_Ok in H as (t0 & F & H).
  unfold from_alias in F. cbn [proxy_reg] in *. rewrite (K _ I) in F. destruct (dget a builtin_aliases) as [t1|] eqn:D; [|discriminate].
  injection F as ->. destruct (builtin_scalar _ _ D) as [_ FZ]. rewrite FZ in H. apply set_attrs_flat in H.
  destruct (builtin_flat _ _ D) as [ty F]. exists a, t0, ty. repeat split; auto; congruence.
Qed.

(** ** Fields *)
Lemma field_node n R u t d : js_field_f n R u t = Ok d -> (u = false \/ not_aliased t \/ is_proxy t = true) ->
  exists prox, node prox (js_field_f n R true) R t = Ok d /\
    forall t' d', prox t' = Ok d' -> exists m, js_field_f m R true t' = Ok d'.
Proof.
  intros H U.
  assert (EX : exists prox, (forall u t, js_field_f n R u t = js_tree prox R u t) /\ forall t' d', prox t' = Ok d' -> exists m, js_field_f m R true t' = Ok d').
  { destruct n as [|n]; [exists (fun _ => Err OutOfFuel)|exists (js_field_f n R true)]; (split; [reflexivity|]); intros; [discriminate|eauto]. }
  destruct EX as (prox & E & P). exists prox. split; auto. rewrite E in H.
  assert (G : node prox (js_tree prox R true) R t = Ok d).
  { destruct U as [U|[U|U]]; [rewrite tree_free in H; auto; now left|rewrite tree_free in H; auto|].
    rewrite tree_eq in H. rewrite U in H. cbn [negb] in H. rewrite andb_false_r in H. destruct (c_alias (get_c t)); exact H. }
  rewrite <- G. clear - E.
  assert (X : forall x, js_field_f n R true x = js_tree prox R true x) by (intros; apply E).
  set (f := js_field_f n R true) in *. set (g := js_tree prox R true) in *. clearbody f g.
  destruct t as [c|c|c b s|c b|c b vv|c b vv|c vv l va|c kk vv|c fs|c s|c ts|c rg]; cbn [node]; rewrite ?X; try reflexivity.
  - assert (Y : forall ps rq, fields_f f fs ps rq = fields_f g fs ps rq).
    { induction fs as [|y fs IH]; intros; cbn [fields_f]; auto. destruct (js_name y); cbn; auto. rewrite X. destruct (g y); cbn; auto. }
    now rewrite Y.
  - destruct (is_optional c ts).
    + assert (Y : only_f f ts = only_f g ts) by (induction ts as [|y l IH]; cbn; [auto|now rewrite IH, X]). now rewrite Y.
    + assert (Y : all_f f ts = all_f g ts) by (induction ts as [|y l IH]; cbn; [auto|now rewrite IH, X]). now rewrite Y.
Qed.
Lemma only_spec go l d : only_f go l = Ok d -> exists l1 x l2, l = l1 ++ x :: l2 /\ is_null x = false /\ go x = Ok d /\
  forall y, In y (l1 ++ l2) -> is_null y = true.
Proof.
  induction l as [|x l IH]; cbn [only_f]; [discriminate|]. destruct (is_null x) eqn:N.
  - intros H. apply IH in H as (l1 & y & l2 & -> & A & B & C). exists (x :: l1), y, l2. repeat split; auto.
    intros z [<-|I]; auto.
  - destruct (existsb _ l) eqn:X; [discriminate|]. intros H. exists [], x, l. repeat split; auto. cbn. intros y I.
    destruct (is_null y) eqn:Y; auto. enough (existsb (fun y => negb (is_null y)) l = true) by congruence.
    apply existsb_exists. exists y. now rewrite Y.
Qed.

Lemma shown_step' s t t' : In s (shown_children t) -> shown t t' -> shown s t'.
Proof.
  intros I H. induction H as [|t' c Ic Sc IH].
  - eapply shown_child; [exact I|constructor].
  - eapply shown_child; [exact Ic|exact IH].
Qed.
Lemma Forall2_in_r {A B} (P : A -> B -> Prop) l l' b : Forall2 P l l' -> In b l' -> exists a, In a l /\ P a b.
Proof. induction 1 as [|x y l l' H F IH]; intros []; [subst; exists x; cbn; auto|]. destruct IH as (a & ? & ?); auto. exists a; cbn; auto. Qed.

(** ** Types *)
Section Type_.
Variables (R : registry) (T : rtype).
Hypothesis KB : keeps_builtins R.
Hypothesis EX : expressible T.
Hypothesis DEFS : forall s a, shown s T -> defines s a -> exists n e, target doc ("#/$defs/" ++ a) (PDict e) /\ js_field_f n R false s = Ok e.

Lemma shown_step s t : In s (shown_children t) -> shown t T -> shown s T.
Proof. intros I H. eapply shown_step'; eauto. Qed.
Lemma alias_case t : shown t T -> is_proxy t = true \/ not_aliased t \/ exists a, defines t a.
Proof.
  intros S. destruct (is_proxy t) eqn:P; [now left|]. right. destruct (c_alias (get_c t)) as [| | | |a| |] eqn:A;
    try (left; intros ? ?; congruence). right. eexists. split; [exact P|exact A].
Qed.
Lemma ref_written n t a d : defines t a -> js_field_f n R true t = Ok d -> d = [("$ref", PStr ("#/$defs/" ++ a)%string)].
Proof.
  intros [P A] H. assert (X : exists prox, js_tree prox R true t = Ok d) by (destruct n; eexists; exact H). destruct X as [prox X].
  rewrite tree_eq, A, P in X. cbn [andb negb] in X. injection X as <-. reflexivity.
Qed.
Lemma acc_ref r s v : target doc r s -> acc s v -> acc (PDict [("$ref", PStr r)]) v.
Proof. intros T' A. constructor. intros k x G. cbn in G. destruct (String.eqb k "$ref") eqn:E; [|discriminate].
  injection G as <-. eapply kw_ref; eauto. left. now apply String.eqb_eq. Qed.
Lemma rej_ref r s v : target doc r s -> rejects doc s v -> rejects doc (PDict [("$ref", PStr r)]) v.
Proof. intros T' A. eapply (rej_object _ _ "$ref"); [reflexivity|]. eapply rf_ref; eauto. Qed.

(** Documents of another JSON type are rejected. *)
Lemma other_kind n u t d v k : shown t T -> js_field_f n R u t = Ok d -> kind t = Some k -> k <> vkind v -> rejects doc (PDict d) v.
Proof.
  intros S H K N.
  assert (NODE : forall n u t d, js_field_f n R u t = Ok d -> (u = false \/ not_aliased t) -> kind0 t = Some k -> rejects doc (PDict d) v).
  { clear - N. intros n u t d H U K. apply field_node in H as (prox & H & _); [|tauto].
    unfold kind0 in K. destruct (simple t) as [ty|] eqn:SM; [|discriminate]. injection K as <-.
    eapply rej_type; [|eapply node_type; eauto]. intros V. apply N. now apply type_class. }
  destruct (is_proxy t) eqn:P.
  - destruct t as [c|c|c b s|c b|c b vv|c b vv|c vv l va|c kk vv|c fs|c s|c ts|c rg]; try discriminate P.
    pose proof (ex_references _ EX _ S P) as B. apply field_node in H as (prox & H & PX); [|tauto]. cbn [node] in H.
    pose proof B as (c' & a & [= <- ->] & A & I & _). rewrite A in H.
    assert (M : dmem a builtin_aliases = true) by (apply dmem_true; exact I). rewrite M in H. cbn [orb] in H.
    apply rbind_Ok in H as (t' & RS & H). apply PX in H as [m H].
    destruct (resolved _ _ _ _ KB B RS) as (a' & t0 & ty & A' & D & F0 & F' & NA).
    assert (a' = a) by congruence. subst a'. eapply NODE; [exact H|now right|].
    rewrite kind_eq, A, D in K. unfold kind0 in *. rewrite (flat_simple _ _ F0) in K. now rewrite (flat_simple _ _ F').
  - assert (K0 : kind0 t = Some k) by (rewrite kind_eq in K; destruct t; auto; discriminate P).
    destruct u; [|eapply NODE; eauto].
    destruct (alias_case _ S) as [X|[X|[a X]]]; [congruence|eapply NODE; eauto|].
    rewrite (ref_written _ _ _ _ X H). destruct (DEFS _ _ S X) as (m & e & TG & C). eapply rej_ref; eauto.
Qed.

Lemma node_acc n u t d v : shown t T -> (u = false \/ not_aliased t \/ is_proxy t = true) ->
  (forall x d v, In x (shown_children t) -> js_field_f n R true x = Ok d -> value false builtin_names x v -> acc (PDict d) v) ->
  js_field_f n R u t = Ok d -> value false builtin_names t v -> acc (PDict d) v.
Proof.
  intros S U IH H V. apply field_node in H as (prox & H & PX); auto.
  destruct (flat t) as [ty|] eqn:F. { eapply flat_node; eauto. eapply value_type; eauto. now apply flat_simple. }
  assert (NF : forall e, js_field_f n R true t = e -> True) by auto. clear NF.
  destruct t as [c|c|c b s|c b|c b vv|c b vv|c x l va|c k x|c fs|c s|c ts|c rg]; try discriminate F; clear F; cbn [node] in H.
  - (* list *)
    apply rbind_Ok in H as (e & E & H). assert (d = dupd (js_labels (TList c x l va)) [("type", PStr "array"); ("items", PDict e)]) as -> by congruence.
    apply acc_labels. { cbn. repeat constructor; cbn; intuition discriminate. }
    inversion V; subst. constructor. intros k s G. cbn in G.
    destruct (String.eqb k "type") eqn:K1. { apply String.eqb_eq in K1. subst k. injection G as <-. apply kw_type. econstructor; eauto. }
    destruct (String.eqb k "items") eqn:K2; [|discriminate]. apply String.eqb_eq in K2. subst k. injection G as <-.
    apply kw_items. intros l' y [= <-] I. eapply IH; eauto. now left.
  - (* map *)
    apply rbind_Ok in H as (e & E & H). assert (d = dupd (js_labels (TMap c k x)) [("type", PStr "object"); ("additionalProperties", PDict e)]) as -> by congruence.
    apply acc_labels. { cbn. repeat constructor; cbn; intuition discriminate. }
    inversion V; subst. constructor. intros kk s G. cbn in G.
    destruct (String.eqb kk "type") eqn:K1. { apply String.eqb_eq in K1. subst kk. injection G as <-. apply kw_type. econstructor; eauto. }
    destruct (String.eqb kk "additionalProperties") eqn:K2; [|discriminate]. apply String.eqb_eq in K2. subst kk. injection G as <-.
    apply kw_additional. intros o' m y [= <-] I _. eapply IH; eauto. now left.
  - (* struct *)
    apply rbind_Ok in H as ((ps & rq) & FS & H). cbn [fst snd] in H.
    apply fields_spec in FS as (ns & ds & N & D & E1 & E2). cbn [app] in E2.
    set (e := ("type", PStr "object") :: ("properties", PDict ps) :: match rq with [] => [] | p :: l => [("required", PList (p :: l))] end).
    change (Ok (dupd (js_labels (TStruct c fs)) e) = Ok d) in H. assert (HD : d = dupd (js_labels (TStruct c fs)) e) by congruence. rewrite HD. clear H HD.
    assert (ND : NoDup (dkeys e)).
    { unfold e. destruct rq; cbn; repeat (constructor; [cbn; intuition discriminate|]); constructor. }
    apply acc_labels; auto. inversion V as [| | | | | | | |c' fs' o NM FV AB| | |]; subst c' fs' v. constructor. intros k s G.
    assert (CASES : (k = "type" /\ s = PStr "object") \/ (k = "properties" /\ s = PDict ps) \/ (k = "required" /\ s = PList rq)).
    { apply dget_In in G. unfold e in G. destruct G as [[= <- <-]|[[= <- <-]|G]]; auto. right; right.
      destruct rq; [destruct G|]. destruct G as [[= <- <-]|[]]. auto. }
    destruct CASES as [[-> ->]|[[-> ->]|[-> ->]]].
    + apply kw_type. econstructor; eauto.
    + apply kw_properties. intros o' k s0 y [= <-] I Gy. rewrite E1 in I. apply In_dupd in I as [[]|I].
      assert (Z : exists f p, In f fs /\ named f k /\ js_field_f n R true f = Ok p /\ s0 = PDict p).
      { clear - N D I. revert ds D I. induction N as [|f m fs ns Nf N IHN]; intros ds D I; inversion D; subst; [destruct I|].
        cbn in I. destruct I as [[= -> <-]|I]; [eexists f, _; cbn; eauto|].
        destruct (IHN _ H3 I) as (f' & p & ? & ?). exists f', p. cbn; auto. }
      destruct Z as (f & p & If & [Nf _] & Cf & ->). eapply IH; eauto.
    + apply kw_required. intros o' m [= <-] I. rewrite E2 in I. apply in_map_iff in I as (m' & [= ->] & I).
      apply in_concat in I as (l & I & IN). apply in_map_iff in I as ([f m'] & <- & I). cbn [fst snd] in IN.
      unfold req_of in IN. destruct (js_required f) eqn:RQ; [|destruct IN]. destruct IN as [<-|[]].
      assert (Nf : named f m' /\ In f fs).
      { split; [|eapply in_combine_l; eauto]. clear - N I. induction N as [|f0 m0 fs ns Nf N IHN]; [destruct I|].
        destruct I as [[= <- <-]|I]; auto. }
      destruct Nf as [[Nf _] If]. intros Z. destruct (AB f m' If Nf Z) as [_ OU]. specialize (OU eq_refl). apply required_iff in OU. congruence.
  - (* enum *)
    assert (d = dupd (js_labels (TEnum c s)) [("type", PStr "string"); ("enum", s)]) as -> by congruence.
    apply acc_labels. { cbn. repeat constructor; cbn; intuition discriminate. }
    inversion V; subst. constructor. intros kk s G. cbn in G.
    destruct (String.eqb kk "type") eqn:K1. { apply String.eqb_eq in K1. subst kk. injection G as <-. apply kw_type. econstructor; eauto. }
    destruct (String.eqb kk "enum") eqn:K2; [|discriminate]. apply String.eqb_eq in K2. subst kk. injection G as <-. now apply kw_enum.
  - (* union *)
    inversion V as [| | | | | | | | | |c' ts' t v' It Vt NN|]; subst c' ts' v'. destruct (is_optional c ts) eqn:O.
    + apply rbind_Ok in H as (e & E & H). assert (d = dupd (js_labels (TUnion c ts)) e) as -> by congruence.
      apply only_spec in E as (l1 & x & l2 & -> & Nx & E & ALL). apply acc_labels; [eapply field_nodup; eauto|].
      assert (OU : optional_union (TUnion c (l1 ++ x :: l2))) by (apply required_iff; cbn; now rewrite O).
      specialize (NN eq_refl OU).
      assert (t = x) as ->.
      { apply in_app_iff in It. destruct It as [It|[It|It]]; auto; exfalso; apply NN;
          (assert (Z : is_null t = true) by (apply ALL, in_app_iff; auto)); destruct t; try discriminate Z; inversion Vt; reflexivity. }
      eapply IH; eauto.
    + apply rbind_Ok in H as (l & E & H). assert (d = dupd (js_labels (TUnion c ts)) [("oneOf", PList l)]) as -> by congruence.
      destruct (ex_unions _ EX _ _ S) as [OU|[TA1 TA2]]. { apply required_iff in OU. cbn in OU. rewrite O in OU. discriminate. }
      apply acc_labels. { cbn. repeat constructor; cbn; intuition discriminate. }
      constructor. intros kk s G. cbn in G. destruct (String.eqb kk "oneOf") eqn:K2; [|discriminate]. apply String.eqb_eq in K2. subst kk. injection G as <-.
      apply all_refs in E. apply in_split in It as (t1 & t2 & ->).
      apply Forall2_app_inv_l in E as (d1 & d2' & F1 & F2 & ->). inversion F2 as [|? ? ? d2 (p & C & ->) F2']; subst.
      apply kw_one. { eapply IH; eauto. cbn. apply in_app_iff. cbn. auto. }
      rewrite map_app in TA2. cbn [map] in TA2. apply NoDup_remove_2 in TA2. rewrite <- map_app in TA2.
      apply Forall_app in TA1 as [TA1 TA1']. inversion TA1' as [|? ? KT TA1'']; subst.
      assert (FA : Forall2 (fun x v0 => exists d, js_field_f n R true x = Ok d /\ v0 = PDict d) (t1 ++ t2) (d1 ++ d2)) by (apply Forall2_app; auto).
      intros s' I. destruct (Forall2_in_r _ _ _ _ FA I) as (y & Iy & q & Cq & ->).
      destruct (kind t) as [k|] eqn:Kt; [|congruence]. assert (k = vkind v) by (eapply value_kind; eauto). subst k.
      assert (Ky : kind y <> None).
      { apply in_app_iff in Iy. rewrite Forall_forall in TA1, TA1''. destruct Iy; auto. }
      destruct (kind y) as [k|] eqn:Kyk; [|congruence].
      eapply other_kind; [|exact Cq|exact Kyk|].
      * eapply shown_step; [|exact S]. cbn. apply in_app_iff in Iy. apply in_app_iff. cbn. tauto.
      * intros ->. apply TA2. rewrite <- Kyk. now apply List.in_map.
  - (* proxy *)
    pose proof (ex_references _ EX _ S eq_refl) as B. pose proof B as (c' & a & [= <- ->] & A & I & _). rewrite A in H.
    assert (M : dmem a builtin_aliases = true) by (apply dmem_true; exact I). rewrite M in H. cbn [orb] in H.
    apply rbind_Ok in H as (t' & RS & H). apply PX in H as [m H].
    destruct (resolved _ _ _ _ KB B RS) as (a' & t0 & ty & A' & D & F0 & F' & NA).
    assert (a' = a) by congruence. subst a'. apply field_node in H as (prox' & H & _); [|auto].
    eapply flat_node; eauto. inversion V; subst. assert (a0 = a) by congruence. subst a0.
    unfold builtin_names in *. assert (t = t0) by congruence. subst t. eapply value_type; eauto. now apply flat_simple.
Qed.
Lemma tree_acc t : shown t T -> forall n u d v, js_field_f n R u t = Ok d -> value false builtin_names t v -> acc (PDict d) v.
Proof.
  induction t as [t IH] using shown_ind'. intros S n u d v H V.
  assert (SUB : forall n x d v, In x (shown_children t) -> js_field_f n R true x = Ok d -> value false builtin_names x v -> acc (PDict d) v).
  { intros m x e w I C W. eapply IH; eauto. eapply shown_step; eauto. }
  destruct u; [|eapply node_acc; eauto].
  destruct (alias_case _ S) as [X|[X|[a X]]]; [eapply node_acc; eauto..|].
  rewrite (ref_written _ _ _ _ X H). destruct (DEFS _ _ S X) as (m & e & TG & C). eapply acc_ref; eauto. eapply node_acc; eauto.
Qed.
End Type_.
End Document.

(** ** Schemas that are written (C103) *)
Lemma written_accepts R t d v : keeps_builtins R -> expressible t -> js_from R t = Ok d -> value false builtin_names t v ->
  accepts (PDict d) (PDict d) v.
Proof.
  intros KB EX H V. unfold js_from in H. apply rbind_Ok in H as (m & M & H). apply rbind_Ok in H as (defs & D & H).
  assert (HD : d = match defs with [] => m | _ => dset "$defs" (PDict defs) m end) by congruence. clear H.
  apply defs_spec in D as (N & A & BD).
  assert (DEFS : forall s a, shown s t -> defines s a -> exists n e, target (PDict d) ("#/$defs/" ++ a) (PDict e) /\ js_field_f n R false s = Ok e).
  { intros s a S DF. destruct (ex_names _ EX _ _ S DF) as [UN TK].
    assert (Y : dget a defs <> None) by (eapply (A s a); eauto; [exists t; cbn; auto|apply DF]).
    destruct (dget a defs) as [v0|] eqn:E; [|congruence]. pose proof (BD a v0 E) as (t' & s' & e & [<-|[]] & S' & AL & _ & C & -> & _).
    assert (P' : is_proxy s' = false).
    { destruct (is_proxy s') eqn:P; auto. destruct (ex_references _ EX _ S' P) as (c & a' & -> & A' & I & _). cbn in AL.
      assert (a' = a) by congruence. subst a'. destruct UN. contradiction. }
    assert (s' = s) as ->. { eapply (ex_once _ EX); eauto. split; auto. }
    unfold js_field in C. eexists _, e. split; [|exact C]. eapply target_def; [reflexivity| |exact TK|exact E].
    rewrite HD. destruct defs as [|p defs]; [discriminate|]. now rewrite dget_dset, String.eqb_refl. }
  eapply acc_more; [eapply (tree_acc (PDict d) R t KB EX DEFS t); [constructor|exact M|exact V]|].
  intros k K. rewrite HD. destruct defs; auto. rewrite dget_dset. destruct (String.eqb k "$defs") eqn:X; auto.
  apply String.eqb_eq in X. subst k. cbn in K. intuition discriminate.
Qed.
