(** clean_dict on documents of a type (proofs only). *)
From Coq Require Import String Ascii List ZArith QArith Bool Lia.
From Verif Require Import PyVal PyValFacts RType Regex RegexFacts Registry FromDict ToDict
  FromDictFacts RoundTrip SpecTypes RegistryFacts Nullable NullableFacts Equality SpecCompact Compact CompactDocs CompactRead.
Import ListNotations.
Open Scope nat_scope.
Open Scope string_scope.
Open Scope list_scope.

(** ** Removing defaults *)
Lemma strip_app nm a b : strip_defaults nm (a ++ b) = strip_defaults nm a ++ strip_defaults nm b.
Proof. apply filter_app. Qed.
Lemma strip_ent nm b k d v : dget k (param_defaults nm) = Some d -> strip_defaults nm (ent b k d v) = ent true k d v.
Proof.
  intros E. unfold ent. destruct b; cbn [andb]; destruct (py_eq d v) eqn:P; cbn; rewrite ?E, ?P; reflexivity.
Qed.
Lemma strip_keep nm l : (forall k, In k (dkeys l) -> dget k (param_defaults nm) = None) -> strip_defaults nm l = l.
Proof.
  induction l as [|[k v] l IH]; intros H; auto. cbn. rewrite (H k) by (cbn; auto). f_equal. apply IH. intros. apply H. cbn. auto.
Qed.
Lemma default_keys nm k : In k (dkeys (param_defaults nm)) -> In k ["alias"; "logical"; "doc"; "signed"; "bytes"; "variable"; "length"; "fields"].
Proof.
  unfold param_defaults. repeat (destruct (String.eqb nm _)); cbn; intuition (subst; tauto).
Qed.
Lemma default_none nm k : ~ In k ["alias"; "logical"; "doc"; "signed"; "bytes"; "variable"; "length"; "fields"] -> dget k (param_defaults nm) = None.
Proof. intros H. apply dget_None. intros I. apply H. eapply default_keys; eauto. Qed.
Lemma default_base nm k : In k ["alias"; "logical"; "doc"] -> dget k (param_defaults nm) = Some PNone.
Proof.
  intros I. unfold param_defaults.
  repeat (destruct (String.eqb nm _)); cbn in I; intuition (subst; reflexivity).
Qed.
Lemma filter_filter' {A} (f g : A -> bool) l : filter f (filter g l) = filter (fun x => f x && g x) l.
Proof.
  induction l as [|x l IH]; auto. cbn. destruct (g x) eqn:E; cbn; rewrite IH; [now rewrite andb_true_r|now rewrite andb_false_r].
Qed.
Lemma word_name a : ~ In a type_words -> param_defaults a = [("logical", PNone); ("alias", PNone); ("doc", PNone)].
Proof.
  intros W. unfold param_defaults.
  rewrite !(eqb_neq_s a) by (intros ->; apply W; cbn; tauto). reflexivity.
Qed.
Definition nm_of (t : rtype) : string := match head_name t with PStr s => s | _ => "" end.
Lemma head_nm t : node_ok t -> head_name t = PStr (nm_of t).
Proof. intros N. unfold nm_of. destruct (head_str t N) as (s & -> & _). reflexivity. Qed.
Lemma default_reserved t k v : node_ok t -> dget k (param_defaults (nm_of t)) = Some v -> In k ["alias"; "logical"; "doc"] \/ In k (reserved t).
Proof.
  intros N E. apply dget_In_key in E. destruct t; cbn in E; cbn; try (intuition (subst; auto); fail).
  destruct N as (_ & _ & _ & _ & _ & _ & _ & _ & _ & a & Ea & W). unfold nm_of in E. cbn in Ea, E. rewrite Ea, word_name in E by auto.
  cbn in E. intuition (subst; auto).
Qed.
Lemma strip_entries b t js : node_ok t -> strip_defaults (nm_of t) (entries b t js) = entries true t js.
Proof.
  intros N. unfold entries. cbn [strip_defaults filter fst snd]. rewrite default_none by (cbn; intuition discriminate).
  f_equal. fold (strip_defaults (nm_of t) (commons b t ++ own b t js)). rewrite strip_app. f_equal.
  - unfold commons. rewrite !strip_app. rewrite !strip_ent by (apply default_base; cbn; tauto). f_equal.
    + destruct (is_proxy t); auto. apply strip_ent, default_base; cbn; tauto.
    + f_equal. f_equal. apply strip_keep. intros k I. destruct (dget k _) eqn:E; auto. exfalso.
      apply (default_reserved _ _ _ N) in E. destruct N as (_ & HK & _). apply (HK k I). apply in_or_app.
      cbn in *. intuition.
  - destruct t as [c|c|c x s|c x|c x v|c x v|c x l v|c x y|c fs|c s|c us|c r]; cbn [own]; try destruct js as [|j1 js]; try destruct js as [|j2 js]; auto.
    all: try (change (("bits", x) :: ent b "signed" (PBool true) s) with ([("bits", x)] ++ ent b "signed" (PBool true) s); rewrite strip_app, strip_ent by reflexivity; reflexivity).
    all: try (rewrite strip_app, !strip_ent by reflexivity; reflexivity).
    all: try (change (("values", j1) :: ent b "length" PNone l ++ ent b "variable" (PBool true) v) with ([("values", j1)] ++ ent b "length" PNone l ++ ent b "variable" (PBool true) v);
      rewrite !strip_app, !strip_ent by reflexivity; reflexivity).
Qed.
Lemma strip_tail nm c : strip_defaults nm (tail c) = tail c.
Proof.
  unfold tail, strip_defaults. rewrite filter_filter'. apply filter_ext_in. intros [k v] I. cbn [fst snd].
  destruct (is_none v) eqn:E; cbn [negb]; rewrite ?andb_false_r, ?andb_true_r; auto.
  destruct (dget k (param_defaults nm)) as [d|] eqn:G; auto. cbn in I.
  assert (D : d = PNone).
  { destruct I as [[= <- <-]|[[= <- <-]|[[= <- <-]|[[= <- <-]|[[= <- <-]|[[= <- <-]|[]]]]]]];
      try (rewrite default_base in G by (cbn; tauto); congruence);
      try (rewrite default_none in G by (cbn; intuition discriminate); congruence). }
  subst. destruct v; auto.
Qed.

(** ** clean_body *)
Lemma dset_same {V} k (v : V) d : dget k d = Some v -> NoDup (dkeys d) -> dset k v d = d.
Proof.
  induction d as [|[k' v'] d IH]; cbn; [discriminate|]. intros E ND. inversion ND; subst.
  destruct (String.eqb_spec k k') as [->|]; [congruence|]. f_equal. auto.
Qed.
(** A step that behaves the same when entries are appended. *)
Definition local (tl : list (string * pyval)) (f : list (string * pyval) -> res (list (string * pyval))) : Prop :=
  forall d d', f d = Ok d' -> f (d ++ tl) = Ok (d' ++ tl).
Lemma local_bind tl f g : local tl f -> local tl g -> local tl (fun d => (d <- f d ;; g d)%res).
Proof. intros F G d d' H. apply rbind_Ok in H as (e & H1 & H2). rewrite (F _ _ H1). cbn. auto. Qed.
Lemma local_if tl (b : bool) f g : local tl f -> local tl g -> local tl (fun d => if b then f d else g d).
Proof. now destruct b. Qed.
Lemma local_ok tl : local tl (fun d => Ok d).
Proof. intros d d' [= <-]. reflexivity. Qed.
Section Local.
  Variable tl : list (string * pyval).
  Variable rec : pyval -> res pyval.
  Hypothesis K : forall k, In k (dkeys tl) -> In k ["default"; "name"; "optional"].
  Lemma local_get k d : In k ["values"; "keys"; "fields"; "types"] -> dget k (d ++ tl) = dget k d.
  Proof.
    intros I. rewrite dget_app. destruct (dget k d); auto. apply dget_None. intros J. apply K in J. cbn in I, J.
    intuition (subst; discriminate).
  Qed.
  Lemma local_one k e : In k ["values"; "keys"; "fields"; "types"] ->
    local tl (fun d => match dget k d with None => Err e | Some v => (v' <- rec v ;; Ok (dset k v' d))%res end).
  Proof.
    intros I d d'. rewrite local_get by auto. destruct (dget k d) eqn:E; [|discriminate]. intros H.
    apply rbind_Ok in H as (v' & H & [= <-]). rewrite H. cbn [rbind]. f_equal. apply dset_app_l. eapply dget_In_key; eauto.
  Qed.
  Lemma local_many k (o : option exn) : In k ["values"; "keys"; "fields"; "types"] ->
    local tl (fun d => match dget k d with None => match o with Some e => Err e | None => Ok d end
      | Some v => (l <- py_iter v ;; l' <- rmap rec l ;; Ok (dset k (PList l') d))%res end).
  Proof.
    intros I d d'. rewrite local_get by auto. destruct (dget k d) eqn:E.
    - intros H. apply rbind_Ok in H as (l & H1 & H). apply rbind_Ok in H as (l' & H2 & [= <-]). rewrite H1. cbn [rbind]. rewrite H2.
      cbn [rbind]. f_equal. apply dset_app_l. eapply dget_In_key; eauto.
    - destruct o; [discriminate|]. intros [= <-]. reflexivity.
  Qed.
End Local.
Lemma clean_body_app rec a tl s a' : dget "type" a = Some (PStr s) ->
  (forall k, In k (dkeys tl) -> In k ["default"; "name"; "optional"]) ->
  strip_defaults s tl = tl -> clean_body rec a = Ok a' -> clean_body rec (a ++ tl) = Ok (a' ++ tl).
Proof.
  intros T K S. unfold clean_body, kwarg. rewrite dget_app, T. rewrite strip_app, S.
  revert a'. generalize (strip_defaults s a). clear a T.
  match goal with |- forall l a', @?F l = Ok a' -> _ => change (local tl F) end.
  apply local_bind; [apply local_if; [apply local_one; auto; cbn; tauto|apply local_ok]|].
  apply local_bind; [apply local_if; [apply local_one; auto; cbn; tauto|apply local_ok]|].
  apply local_bind; [apply local_if; [apply (local_many _ _ K "fields" None); cbn; tauto|apply local_ok]|].
  apply local_if; [apply (local_many _ _ K "types" (Some KeyError)); cbn; tauto|apply local_ok].
Qed.

Section Clean.
Variable ref : string -> rtype -> Prop.
Hypothesis ref_word : forall a t, ref a t -> ~ In a type_words.
Hypothesis ref_def : forall a t, ref a t -> defined_aliases t = [].
Notation dict_of := (dict_of ref true).
Notation doc_of := (doc_of ref true).
Notation kid_of := (kid_of ref true).

(** ** One node *)
Lemma get_own b t js k : node_ok t -> In k (reserved t) -> dget k (entries b t js) = dget k (own b t js).
Proof.
  intros N I. unfold entries. cbn [dget]. pose proof (reserved_std _ _ I) as S.
  rewrite eqb_neq_s by (intros ->; apply S; cbn; auto). apply dget_common; auto.
  - apply in_or_app; auto.
  - intros J. apply S. cbn in *. tauto.
Qed.
Lemma set_own b t js k v : node_ok t -> In k (reserved t) ->
  dset k v (entries b t js) = ("type", head_name t) :: commons b t ++ dset k v (own b t js).
Proof.
  intros N I. unfold entries. cbn [dset]. pose proof (reserved_std _ _ I) as S.
  rewrite eqb_neq_s by (intros ->; apply S; cbn; auto). f_equal. apply dset_app_r. apply common_free; auto.
  - apply in_or_app; auto.
  - intros J. apply S. cbn in *. tauto.
Qed.
Lemma rmap_F2 {A B} (f : A -> res B) l l' : Forall2 (fun x y => f x = Ok y) l l' -> rmap f l = Ok l'.
Proof. induction 1 as [|x y l l' H HL IH]; auto. cbn. now rewrite H, IH. Qed.

Lemma clean_node rec b t js js' : node_ok t -> length js = length (children t) ->
  Forall2 (fun j j' => rec j = Ok j') js js' -> clean_body rec (entries b t js) = Ok (entries true t js').
Proof.
  intros N L F. unfold clean_body.
  assert (T : kwarg "type" PNone (entries b t js) = PStr (nm_of t)) by (unfold kwarg, entries; cbn; now apply head_nm).
  rewrite T, strip_entries by auto.
  destruct t as [c|c|c x s|c x|c x v|c x v|c x l v|c x y|c fs|c s|c us|c r]; cbn [children List.length] in L.
  all: try (destruct js; [|discriminate]; inversion F; subst; reflexivity).
  - destruct js as [|j [|]]; try discriminate. inversion F as [|? j' ? ? E F']; subst. inversion F'; subst.
    change (nm_of (TList c x l v)) with "list". cbn -[entries dget dset].
    rewrite get_own by (auto; cbn; tauto). cbn [own dget String.eqb Ascii.eqb Bool.eqb]. rewrite E. cbn [rbind].
    rewrite set_own by (auto; cbn; tauto). reflexivity.
  - destruct js as [|j1 [|j2 [|]]]; try discriminate. inversion F as [|? j1' ? ? E1 F']; subst. inversion F' as [|? j2' ? ? E2 F'']; subst. inversion F''; subst.
    change (nm_of (TMap c x y)) with "map". cbn -[entries dget dset].
    rewrite get_own by (auto; cbn; tauto). cbn [own dget String.eqb Ascii.eqb Bool.eqb]. rewrite E2. cbn [rbind].
    assert (X1 : dset "values" j2' (entries true (TMap c x y) [j1; j2]) = entries true (TMap c x y) [j1; j2']) by (rewrite set_own by (auto; cbn; tauto); reflexivity).
    assert (X2 : dset "keys" j1' (entries true (TMap c x y) [j1; j2']) = entries true (TMap c x y) [j1'; j2']) by (rewrite set_own by (auto; cbn; tauto); reflexivity).
    rewrite X1, get_own by (auto; cbn; tauto). cbn [own dget String.eqb Ascii.eqb Bool.eqb]. rewrite E1. cbn [rbind]. now rewrite X2.
  - change (nm_of (TStruct c fs)) with "struct". cbn -[entries dget dset].
    rewrite get_own by (auto; cbn; tauto). cbn [own dget String.eqb Ascii.eqb Bool.eqb py_iter rbind]. rewrite (rmap_F2 _ _ _ F). cbn [rbind].
    rewrite set_own by (auto; cbn; tauto). reflexivity.
  - change (nm_of (TUnion c us)) with "union". cbn -[entries dget dset].
    rewrite get_own by (auto; cbn; tauto). cbn [own dget String.eqb Ascii.eqb Bool.eqb py_iter rbind]. rewrite (rmap_F2 _ _ _ F). cbn [rbind].
    rewrite set_own by (auto; cbn; tauto). reflexivity.
  - destruct js; [|discriminate]; inversion F; subst.
    pose proof N as (_ & _ & _ & _ & _ & _ & _ & _ & _ & a & Ea & W). unfold nm_of. cbn [head_name]. rewrite Ea.
    assert (X : forall w, In w type_words -> String.eqb a w = false) by (intros w Hw; apply eqb_neq_s; intros ->; auto).
    unfold str_in. cbn [existsb]. rewrite !X by (cbn; tauto). reflexivity.
Qed.

(** ** Shapes *)
Lemma shorten_cases nd t : twf t -> dict_of nd t ->
  shorten nd = PDict nd \/ (exists s, nd = [("type", PStr s)] /\ shorten nd = PStr s) \/
  (exists b c ts js, t = TUnion c ts /\ nd = entries b t js /\ commons b t = [] /\ Forall2 kid_of js ts /\ shorten nd = PList js).
Proof.
  intros W D. pose proof (nodes_here _ _ W) as N. destruct (dict_type ref true ref_word _ _ W D) as (s & Es & Us).
  unfold shorten. destruct (Nat.eqb_spec (length nd) 1) as [L|L].
  - right. left. destruct nd as [|[k v] [|]]; try discriminate. unfold kwarg. cbn [dget] in *. destruct (String.eqb_spec "type" k) as [<-|]; [|discriminate].
    injection Es as ->. eauto.
  - destruct (py_eq _ _ && _) eqn:E; [|auto]. apply andb_true_iff in E as [E1 E2]. apply py_eq_str_inv in E1. apply Nat.eqb_eq in E2.
    unfold kwarg in E1. rewrite Es in E1. injection E1 as ->. right. right.
    destruct D as [b t js F|a t H _|c xs js _ _ _ F|c x nd H0 H1 EA EL ED U NN ND D].
    + destruct (head_str t N) as (s & Eh & U & _). unfold entries in Es. cbn [dget] in Es. rewrite String.eqb_refl in Es. injection Es as Es. rewrite Es in Eh. injection Eh as <-.
      specialize (U eq_refl). destruct t; try discriminate. exists b, c, types, js. cbn [own children] in *.
      assert (X : commons b (TUnion c types) = []).
      { unfold entries in E2. cbn [List.length own] in E2. rewrite app_length in E2. cbn [List.length] in E2. destruct (commons b (TUnion c types)) as [|q l]; [reflexivity|]. cbn [List.length] in E2. lia. }
      repeat split; auto. unfold kwarg, entries. rewrite X. reflexivity.
    + discriminate.
    + cbn [List.length] in E2. pose proof (tail_length c). lia.
    + exfalso. assert (Wx : twf x) by (apply (twf_member _ _ _ W); cbn; auto).
      destruct (dict_type ref true ref_word _ _ Wx D) as (s & Es' & Us'). rewrite dget_app, Es' in Es. injection Es as ->. now apply Us'.
Qed.
Lemma short_doc nd t : twf t -> dict_of nd t -> doc_of (shorten nd) t.
Proof.
  intros W D. exists nd. split; auto. destruct (shorten_cases nd t W D) as [E|[(s & E1 & E)|(b & c & ts & js & -> & E1 & E2 & F & E)]]; rewrite E; cbn; subst; auto.
  unfold entries. rewrite E2. reflexivity.
Qed.

Definition shape (j : pyval) (t : rtype) : Prop :=
  (visible_alias true t <> PNone -> exists nd, j = PDict nd /\ kwarg "alias" PNone nd <> PNone) /\
  (get_c t = c0 -> is_union t = true -> forall nd, j <> PDict nd).
Definition cleaned (j : pyval) (t : rtype) : Prop :=
  kid_of j t /\ shape j t /\ (forall l c ts, j = PList l -> t = TUnion c ts -> Forall2 shape l ts).

Lemma alias_seen nd t : twf t -> dict_of nd t -> defines t <> PNone -> kwarg "alias" PNone nd <> PNone.
Proof.
  intros W D A. destruct D as [b t js F|a t H _|c xs js _ _ _ F|c x nd H0 H1 EA EL ED U NN ND D].
  - unfold kwarg, entries, commons, ent. cbn [dget]. change (String.eqb "alias" "type") with false. cbv iota.
    destruct t; cbn [is_proxy defines get_c] in *; try congruence;
      (destruct (py_eq PNone (c_alias c)) eqn:E; [apply py_eq_none_inv in E; congruence|]); rewrite andb_false_r; cbn; exact A.
  - exfalso. apply ref_def in H. rewrite defined_app in H. apply app_eq_nil in H as [_ H].
    unfold own_alias, defines in *. destruct t; cbn in *; try congruence; destruct (c_alias c); congruence.
  - cbn in A. unfold kwarg. cbn [dget]. change (String.eqb "alias" "type") with false. change (String.eqb "alias" "types") with false. cbv iota.
    rewrite tail_eq, ent_none. destruct (c_alias c); cbn; congruence.
  - cbn in A. congruence.
Qed.
Lemma seen_dict nd t : twf t -> dict_of nd t -> kwarg "alias" PNone nd <> PNone -> shorten nd = PDict nd.
Proof.
  intros W D A. destruct (shorten_cases nd t W D) as [E|[(s & E1 & E)|(b & c & ts & js & -> & E1 & E2 & F & E)]]; auto; exfalso; apply A; subst nd.
  - reflexivity.
  - unfold entries. rewrite E2. reflexivity.
Qed.
Lemma vis_defs b t : visible_alias b t <> PNone -> defined_aliases t <> [].
Proof.
  assert (X : forall t, defines t <> PNone -> defined_aliases t <> []).
  { clear t. intros t A E. rewrite defined_app in E. apply app_eq_nil in E as [_ E]. unfold own_alias, defines in *.
    destruct t; cbn in *; try congruence; destruct (c_alias c); congruence. }
  unfold visible_alias. destruct (if b then single_optional t else None) as [x|] eqn:E; [|apply X].
  destruct b; [|discriminate]. intros A D. apply X in A. apply A.
  destruct t as [| | | | | | | | | |c ts|]; try discriminate. destruct c as [[] [] dc e]; try discriminate.
  destruct ts as [|[[[] [] [] []]| | | | | | | | | | |] [|x' [|]]]; try discriminate. cbn in E. destruct (dmem "default" e); [|discriminate].
  injection E as ->. cbn in D. rewrite !app_nil_r in D. exact D.
Qed.
Lemma single_inv t x : single_optional t = Some x -> exists c, t = TUnion c [bare_null; x] /\ c_alias c = PNone /\ c_logical c = PNone /\ In "default" (dkeys (c_extra c)).
Proof.
  destruct t as [| | | | | | | | | |c ts|]; try discriminate. destruct c as [[] [] dc e]; try discriminate.
  destruct ts as [|[[[] [] [] []]| | | | | | | | | | |] [|x' [|]]]; try discriminate. cbn. destruct (dmem "default" e) eqn:E; [|discriminate].
  intros [= ->]. eexists. split; [reflexivity|]. cbn. repeat split; auto. now apply dmem_true.
Qed.

(** ** Sizes *)
Definition fits (n : nat) (nd : list (string * pyval)) : Prop :=
  forall k v, In (k, v) nd -> k <> "type" -> psize v <= n \/ (k = "types" /\ psize v <= S n).
Lemma fits_doc j nd n : to_type_dict j = Ok nd -> psize j <= S n -> fits n nd.
Proof.
  intros E L k v I K. destruct j; try discriminate; injection E as <-.
  - destruct I as [[= <- <-]|[]]. congruence.
  - destruct I as [[= <- <-]|[[= <- <-]|[]]]; [congruence|]. right. auto.
  - left. rewrite psize_dict in L. apply dsize_In in I. lia.
Qed.
Lemma fits_kids n b t js : fits n (entries b t js) -> length js = length (children t) -> forall j, In j js -> psize j <= n.
Proof.
  intros F L j I.
  assert (X : forall k v, In (k, v) (own b t js) -> k <> "type" -> psize v <= n \/ (k = "types" /\ psize v <= S n)).
  { intros k v J. apply F. unfold entries. right. apply in_or_app. auto. }
  destruct t; cbn [children List.length] in L; try (destruct js; [destruct I|discriminate]).
  - destruct js as [|j1 [|]]; try discriminate. destruct I as [<-|[]].
    destruct (X "values" j1) as [|[E _]]; [cbn; auto|discriminate|auto|discriminate].
  - destruct js as [|j1 [|j2 [|]]]; try discriminate. destruct I as [<-|[<-|[]]].
    + destruct (X "keys" j1) as [|[E _]]; [cbn; auto|discriminate|auto|discriminate].
    + destruct (X "values" j2) as [|[E _]]; [cbn; auto|discriminate|auto|discriminate].
  - apply lsize_In in I. destruct (X "fields" (PList js)) as [H|[E _]]; [cbn; auto|discriminate| |discriminate].
    rewrite psize_list in H. lia.
  - apply lsize_In in I. destruct (X "types" (PList js)) as [H|[E H]]; [cbn; auto|discriminate| |]; rewrite psize_list in H; lia.
Qed.

(** ** Cleaning *)
Definition body_ok (t : rtype) : Prop := forall n nd, dict_of nd t -> fits n nd ->
  exists nd1 nd', clean_body (clean_dict_f n) nd = Ok nd1 /\ sugar nd1 = Ok nd' /\ (is_union t = false -> nd1 = nd') /\
    dict_of nd' t /\ cleaned (shorten nd') t.

Lemma clean_step t n j nd : twf t -> body_ok t -> to_type_dict j = Ok nd -> dict_of nd t -> psize j <= n ->
  exists j', clean_dict_f n j = Ok j' /\ cleaned j' t.
Proof.
  intros W B E D L. destruct n as [|n]; [pose proof (psize_pos j); lia|].
  destruct (B n nd D (fits_doc _ _ _ E L)) as (nd1 & nd' & B1 & B2 & _ & D' & C).
  exists (shorten nd'). split; auto. cbn.
  assert (X : clean_input j = Ok nd).
  { destruct (dict_type ref true ref_word _ _ W D) as (s & Es & _). destruct j; cbn in *; auto. injection E as ->. unfold dmem. now rewrite Es. }
  rewrite X. cbn. rewrite B1. cbn. rewrite B2. reflexivity.
Qed.
Lemma clean_kids n l js : Forall twf l -> Forall body_ok l -> Forall2 kid_of js l -> (forall j, In j js -> psize j <= n) ->
  exists js', Forall2 (fun j j' => clean_dict_f n j = Ok j') js js' /\ Forall2 cleaned js' l.
Proof.
  intros W B F. revert W B. induction F as [|j t js l [(nd & E & D) _] F IH]; intros W B S.
  - exists []. split; constructor.
  - inversion W; subst. inversion B; subst. destruct (clean_step t n j nd) as (j' & A1 & A2); auto; [apply S; now left|].
    destruct IH as (js' & A3 & A4); auto; [intros; apply S; now right|]. exists (j' :: js'). split; constructor; auto.
Qed.

Lemma null_in js ts : Forall twf ts -> Forall2 kid_of js ts -> py_str_in "null" (PList js) = Ok true -> In bare_null ts.
Proof.
  intros W F. cbn. intros [= E]. apply existsb_exists in E as (j & I & E). apply py_eq_str_inv in E.
  destruct (F2_In_l _ _ _ _ F I) as (t & It & D & _). rewrite Forall_forall in W. now rewrite <- (null_doc ref true ref_word j t (W _ It) D E).
Qed.
Lemma in_null js ts : Forall2 kid_of js ts -> In bare_null ts -> py_str_in "null" (PList js) = Ok true.
Proof.
  intros F I. destruct (F2_In_r _ _ _ _ F I) as (j & Ij & _ & D). cbn. f_equal. apply existsb_exists. exists j. split; auto. now rewrite D.
Qed.

Lemma sugar_entries c ts js : twf (TUnion c ts) -> compact_ok (TUnion c ts) -> Forall2 kid_of js ts ->
  exists nd, sugar (entries true (TUnion c ts) js) = Ok nd /\ dict_of nd (TUnion c ts) /\
    (nd = entries true (TUnion c ts) js /\ single_optional (TUnion c ts) = None \/
     opt_attrs c /\ (exists l, nd = l ++ tail c /\ 1 <= length l) /\ shorten nd = PDict nd /\
       (forall x, single_optional (TUnion c ts) = Some x -> exists nd0, nd = nd0 ++ tail c /\ dict_of nd0 x)).
Proof.
  intros W CO F. set (t := TUnion c ts). pose proof (nodes_here _ _ W) as N. pose proof (Forall_twf_children _ W) as WC. cbn [children] in WC.
  assert (T : kwarg "type" PNone (entries true t js) = PStr "union") by reflexivity.
  assert (Y : dget "types" (entries true t js) = Some (PList js)) by (rewrite get_own; auto; cbn; auto).
  assert (DM : dmem "default" (entries true t js) = dmem "default" (c_extra c)).
  { unfold dmem, entries, commons, ent. cbn [get_c t own is_proxy]. destruct (true && py_eq PNone (c_alias c)), (true && py_eq PNone (c_logical c)), (true && py_eq PNone (c_doc c));
      cbn; rewrite dget_app; cbn; destruct (dget "default" (c_extra c)); reflexivity. }
  unfold sugar. rewrite T, Y. cbn [py_eq negb String.eqb Ascii.eqb Bool.eqb].
  destruct (py_str_in "null" (PList js)) as [has|] eqn:EH; [|discriminate]. cbn [rbind]. rewrite DM.
  assert (SN : has && dmem "default" (c_extra c) = false -> single_optional t = None).
  { intros E. destruct (single_optional t) as [x|] eqn:Q; auto. apply single_inv in Q as (c' & [= <- ->] & _ & _ & Q).
    assert (has = true) as -> by (rewrite (in_null _ _ F) in EH; [congruence|now left]).
    apply dmem_true in Q. rewrite Q in E. discriminate. }
  destruct (has && dmem "default" (c_extra c)) eqn:E; cbn [negb].
  2:{ exists (entries true t js). split; [reflexivity|]. split; [|auto]. apply do_node. exact F. }
  apply andb_true_iff in E as [-> E2]. pose proof (null_in _ _ WC F EH) as IN. apply dmem_true in E2.
  destruct (CO E2 IN) as (xs & -> & NB & KE & NM & SX). clear SN EH.
  assert (OA : opt_attrs c) by (split; auto).
  inversion F as [|j0 ? js2 ? [_ D0] F2]; subst. specialize (D0 eq_refl eq_refl). subst j0.
  assert (KA : kwarg "alias" PNone (entries true t (PStr "null" :: js2)) = c_alias c /\
               kwarg "logical" PNone (entries true t (PStr "null" :: js2)) = c_logical c /\
               kwarg "doc" PNone (entries true t (PStr "null" :: js2)) = c_doc c /\
               kwarg "default" PNone (entries true t (PStr "null" :: js2)) = kwarg "default" PNone (c_extra c) /\
               kwarg "name" PNone (entries true t (PStr "null" :: js2)) = kwarg "name" PNone (c_extra c)).
  { assert (X : forall k, k <> "default" -> k <> "name" -> dget k (c_extra c) = None).
    { intros k K1 K2. apply dget_None. intros I. apply KE in I. tauto. }
    unfold kwarg, entries, commons. rewrite !andb_true_l || idtac. cbn [get_c t own is_proxy]. rewrite !ent_none.
    destruct (is_none (c_alias c)) eqn:EA; [apply is_none_true in EA|]; (destruct (is_none (c_logical c)) eqn:EL; [apply is_none_true in EL|]);
    (destruct (is_none (c_doc c)) eqn:ED; [apply is_none_true in ED|]); cbn; rewrite !dget_app; cbn; rewrite ?EA, ?EL, ?ED, ?X by discriminate;
    repeat split; destruct (dget "default" (c_extra c)), (dget "name" (c_extra c)); reflexivity. }
  destruct KA as (-> & -> & -> & -> & ->).
  assert (DD : ddel "name" (ddel "doc" (ddel "default" (ddel "logical" (ddel "alias" (entries true t (PStr "null" :: js2)))))) =
               [("type", PStr "union"); ("types", PList (PStr "null" :: js2))]).
  { unfold entries, commons. cbn [get_c t own is_proxy]. rewrite !ent_none.
    assert (X : forall l : list (string * pyval), (forall k, In k (dkeys l) -> k = "default" \/ k = "name") -> ddel "name" (ddel "doc" (ddel "default" (ddel "logical" (ddel "alias" l)))) = []).
    { clear. intros l H. induction l as [|[k v] l IH]; auto. assert (IH' := IH (fun k' I => H k' (or_intror I))).
      destruct (H k (or_introl eq_refl)) as [-> | ->]; cbn in *; exact IH'. }
    assert (Z : forall a b : list (string * pyval), ddel "name" (ddel "doc" (ddel "default" (ddel "logical" (ddel "alias" (a ++ b))))) =
      ddel "name" (ddel "doc" (ddel "default" (ddel "logical" (ddel "alias" a)))) ++ ddel "name" (ddel "doc" (ddel "default" (ddel "logical" (ddel "alias" b))))).
    { intros. unfold ddel. now rewrite !filter_app. }
    change (("type", head_name t) :: ?a) with ([("type", PStr "union")] ++ a).
    rewrite !Z, (X _ KE). destruct (is_none (c_alias c)), (is_none (c_logical c)), (is_none (c_doc c)); reflexivity. }
  rewrite DD. clear DD. cbn [List.length Nat.eqb negb remove_first py_eq String.eqb Ascii.eqb Bool.eqb dset]. fold (tail c).
  assert (DU : forall a : list (string * pyval), (forall k, In k (dkeys (tail c)) -> ~ In k (dkeys a)) -> dupd a (tail c) = a ++ tail c).
  { intros a H. apply dupd_app; [apply tail_NoDup|exact H]. }
  assert (KT : forall k, In k (dkeys (tail c)) -> ~ In k ["type"; "types"]).
  { intros k I J. apply tail_keys in I. cbn in I, J. intuition congruence. }
  assert (DA : dupd [("type", PStr "union"); ("types", PList js2)] (tail c) = ("type", PStr "union") :: ("types", PList js2) :: tail c).
  { rewrite DU; auto. }
  assert (HA : (c_alias c = PNone -> c_logical c = PNone -> length xs <> 1) ->
    exists nd, @Ok _ (dupd [("type", PStr "union"); ("types", PList js2)] (tail c)) = Ok nd /\ dict_of nd t /\
    (nd = entries true t (PStr "null" :: js2) /\ single_optional t = None \/
     opt_attrs c /\ (exists l, nd = l ++ tail c /\ 1 <= length l) /\ shorten nd = PDict nd /\
       (forall x, single_optional t = Some x -> exists nd0, nd = nd0 ++ tail c /\ dict_of nd0 x))).
  { intros H1. rewrite DA. eexists. split; [reflexivity|]. split; [apply do_optA; auto|]. right. split; auto.
    split; [exists [("type", PStr "union"); ("types", PList js2)]; split; [reflexivity|cbn; lia]|]. split.
    - unfold shorten. pose proof (tail_length c) as TL. destruct (tail c); [cbn in TL; lia|]. cbn [List.length Nat.eqb]. now rewrite andb_false_r.
    - intros x Q. apply single_inv in Q as (c' & [= <- ->] & Q1 & Q2 & _). exfalso. now apply H1. }
  destruct js2 as [|nested [|j3 js3]].
  1: { apply HA. intros _ _ L. inversion F2; subst. discriminate. }
  2: { apply HA. intros _ _ L. apply F2_length in F2. rewrite L in F2. discriminate. }
  destruct (is_none (c_alias c) && is_none (c_logical c)) eqn:EN.
  2: { apply HA. intros A B. rewrite A, B in EN. discriminate. }
  apply andb_true_iff in EN as [EA EL]. apply is_none_true in EA, EL.
  inversion F2 as [|? x ? ? [(nd0 & E0 & D0) _] F3]; subst. inversion F3; subst. clear HA DA F3.
  destruct (SX x eq_refl EA EL) as (ED & UX & NX & DX).
  assert (Wx : twf x) by (inversion WC as [|? ? _ WC']; inversion WC'; auto).
  assert (XB : x <> bare_null) by (intros ->; apply NB; now left).
  assert (DF : dupd nd0 (tail c) = nd0 ++ tail c).
  { apply DU. intros k I. apply (tailB_keys _ _ EA EL ED) in I. now apply (dict_keys ref true _ _ Wx UX D0 NX DX). }
  assert (HB : exists nd, @Ok _ (dupd nd0 (tail c)) = Ok nd /\ dict_of nd t /\
    (nd = entries true t [PStr "null"; nested] /\ single_optional t = None \/
     opt_attrs c /\ (exists l, nd = l ++ tail c /\ 1 <= length l) /\ shorten nd = PDict nd /\
       (forall x, single_optional t = Some x -> exists nd0, nd = nd0 ++ tail c /\ dict_of nd0 x))).
  { rewrite DF. eexists. split; [reflexivity|]. split; [apply do_optB; auto|]. right. split; auto.
    destruct (dict_type ref true ref_word _ _ Wx D0) as (s & Es & Us).
    assert (L0 : 1 <= length nd0) by (destruct nd0; [discriminate|cbn; lia]).
    split; [exists nd0; auto|]. split.
    - unfold shorten, kwarg. rewrite dget_app, Es, app_length. pose proof (tail_length c).
      destruct (Nat.eqb_spec (length nd0 + length (tail c)) 1); [lia|]. cbn [py_eq].
      rewrite eqb_neq_s; [reflexivity|]. intros ->. now apply (Us UX).
    - intros y Q. apply single_inv in Q as (c' & [= <- ->] & _). eauto. }
  destruct nested; try discriminate E0; injection E0 as <-; auto.
  exfalso. destruct (dict_type ref true ref_word _ _ Wx D0) as (s & Es & Us). injection Es as <-. now apply (Us UX).
Qed.

Lemma shape_of nd t : twf t -> dict_of nd t -> (forall x, single_optional t = Some x -> exists nd0 l, nd = nd0 ++ l /\ dict_of nd0 x) ->
  (get_c t = c0 -> is_union t = true -> forall nd2, shorten nd <> PDict nd2) -> shape (shorten nd) t.
Proof.
  intros W D S U. split; auto. intros A. unfold visible_alias in A.
  assert (K : kwarg "alias" PNone nd <> PNone).
  { destruct (single_optional t) as [x|] eqn:E.
    - destruct (S x eq_refl) as (nd0 & l & -> & D0). apply single_inv in E as (c & -> & _).
      assert (Wx : twf x) by (apply (twf_member _ _ _ W); cbn; auto).
      pose proof (alias_seen _ _ Wx D0 A) as X. unfold kwarg in *. rewrite dget_app. destruct (dget "alias" nd0); auto.
    - now apply (alias_seen _ _ W D). }
  exists nd. split; auto. now apply (seen_dict _ _ W D).
Qed.

Lemma body_all t : twf t -> nodes compact_ok t -> body_ok t.
Proof.
  induction t as [t IH] using kids_ind. intros W CO n nd D S.
  pose proof (nodes_here _ _ W) as N. pose proof (nodes_here _ _ CO) as COt. pose proof (Forall_twf_children _ W) as WC.
  assert (CC : Forall (nodes compact_ok) (children t)) by now apply nodes_children.
  assert (BC : Forall body_ok (children t)).
  { rewrite Forall_forall in *. intros x I. apply IH; auto. }
  clear IH CC. destruct D as [b t js F|a t H HB|c xs js OA NB LX F|c x nd OA XB EA EL ED UX NX DX D].
  - destruct (clean_kids n _ _ WC BC F (fits_kids _ _ _ _ S (F2_length _ _ _ F))) as (js' & K1 & K2).
    assert (F' : Forall2 kid_of js' (children t)) by (eapply F2_impl; [|exact K2]; intros ? ? (A & _); exact A).
    pose proof (clean_node _ b t _ _ N (F2_length _ _ _ F) K1) as CN. exists (entries true t js').
    assert (D' : dict_of (entries true t js') t) by now apply do_node.
    destruct (is_union t) eqn:U.
    + destruct t as [| | | | | | | | | |c ts|]; try discriminate. destruct (sugar_entries c ts js' W COt F') as (nd' & S1 & S2 & S3).
      exists nd'. split; auto. split; auto. split; [discriminate|]. split; auto.
      destruct S3 as [(-> & S3)|(OA & (l & El & Ll) & Sh & S3)].
      * split; [split; [now apply short_doc|discriminate]|]. split.
        -- apply shape_of; auto; [congruence|]. cbn. intros -> _ nd2. unfold shorten, entries. cbn. discriminate.
        -- intros l c' ts' E [= <- <-]. assert (js' = l) as ->.
           { destruct (shorten_cases _ _ W S2) as [Q|[(s & _ & Q)|(b' & c' & ts' & js3 & _ & Q1 & _ & _ & Q)]]; try congruence.
             rewrite Q in E. injection E as ->. unfold entries in Q1. injection Q1 as Q1.
             apply app_inj_tail in Q1 as [_ Q1]. congruence. }
           eapply F2_impl; [|exact K2]. intros ? ? (_ & A & _). exact A.
      * split; [split; [now apply short_doc|discriminate]|]. split.
        -- apply shape_of; auto. { intros x Q. destruct (S3 x Q) as (nd0 & -> & Q'). eauto. }
           cbn. intros -> _. destruct OA as [[] _].
        -- intros l' c' ts' E. congruence.
    + exists (entries true t js'). split; auto. split.
      { destruct (head_str t N) as (s & Eh & Us & _). unfold sugar, kwarg, entries. cbn [dget]. rewrite String.eqb_refl, Eh. cbn [py_eq].
        rewrite eqb_neq_s; [reflexivity|]. intros ->. rewrite Us in U by auto. discriminate. }
      split; auto. split; auto. split; [split; [now apply short_doc|]|split].
      * intros _ ->. reflexivity.
      * apply shape_of; auto; [|congruence]. intros x Q. apply single_inv in Q as (c & -> & _). discriminate.
      * intros l c ts _ ->. discriminate.
  - assert (W' : node_ok (reference a)).
    { pose proof (ref_word _ _ H). repeat split; cbn; auto; try constructor; try tauto. exists a; auto. }
    pose proof (clean_node (clean_dict_f n) true (reference a) [] [] W' eq_refl (Forall2_nil _)) as CN.
    change (entries true (reference a) []) with [("type", PStr a)] in CN.
    exists [("type", PStr a)], [("type", PStr a)]. split; auto.
    assert (D : dict_of [("type", PStr a)] t) by now apply do_ref.
    split; [|split; [auto|split; [auto|]]].
    { unfold sugar, kwarg. cbn [dget py_eq String.eqb Ascii.eqb Bool.eqb]. rewrite eqb_neq_s; [reflexivity|]. intros ->. apply (ref_word _ _ H). cbn; tauto. }
    split; [split; [now apply short_doc|]|split].
    + intros _ ->. exfalso. now apply HB.
    + split; [|cbn; discriminate]. intros A. apply vis_defs in A. exfalso. apply A. now apply ref_def in H.
    + cbn. discriminate.
  - cbn [children] in *. inversion WC as [|? ? _ WX]; subst. inversion BC as [|? ? _ BX]; subst.
    destruct (clean_kids n _ _ WX BX F) as (js' & K1 & K2).
    { intros j I. apply lsize_In in I. destruct (S "types" (PList js)) as [Q|[_ Q]]; [cbn; auto|discriminate| |]; rewrite psize_list in Q; lia. }
    assert (F' : Forall2 kid_of js' xs) by (eapply F2_impl; [|exact K2]; intros ? ? (A & _); exact A).
    exists (("type", PStr "union") :: ("types", PList js') :: tail c), (("type", PStr "union") :: ("types", PList js') :: tail c).
    split.
    { assert (Q : strip_defaults "union" (("type", PStr "union") :: ("types", PList js) :: tail c) = ("type", PStr "union") :: ("types", PList js) :: tail c).
      { change (("type", PStr "union") :: ("types", PList js) :: tail c) with ([("type", PStr "union"); ("types", PList js)] ++ tail c).
        rewrite strip_app, strip_tail. reflexivity. }
      unfold clean_body. change (kwarg "type" PNone (("type", PStr "union") :: ("types", PList js) :: tail c)) with (PStr "union"). cbv beta iota. rewrite Q.
      cbn -[tail]. rewrite (rmap_F2 _ _ _ K1). reflexivity. }
    assert (D : dict_of (("type", PStr "union") :: ("types", PList js') :: tail c) (TUnion c (bare_null :: xs))) by now apply do_optA.
    split; [|split; [discriminate|split; [auto|]]].
    { unfold sugar. cbn -[tail py_str_in dmem]. destruct (py_str_in "null" (PList js')) as [[]|] eqn:E; [|reflexivity|discriminate].
      exfalso. apply NB. now apply (null_in _ _ WX F'). }
    assert (Sh : shorten (("type", PStr "union") :: ("types", PList js') :: tail c) = PDict (("type", PStr "union") :: ("types", PList js') :: tail c)).
    { unfold shorten. pose proof (tail_length c) as TL. destruct (tail c); [cbn in TL; lia|]. cbn [List.length Nat.eqb]. now rewrite andb_false_r. }
    split; [split; [now apply short_doc|discriminate]|split].
    + apply shape_of; auto.
      * intros x Q. apply single_inv in Q as (c' & [= <- ->] & Q1 & Q2 & _). exfalso. now apply LX.
      * cbn. intros -> _. destruct OA as [[] _].
    + congruence.
  - assert (Wx : twf x) by (apply (twf_member _ _ _ W); cbn; auto).
    inversion BC as [|? ? _ BC']; subst. inversion BC' as [|? ? Bx _]; subst.
    destruct (Bx n nd D) as (nd1 & nd' & B1 & B2 & B3 & B4 & B5). { intros k v I. apply S. apply in_or_app; auto. }
    specialize (B3 UX). subst nd'. exists (nd1 ++ tail c), (nd1 ++ tail c).
    destruct (dict_type ref true ref_word _ _ Wx D) as (s & Es & _). split.
    { apply clean_body_app with (s := s); auto. - intros k I. now apply (tailB_keys c). - apply strip_tail. }
    assert (D' : dict_of (nd1 ++ tail c) (TUnion c [bare_null; x])) by now apply do_optB.
    destruct (dict_type ref true ref_word _ _ Wx B4) as (s1 & Es1 & Us1). specialize (Us1 UX).
    split; [|split; [discriminate|split; [auto|]]].
    { unfold sugar, kwarg. rewrite dget_app, Es1. cbn [py_eq]. rewrite eqb_neq_s; auto. }
    assert (Sh : shorten (nd1 ++ tail c) = PDict (nd1 ++ tail c)).
    { unfold shorten, kwarg. rewrite dget_app, Es1, app_length. pose proof (tail_length c).
      assert (1 <= length nd1) by (destruct nd1; [discriminate|cbn; lia]).
      destruct (Nat.eqb_spec (length nd1 + length (tail c)) 1); [lia|]. cbn [py_eq]. rewrite eqb_neq_s by auto. reflexivity. }
    split; [split; [now apply short_doc|discriminate]|split].
    + apply shape_of; auto.
      * intros y Q. apply single_inv in Q as (c' & [= <- ->] & _). eauto.
      * cbn. intros -> _. destruct OA as [[] _].
    + congruence.
Qed.

(** Cleaning a document of [t] gives a document of [t]. *)
Lemma clean_ok t j : twf t -> all_nodes compact_ok t -> doc_of j t -> exists j', clean_dict j = Ok j' /\ cleaned j' t.
Proof.
  intros W CO (nd & E & D). apply (clean_step t _ j nd); auto. apply body_all; auto. now apply all_nodes_nodes.
Qed.
End Clean.
