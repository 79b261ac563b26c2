(** What the registry holds after a proto file is read (proofs only). *)
From Coq Require Import String Ascii List NArith ZArith QArith Bool Lia.
From Verif Require Import PyVal PyValFacts RType Regex Registry RegistryFacts FromDict FromDictFacts RoundTrip Url Avro SpecAvro AvroProps JsonSchema
  SpecTypes SpecJson JsonProps DbapiFacts SpecDb SpecInstances SpecRows AvroData AvroDataBack
  Proto SpecProto ProtoRead ProtoFrame ProtoShape ProtoRefs ProtoOrder SpecProtoData ProtoData.
Import ListNotations.
Open Scope nat_scope.
Open Scope string_scope.
Open Scope list_scope.

(** ** Registered types *)
Definition raw (t : rtype) : Prop := good [] t.
Lemma raw_good R t : raw t -> good R t.
Proof. apply good_mono. intros a u E. discriminate. Qed.
Lemma dget_app_new {V} a (R E : list (string * V)) u : dget a (R ++ E) = Some u -> dget a R = Some u \/ dget a E = Some u.
Proof. induction R as [|[k v] R IH]; auto. cbn. destruct (String.eqb a k); auto. Qed.
Lemma part_app R E : part_of R (R ++ E).
Proof. intros a u. apply dget_app_old. Qed.
Definition sound {A} (Q : A -> Prop) (m : M A) : Prop :=
  forall R, good_reg R -> good_reg (fst (m R)) /\ forall a, snd (m R) = Ok a -> Q a.
Lemma sound_ret {A} (Q : A -> Prop) a : Q a -> sound Q (ret a).
Proof. intros H R S. split; auto. intros b [= <-]. exact H. Qed.
Lemma sound_fail {A} (Q : A -> Prop) e : sound Q (fail e).
Proof. intros R S. split; auto. discriminate. Qed.
Lemma sound_lift {A} (Q : A -> Prop) (r : res A) : (forall a, r = Ok a -> Q a) -> sound Q (lift r).
Proof. intros H R S. split; auto. Qed.
Lemma sound_bind {A B} (P : A -> Prop) (Q : B -> Prop) (m : M A) (f : A -> M B) : sound P m -> (forall a, P a -> sound Q (f a)) -> sound Q (mbind m f).
Proof.
  intros Hm Hf R S. unfold mbind. destruct (Hm R S) as [S1 H1]. destruct (m R) as [R1 [a|e]]; cbn in *.
  - apply Hf; auto.
  - split; auto. discriminate.
Qed.
Lemma sound_register t : raw t -> is_proxy t = false -> dget "name" (c_extra (get_c t)) = None -> sound (fun _ => True) (register_alias t).
Proof.
  intros G P N R S. split; auto. unfold register_alias. destruct (c_alias (get_c t)); auto. destruct (dmem _ R); auto.
  match goal with |- context [if ?b then _ else _] => destruct b; auto end. cbn [fst]. intros a u E.
  assert (PA : part_of R (R ++ [(s, stored R t)])) by apply part_app. apply dget_app_new in E as [E|E].
  - destruct (S _ _ E) as (A & B & C). split; [|auto]. eapply good_mono; eauto.
  - cbn in E. destruct (String.eqb a s); [|discriminate]. injection E as <-. unfold calm, stored. rewrite is_proxy_set_c, get_set_c.
    rewrite (proj2 (freeze_common R t)), get_c_freeze'. split; [|split; auto].
    + apply good_set_c; [now rewrite (proj2 (freeze_common R t))|]. apply good_freeze; [apply part_app|now apply raw_good].
    + cbn [c_extra]. rewrite dget_ddel. exact N.
Qed.
Definition unnamed (t : rtype) : Prop := is_proxy t = true -> c_extra (get_c t) = [].
Lemma scalar_raw s t : pr_scalar s = Some t -> raw t /\ is_proxy t = false.
Proof. intros H. apply scalar_some in H as I. destruct (scalar_in _ I) as (u & E & _ & C & G & P). rewrite H in E. injection E as <-. split; auto. apply good_node; auto. rewrite C. constructor. Qed.
Lemma type_raw top s t : pr_type top s = Ok t -> raw t /\ unnamed t.
Proof.
  unfold pr_type. destruct (pr_scalar s) as [t0|] eqn:E; [intros [= <-]|].
  - apply scalar_raw in E as [A B]. split; auto. intros X. congruence.
  - intros H. apply rbind_Ok in H as (a & _ & H). injection H as <-. split; [|intros _; reflexivity]. apply good_live. now left.
Qed.
Lemma raw_named n t : raw t -> unnamed t -> raw (set_extra_key "name" n t).
Proof.
  intros G U. unfold set_extra_key. destruct (is_proxy t) eqn:P; [|now apply good_set_c]. destruct t; try discriminate. cbn in *.
  specialize (U eq_refl). cbn in U. inversion G; subst; [discriminate| |].
  - apply good_live. right. exists n. cbn. now rewrite U.
  - apply good_ref; auto. right. exists n. cbn. now rewrite U.
Qed.
Lemma raw_parts t : is_proxy t = false -> Forall raw (children t) -> raw t.
Proof. intros. now apply good_node. Qed.
Lemma null_raw : raw (TNull c0).
Proof. apply raw_parts; auto. constructor. Qed.
Lemma field_raw top n ty c t : pr_field top n ty c = Ok t -> raw t.
Proof.
  unfold pr_field. intros H. apply rbind_Ok in H as (u & E & H). cbv zeta in H. injection H as <-. apply type_raw in E as [G U].
  set (w := if repeated c then TList c0 u PNone (PBool true) else u).
  assert (W : raw w /\ unnamed w).
  { unfold w. destruct (repeated c); auto. split; [|discriminate]. apply raw_parts; auto. constructor; auto. }
  destruct W as [W1 W2]. destruct (required c); [now apply raw_named|]. apply raw_named.
  - unfold set_extra_key. apply good_set_c; [destruct (is_null w) eqn:N; [now destruct w|reflexivity]|].
    destruct (is_null w); auto. apply raw_parts; auto. constructor; [apply null_raw|]. constructor; auto.
  - intros X. destruct (is_null w) eqn:N; [|discriminate]. destruct w; discriminate.
Qed.
Lemma map_raw top n k v t : pr_map top n k v = Ok t -> raw t.
Proof.
  unfold pr_map. intros H. apply rbind_Ok in H as (tk & E & H). match type of H with (if ?b then _ else _) = _ => destruct b; [|discriminate] end.
  apply rbind_Ok in H as (tv & E2 & H). injection H as <-. apply type_raw in E as [G _]. apply type_raw in E2 as [G2 _].
  apply raw_parts; auto. constructor; [apply null_raw|]. constructor; [|constructor]. apply raw_parts; auto.
  constructor; auto.
Qed.
Lemma oneof_raw top n l t : pr_oneof top n l = Ok t -> raw t.
Proof.
  rewrite pr_oneof_eq. intros H. apply rbind_Ok in H as (ts & O & H). injection H as <-. apply raw_parts; auto. constructor; [apply null_raw|].
  revert ts O. induction l as [|x l IH]; intros ts O; [injection O as <-; constructor|].
  destruct x; try exact (IH ts O). cbn [oneof_members] in O. apply rbind_Ok in O as (u & U & O). apply rbind_Ok in O as (us & O & E). injection E as <-.
  constructor; auto. eapply field_raw; eauto.
Qed.
Lemma sound_enum top n vs : sound (fun _ => True) (pr_enum top n vs).
Proof.
  unfold pr_enum. eapply sound_bind; [apply sound_lift with (Q := fun _ => True); auto|]. intros a _.
  eapply sound_bind; [apply sound_register; auto; apply raw_parts; auto; constructor|]. intros _ _. now apply sound_ret.
Qed.
Definition whole (t : rtype) : Prop := raw t /\ is_proxy t = false.
Lemma sound_one (r : res rtype) : (forall t, r = Ok t -> raw t) -> sound (Forall raw) (t <- lift r ;; ret [t])%mon.
Proof. intros H. eapply sound_bind; [apply sound_lift, H|]. intros t T. apply sound_ret. auto. Qed.
Lemma sound_message top e : sound whole (pr_message top e).
Proof.
  induction e as [n i ty c|n i k v|n l FL|n els FL|n vs|] using element_ind'; try apply sound_fail.
  rewrite pr_message_eq. eapply sound_bind with (P := Forall raw).
  - clear n. induction FL as [|x l HX FL IH]; [apply sound_ret; constructor|]. rewrite read_elements_cons.
    eapply sound_bind with (P := Forall raw).
    + destruct x; cbn [read_element].
      * apply sound_one. intros t. apply field_raw.
      * apply sound_one. intros t. apply map_raw.
      * apply sound_one. intros t. apply oneof_raw.
      * eapply sound_bind; [apply HX|]. intros _ _. apply sound_ret. constructor.
      * eapply sound_bind; [apply sound_enum|]. intros _ _. apply sound_ret. constructor.
      * apply sound_ret. constructor.
    + intros f F. eapply sound_bind; [apply IH|]. intros fs Fs. apply sound_ret. apply Forall_app. auto.
  - intros fs F. eapply sound_bind; [apply sound_lift with (Q := fun _ => True); auto|]. intros a _. cbv zeta.
    assert (W : raw (TStruct (mkC PNone (PStr a) PNone []) fs)) by now apply raw_parts.
    eapply sound_bind; [apply sound_register; auto|]. intros _ _. apply sound_ret. split; auto.
Qed.
Lemma sound_elements top l : forall root, (forall t, root = Some t -> whole t) -> sound (fun o => forall t, o = Some t -> whole t) (pr_elements top l root).
Proof.
  induction l as [|x l IH]; intros root H; [now apply sound_ret|]. cbn [pr_elements]. destruct x as [q|e|]; auto. destruct e; auto.
  - eapply sound_bind; [apply sound_message|]. intros t T. apply IH. destruct root; auto. intros t' [= <-]. exact T.
  - eapply sound_bind; [apply sound_enum|]. intros _ _. auto.
Qed.
Lemma parse_sound l s : good_reg (reg s) -> good_reg (reg (fst (pr_parse l s))) /\ forall t, snd (pr_parse l s) = Ok t -> whole t.
Proof.
  intros S. unfold pr_parse. cbv zeta. set (ns := match first_package l with Some p => spaces s ++ [p] | None => spaces s end).
  assert (N : forall t, @None rtype = Some t -> whole t) by discriminate.
  destruct (sound_elements (top_of ns) l None N (reg s) S) as [S1 H]. destruct (pr_elements _ _ _ _) as [R1 [[t|]|e]]; cbn in *.
  - destruct ns; cbn; split; auto; [discriminate|]. intros t' [= <-]. eapply H; eauto.
  - split; auto. discriminate.
  - split; auto. discriminate.
Qed.
Lemma builtin_good : good_reg builtin_aliases.
Proof.
  intros a u E. apply dget_In in E. unfold calm. cbn in E. repeat (destruct E as [E|E]; [injection E as <- <-; split; [apply good_node; [reflexivity|constructor]|split; reflexivity]|]). destruct E.
Qed.
Lemma reached_good s : reached s -> good_reg (reg s).
Proof.
  induction 1 as [ns|l s H IH]; [apply builtin_good|]. unfold pr_to. pose proof (parse_sound l s IH) as [S _].
  destruct (pr_parse l s) as [s' [t|e]]; exact S.
Qed.

(** ** What the declarations become *)
Section Means.
  Variable p : string.
  Definition code_alias (ty : string) : string := if substr_in "." ty then ty else (p ++ "." ++ ty)%string.
  Definition tmeans (ty : string) (t : rtype) : Prop :=
    (exists t0 c, pr_scalar ty = Some t0 /\ t = set_c t0 c /\ same_meaning c t0) \/
    (pr_scalar ty = None /\ exists c o, t = TProxy c o /\ c_alias c = PStr (code_alias ty)).
  Definition vmeans (ty : string) (c : option card) (t : rtype) : Prop :=
    match c with
    | Some Repeated => exists k v, t = TList k v PNone (PBool true) /\ tmeans ty v
    | _ => tmeans ty t
    end.
  Definition fmeans (e : element) (t : rtype) : Prop :=
    match e with
    | EField n _ ty c =>
        has_name t n /\
        ((c = Some Required \/ ty = "google.protobuf.NullValue" /\ c <> Some Repeated) /\ vmeans ty c t \/
         c <> Some Required /\ exists k k' x, t = TUnion k [TNull k'; x] /\ vmeans ty c x)
    | EMapField n _ kt vt =>
        (forall s, has_name t (PStr s) <-> n = PStr s) /\
        exists k k0 k' x y, t = TUnion k [TNull k0; TMap k' x y] /\ tmeans kt x /\ tmeans vt y
    | EOneOf n l =>
        has_name t n /\ exists k k' ts, t = TUnion k (TNull k' :: ts) /\
          Forall2 (fun e x => match e with EField _ _ ty _ => tmeans ty x | _ => False end)
            (filter is_field l) ts
    | _ => False
    end.
  Definition means (e : element) (t : rtype) : Prop :=
    match e with
    | EMessage _ m => exists c fs, t = TStruct c fs /\ Forall2 fmeans (filter is_member m) fs
    | EEnum _ vs => exists c, t = TEnum c (PList (map fst vs))
    | _ => False
    end.

  Lemma sm_keys t k v : k = "name" \/ k = "default" -> same_meaning (mkC (c_logical (get_c t)) (c_alias (get_c t)) (c_doc (get_c t)) (dset k v (c_extra (get_c t)))) t.
  Proof.
    intros K. split; auto. intros x I. cbn [c_extra]. rewrite dget_dset. cbn in I.
    destruct K as [-> | ->]; destruct I as [<-|[<-|[<-|[]]]]; reflexivity.
  Qed.
  Lemma tmeans_key k v ty t : k = "name" \/ k = "default" -> tmeans ty t -> tmeans ty (set_extra_key k v t).
  Proof.
    intros K [(t0 & c & E & -> & [L A X])|(E & c & o & -> & A)].
    - left. exists t0. eexists. split; auto. unfold set_extra_key. rewrite set_set_c, get_set_c. split; [reflexivity|].
      split; cbn [c_logical c_alias c_extra]; auto. intros x I. rewrite dget_dset. rewrite <- (X x I).
      destruct K as [-> | ->]; cbn in I; destruct I as [<-|[<-|[<-|[]]]]; reflexivity.
    - right. split; auto. eexists _, _. split; [reflexivity|]. exact A.
  Qed.
  Lemma freeze_leaf R t : children t = [] -> is_proxy t = false -> freeze R t = t.
  Proof. intros C P. destruct t; try discriminate; cbn in *; try reflexivity; now rewrite C. Qed.
  Lemma tmeans_freeze R ty t : tmeans ty t -> tmeans ty (freeze R t).
  Proof.
    intros [(t0 & c & E & -> & S)|(E & c & o & -> & A)].
    - left. exists t0, c. split; auto. split; auto. apply scalar_some in E as I. destruct (scalar_in _ I) as (u & E' & _ & C & _ & P).
      rewrite E in E'. injection E' as <-. apply freeze_leaf; [now destruct t0|now rewrite is_proxy_set_c].
    - right. split; auto. destruct o; eexists _, _; (split; [reflexivity|exact A]).
  Qed.
  Lemma vmeans_freeze R ty c t : vmeans ty c t -> vmeans ty c (freeze R t).
  Proof.
    destruct c as [[| |]|]; try apply tmeans_freeze. intros (k & v & -> & H). exists k, (freeze R v). split; auto. now apply tmeans_freeze.
  Qed.
  Lemma fmeans_freeze R e t : fmeans e t -> fmeans e (freeze R t).
  Proof.
    destruct e as [n i ty c|n i k v|n l|n els|n vs|]; cbn [fmeans]; auto; unfold has_name; rewrite get_c_freeze'.
    - intros [N [[C V]|[C (k & k' & x & -> & V)]]]; (split; [auto|]); [left|right]; (split; [auto|]); [now apply vmeans_freeze|].
      eexists _, _, _. split; [reflexivity|]. now apply vmeans_freeze.
    - intros [N (k1 & k2 & k3 & x & y & -> & A & B)]. split; auto. eexists _, _, _, _, _. split; [reflexivity|]. split; now apply tmeans_freeze.
    - intros [N (k & k' & ts & -> & F)]. split; auto. eexists _, _, _. split; [reflexivity|].
      induction F as [|e x l' ts' H F IH]; constructor; auto. destruct e; auto. now apply tmeans_freeze.
  Qed.
  Lemma type_means ty t : pr_type (Some p) ty = Ok t -> tmeans ty t.
  Proof.
    unfold pr_type. destruct (pr_scalar ty) as [t0|] eqn:E; [intros [= <-]|].
    - left. exists t0, (get_c t0). split; auto. split; [now rewrite set_own|apply same_own].
    - intros H. right. split; auto. apply rbind_Ok in H as (a & A & H). injection H as <-. eexists _, _. split; [reflexivity|].
      cbn. unfold code_alias. destruct (substr_in "." ty); injection A as <-; reflexivity.
  Qed.
  Lemma vmeans_key k v ty c t : k = "name" \/ k = "default" -> vmeans ty c t -> vmeans ty c (set_extra_key k v t).
  Proof.
    intros K. destruct c as [[| |]|]; try now apply tmeans_key. intros (k' & x & -> & H). eexists _, _. split; [reflexivity|auto].
  Qed.
  Lemma named_key n t : has_name (set_extra_key "name" n t) n.
  Proof. unfold has_name, set_extra_key. rewrite get_set_c. cbn [c_extra]. now rewrite dget_dset. Qed.
  Lemma null_type ty t : tmeans ty t -> is_null t = true -> ty = "google.protobuf.NullValue".
  Proof.
    intros [(t0 & c & E & -> & S)|(E & c & o & -> & A)] N; [|discriminate]. assert (N0 : is_null t0 = true) by (now destruct t0). clear - E N0.
    unfold pr_scalar in E. repeat (match type of E with (if String.eqb ty ?s then _ else _) = _ => destruct (String.eqb_spec ty s) as [->|_];
      [try reflexivity; injection E as <-; discriminate|] end). discriminate.
  Qed.
  Lemma field_means n i ty c t : pr_field (Some p) n ty c = Ok t -> fmeans (EField n i ty c) t.
  Proof.
    unfold pr_field. intros H. apply rbind_Ok in H as (u & E & H). cbv zeta in H. apply type_means in E.
    set (w := if repeated c then TList c0 u PNone (PBool true) else u) in *.
    assert (W : vmeans ty c w) by (unfold w; destruct c as [[| |]|]; cbn; eauto).
    assert (T : t = set_extra_key "name" n (if required c then w else set_extra_key "default" PNone
       (if is_null w then w else TUnion (mkC PNone PNone PNone [("default", PNone)]) [TNull c0; w]))) by congruence. clear H. subst t.
    cbn [fmeans]. split; [apply named_key|]. destruct (required c) eqn:Q.
    - left. split; [left; destruct c as [[| |]|]; try discriminate; reflexivity|]. apply vmeans_key; auto.
    - assert (C : c <> Some Required) by (intros ->; discriminate). destruct (is_null w) eqn:N.
      + left. assert (K : repeated c = false) by (unfold w in N; destruct (repeated c); [discriminate|reflexivity]).
        assert (TM : tmeans ty w) by (destruct c as [[| |]|]; try discriminate; exact W).
        split; [right; split; [eapply null_type; eauto|destruct c as [[| |]|]; discriminate]|]. apply vmeans_key; auto. apply vmeans_key; auto.
      + right. split; auto. eexists _, _, w. split; [reflexivity|]. exact W.
  Qed.
  Lemma map_means n i k v t : pr_map (Some p) n k v = Ok t -> fmeans (EMapField n i k v) t.
  Proof.
    unfold pr_map. intros H. apply rbind_Ok in H as (tk & E & H). match type of H with (if ?b then _ else _) = _ => destruct b; [|discriminate] end.
    apply rbind_Ok in H as (tv & E2 & H). injection H as <-. cbn [fmeans]. split.
    - intros s. unfold has_name. cbn. destruct n; cbn; split; congruence.
    - eexists _, _, _, _, _. split; [reflexivity|]. split; now apply type_means.
  Qed.
  Lemma oneof_means n l t : pr_oneof (Some p) n l = Ok t -> fmeans (EOneOf n l) t.
  Proof.
    rewrite pr_oneof_eq. intros H. apply rbind_Ok in H as (ts & O & H). injection H as <-. cbn [fmeans]. split; [reflexivity|].
    eexists _, _, _. split; [reflexivity|]. revert ts O. induction l as [|x l IH]; intros ts O; [injection O as <-; constructor|].
    destruct x; try exact (IH ts O). cbn [oneof_members] in O. apply rbind_Ok in O as (u & U & O). apply rbind_Ok in O as (us & O & E). injection E as <-.
    cbn [filter is_field]. constructor; auto. apply (field_means _ number) in U. cbn [fmeans] in U. destruct U as [_ [[_ U]|[U _]]]; [exact U|congruence].
  Qed.
  Lemma fields_mean_all els : forall R R1 fs, read_elements (Some p) els R = (R1, Ok fs) -> Forall2 fmeans (filter is_member els) fs.
  Proof.
    induction els as [|x els IH]; intros R R1 fs H; [injection H as <- <-; constructor|].
    rewrite read_elements_cons in H. unfold mbind in H. destruct (read_element (Some p) x R) as [R2 [f|e]] eqn:E; [|discriminate].
    destruct (read_elements (Some p) els R2) as [R3 [gs|e]] eqn:E2; [|discriminate]. injection H as <- <-. specialize (IH _ _ _ E2).
    destruct x; cbn [filter is_member read_element] in *.
    - apply mbind_lift in E as (u & U & E). injection E as <- <-. constructor; auto. now apply field_means.
    - apply mbind_lift in E as (u & U & E). injection E as <- <-. constructor; auto. now apply map_means.
    - apply mbind_lift in E as (u & U & E). injection E as <- <-. constructor; auto. now apply oneof_means.
    - unfold mbind in E. destruct (pr_message _ _ _) as [R4 [u|e]]; [|discriminate]. injection E as <- <-. exact IH.
    - unfold mbind in E. destruct (pr_enum _ _ _ _) as [R4 [u|e]]; [|discriminate]. injection E as <- <-. exact IH.
    - injection E as <- <-. exact IH.
  Qed.
  Lemma means_stored R e t : means e t -> means e (stored R t).
  Proof.
    destruct e as [| | |n m|n vs|]; cbn [means]; auto.
    - intros (c & fs & -> & F). eexists _, _. split; [reflexivity|]. induction F; cbn; constructor; auto. now apply fmeans_freeze.
    - intros (c & ->). eexists. reflexivity.
  Qed.

  (** [d] is [e] or a declaration inside it. *)
  Inductive inner_of : element -> element -> Prop :=
  | inner_self e : inner_of e e
  | inner_deep d x n m : In x m -> inner_of d x -> inner_of d (EMessage n m).
  Definition simple_name (e : element) : option string := match e with EMessage n _ | EEnum n _ => Some n | _ => None end.
  (** The registry has the type of the declaration. *)
  Definition stands (R : registry) (d : element) : Prop :=
    forall n, simple_name d = Some n -> exists u, dget (p ++ "." ++ n)%string R = Some u /\ means d u.
  Lemma stands_app R E d : stands R d -> stands (R ++ E) d.
  Proof. intros H n N. destruct (H n N) as (u & D & M). exists u. split; auto. now apply dget_app_old. Qed.
  Lemma register_stands t n R R1 d x : c_alias (get_c t) = PStr (p ++ "." ++ n)%string -> simple_name d = Some n -> means d t ->
    register_alias t R = (R1, Ok x) -> stands R1 d.
  Proof.
    intros A N M H n' N'. assert (n' = n) by congruence. subst n'. unfold register_alias in H. rewrite A in H.
    destruct (dmem _ R) eqn:D; [discriminate|]. destruct (re_match _ _); [|discriminate]. injection H as <- _.
    exists (stored R t). split; [|now apply means_stored]. rewrite dget_app. unfold dmem in D. destruct (dget _ R); [discriminate|].
    cbn. now rewrite String.eqb_refl.
  Qed.
  Lemma enum_stands n vs R R1 t : pr_enum (Some p) n vs R = (R1, Ok t) -> stands R1 (EEnum n vs).
  Proof.
    unfold pr_enum. intros H. apply mbind_lift in H as (a & Q & H). injection Q as <-. cbv zeta in H. unfold mbind in H.
    destruct (register_alias _ R) as [R2 [u|e]] eqn:E; [|discriminate]. injection H as <- <-.
    eapply register_stands; try exact E; cbn; eauto.
  Qed.
  Lemma grows_read top l : grows (read_elements top l).
  Proof.
    induction l as [|x l IH]; [now apply grows_same|]. rewrite read_elements_cons.
    apply grows_bind; [|intros f; apply grows_bind; [exact IH|intros; now apply grows_same]].
    destruct x; cbn [read_element]; try (now apply grows_same); (apply grows_bind; [|intros; now apply grows_same]); try (now apply grows_same).
    - apply grows_message.
    - apply grows_enum.
  Qed.
  Lemma message_stands e : forall R R1 t, pr_message (Some p) e R = (R1, Ok t) ->
    (forall d, inner_of d e -> stands R1 d) /\ means e t.
  Proof.
    induction e as [n i ty c|n i k v|n l FL|n els FL|n vs|] using element_ind'; intros R R1 t H; try discriminate.
    rewrite pr_message_eq in H. unfold mbind at 1 in H. destruct (read_elements (Some p) els R) as [R2 [fs|e]] eqn:E; [|discriminate].
    apply fields_mean_all in E as FM.
    assert (IN : forall d x, In x els -> inner_of d x -> stands R2 d).
    { clear H FM t. revert R R2 fs E. induction FL as [|x els HX FL IH]; intros R R2 fs E d y I D; [destruct I|].
      rewrite read_elements_cons in E. unfold mbind in E. destruct (read_element (Some p) x R) as [R3 [f|e]] eqn:E1; [|discriminate].
      destruct (read_elements (Some p) els R3) as [R4 [gs|e]] eqn:E2; [|discriminate]. injection E as <- <-. destruct I as [->|I]; [|eapply IH; eauto].
      assert (G : exists X, R4 = R3 ++ X).
      { pose proof (grows_read (Some p) els R3) as [X G]. rewrite E2 in G. eauto. }
      destruct G as [X ->]. apply stands_app. destruct y; cbn [read_element] in E1.
      - inversion D; subst. intros n' N. discriminate.
      - inversion D; subst. intros n' N. discriminate.
      - inversion D; subst. intros n' N. discriminate.
      - unfold mbind in E1. destruct (pr_message _ _ _) as [R5 [u|e]] eqn:E3; [|discriminate]. injection E1 as <- <-. eapply HX; eauto.
      - unfold mbind in E1. destruct (pr_enum _ _ _ _) as [R5 [u|e]] eqn:E3; [|discriminate]. injection E1 as <- <-. inversion D; subst. eapply enum_stands; eauto.
      - inversion D; subst. intros n' N. discriminate. }
    apply mbind_lift in H as (a & Q & H). injection Q as <-. cbv zeta in H. unfold mbind in H.
    destruct (register_alias _ R2) as [R3 [u|e]] eqn:E3; [|discriminate]. injection H as <- <-.
    assert (M : means (EMessage n els) (TStruct (mkC PNone (PStr (p ++ "." ++ n)%string) PNone []) fs)) by (cbn [means]; eauto).
    split; auto. intros d D. inversion D as [|? x ? ? I D']; subst.
    - eapply (register_stands _ n); try exact E3; auto.
    - match type of E3 with register_alias ?w _ = _ => pose proof (grows_register w R2) as [X G] end. rewrite E3 in G. cbn in G. subst R3. apply stands_app. eauto.
  Qed.
  Lemma elements_stand l : forall R R1 root o, pr_elements (Some p) l root R = (R1, Ok o) ->
    forall e d, In e (body l) -> inner_of d e -> stands R1 d.
  Proof.
    induction l as [|x l IH]; intros R R1 root o H e d I D; [destruct I|]. cbn [pr_elements] in H.
    destruct x as [q|y|]; [eapply IH; eauto| |eapply IH; eauto].
    assert (B : body (FElement y :: l) = y :: body l) by reflexivity. rewrite B in I.
    destruct y; try (destruct I as [<-|I]; [inversion D; subst; intros n' N; discriminate|eapply IH; eauto]).
    - unfold mbind in H. destruct (pr_message (Some p) (EMessage name els) R) as [R2 [u|e']] eqn:E; [|discriminate].
      destruct I as [<-|I]; [|eapply IH; eauto]. match type of H with pr_elements _ _ ?r _ = _ => pose proof (grows_elements (Some p) l r R2) as [X G] end.
      rewrite H in G. cbn in G. subst R1. apply stands_app. eapply message_stands; eauto.
    - unfold mbind in H. destruct (pr_enum (Some p) name values R) as [R2 [u|e']] eqn:E; [|discriminate].
      destruct I as [<-|I]; [|eapply IH; eauto]. match type of H with pr_elements _ _ ?r _ = _ => pose proof (grows_elements (Some p) l r R2) as [X G] end.
      rewrite H in G. cbn in G. subst R1. apply stands_app. inversion D; subst. eapply enum_stands; eauto.
  Qed.
  Lemma scope_inner els q els' : scope p els q els' -> forall d, In d els' -> exists e, In e els /\ inner_of d e.
  Proof.
    intros S. induction S as [|q els' n m S IH I]; intros d D; [exists d; split; auto; constructor|].
    destruct (IH _ I) as (e & J & K). exists e. split; auto. clear - D K. remember (EMessage n m) as x eqn:X. revert X.
    induction K as [e|x0 x n' m' I K IH]; intros ->; [eapply inner_deep; eauto; constructor|]. eapply inner_deep; eauto.
  Qed.
End Means.
