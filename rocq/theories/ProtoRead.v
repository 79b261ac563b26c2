(** Proofs about ProtobufConverter.to_recap. *)
From Coq Require Import String Ascii List NArith ZArith QArith Bool Lia.
From Verif Require Import PyVal PyValFacts RType Registry FromDict RoundTrip Url Avro SpecAvro AvroProps JsonSchema SpecTypes SpecJson JsonProps Proto SpecProto.
Import ListNotations.
Open Scope nat_scope.
Open Scope string_scope.
Open Scope list_scope.

(** ** Unfolding *)
Section ElementInd.
  Variable P : element -> Prop.
  Hypothesis HF : forall n i ty c, P (EField n i ty c).
  Hypothesis HM : forall n i k v, P (EMapField n i k v).
  Hypothesis HO : forall n l, Forall P l -> P (EOneOf n l).
  Hypothesis HG : forall n l, Forall P l -> P (EMessage n l).
  Hypothesis HE : forall n v, P (EEnum n v).
  Hypothesis HX : P EOther.
  Fixpoint element_ind' (e : element) : P e :=
    let all := fix all (l : list element) : Forall P l :=
      match l with [] => Forall_nil P | x :: r => Forall_cons x (element_ind' x) (all r) end in
    match e with
    | EField n i ty c => HF n i ty c
    | EMapField n i k v => HM n i k v
    | EOneOf n l => HO n l (all l)
    | EMessage n l => HG n l (all l)
    | EEnum n v => HE n v
    | EOther => HX
    end.
End ElementInd.

Definition read_element (top : option string) (x : element) : M (list rtype) :=
  match x with
  | EField n _ ty c => (t <- lift (pr_field top n ty c) ;; ret [t])%mon
  | EMapField n _ k v => (t <- lift (pr_map top n k v) ;; ret [t])%mon
  | EOneOf n l => (t <- lift (pr_oneof top n l) ;; ret [t])%mon
  | EMessage _ _ => (_ <- pr_message top x ;; ret [])%mon
  | EEnum n vs => (_ <- pr_enum top n vs ;; ret [])%mon
  | EOther => ret []
  end.
Definition read_elements (top : option string) : list element -> M (list rtype) :=
  fix go (l : list element) : M (list rtype) :=
  match l with
  | [] => ret []
  | x :: r => (f <- read_element top x ;; fs <- go r ;; ret (f ++ fs))%mon
  end.
Lemma read_elements_cons top x r : read_elements top (x :: r) =
  (f <- read_element top x ;; fs <- read_elements top r ;; ret (f ++ fs))%mon.
Proof. reflexivity. Qed.
Lemma pr_message_eq top name els : pr_message top (EMessage name els) =
  (fs <- read_elements top els ;;
   a <- lift (qualify top name) ;;
   let t := TStruct (mkC PNone (PStr a) PNone []) fs in
   _ <- register_alias t ;; ret t)%mon.
Proof. reflexivity. Qed.
Definition oneof_members (top : option string) : list element -> res (list rtype) :=
  fix go (l : list element) : res (list rtype) :=
  match l with
  | [] => Ok []
  | EField n _ ty _ :: r => (t <- pr_field top n ty (Some Required) ;; ts <- go r ;; Ok (t :: ts))%res
  | _ :: r => go r
  end.
Lemma pr_oneof_eq top name els : pr_oneof top name els =
  (ts <- oneof_members top els ;;
   Ok (TUnion (mkC PNone PNone PNone [("name", name); ("default", PNone)]) (TNull c0 :: ts)))%res.
Proof. reflexivity. Qed.
Definition px_all (enter : marks -> rtype -> res (rtype * marks)) : list rtype -> marks -> res (list rtype * marks) :=
  fix all (l : list rtype) (s : marks) : res (list rtype * marks) :=
  match l with
  | [] => Ok ([], s)
  | x :: r => (p <- enter s x ;; q <- all r (snd p) ;; Ok (fst p :: fst q, snd q))%res
  end.
Lemma px_all_cons enter x r s : px_all enter (x :: r) s =
  (p <- enter s x ;; q <- px_all enter r (snd p) ;; Ok (fst p :: fst q, snd q))%res.
Proof. reflexivity. Qed.
Lemma px_kids_eq prox R s t : px_kids prox R s t =
  (let enter := px_enter (px_kids prox R) prox R in
   match t with
   | TList c v l va => (p <- enter s v ;; Ok (TList c (fst p) l va, snd p))
   | TMap c k v => (p <- enter s k ;; q <- enter (snd p) v ;; Ok (TMap c (fst p) (fst q), snd q))
   | TUnion c l => (p <- px_all enter l s ;; Ok (TUnion c (fst p), snd p))
   | TStruct c l => (p <- px_all enter l s ;; Ok (TStruct c (fst p), snd p))
   | _ => Ok (t, s)
   end)%res.
Proof. destruct t; reflexivity. Qed.

(** ** What is read refers to the registry of the converter *)
Lemma scalar_refs s t : pr_scalar s = Some t -> fresh_refs t.
Proof.
  unfold pr_scalar. intros H. repeat (match type of H with (if ?b then _ else _) = _ => destruct b; [injection H as <-; exact Logic.I|] end). discriminate.
Qed.
Lemma type_refs top s t : pr_type top s = Ok t -> fresh_refs t.
Proof.
  unfold pr_type. destruct (pr_scalar s) as [u|] eqn:E; [intros [= <-]; eapply scalar_refs; eauto|].
  intros H. apply rbind_Ok in H as (a & _ & H). injection H as <-. exact Logic.I.
Qed.
Lemma refs_set_extra k v t : fresh_refs t -> fresh_refs (set_extra_key k v t).
Proof. unfold fresh_refs, set_extra_key. now destruct t. Qed.
Lemma field_fresh top n ty c t : pr_field top n ty c = Ok t -> fresh_refs t.
Proof.
  unfold pr_field. intros H. apply rbind_Ok in H as (u & T & H). apply type_refs in T. injection H as <-. apply refs_set_extra.
  assert (F : fresh_refs (if repeated c then TList c0 u PNone (PBool true) else u)) by (destruct (repeated c); exact T).
  destruct (required c); auto. apply refs_set_extra. destruct (is_null _); auto. unfold fresh_refs in *. cbn. tauto.
Qed.
Lemma map_fresh top n k v t : pr_map top n k v = Ok t -> fresh_refs t.
Proof.
  unfold pr_map. intros H. apply rbind_Ok in H as (tk & K & H). destruct (match tk with TInt _ _ _ => _ | _ => _ end); [|discriminate].
  apply rbind_Ok in H as (tv & V & H). injection H as <-. apply type_refs in K. apply type_refs in V. unfold fresh_refs in *. cbn. tauto.
Qed.
Lemma oneof_fresh top n l t : pr_oneof top n l = Ok t -> fresh_refs t.
Proof.
  rewrite pr_oneof_eq. intros H. apply rbind_Ok in H as (ts & O & H). injection H as <-. unfold fresh_refs. cbn. split; auto.
  apply fold_and. revert ts O. induction l as [|x l IH]; intros ts O; [injection O as <-; constructor|].
  destruct x; auto. apply rbind_Ok in O as (t & F & O). apply rbind_Ok in O as (us & O' & E). injection E as <-. constructor; auto. eapply field_fresh; eauto.
Qed.
Lemma keeps_lift_if {A} (Q : A -> Prop) (r : res A) : (forall a, r = Ok a -> Q a) -> keeps Q (lift r).
Proof. intros H R S. split; auto. Qed.
Lemma keeps_enum top n vs : keeps fresh_refs (pr_enum top n vs).
Proof.
  unfold pr_enum. eapply keeps_bind; [apply keeps_lift|]. intros a _. eapply keeps_bind; [apply keeps_register; exact Logic.I|]. intros _ _. apply keeps_ret. exact Logic.I.
Qed.
Lemma keeps_one (r : res rtype) : (forall t, r = Ok t -> fresh_refs t) -> keeps (Forall fresh_refs) (t <- lift r ;; ret [t])%mon.
Proof. intros H. eapply keeps_bind; [apply keeps_lift_if; exact H|]. intros t F. apply keeps_ret. auto. Qed.
Lemma keeps_message top e : keeps fresh_refs (pr_message top e).
Proof.
  induction e as [n i ty c|n i k v|n l _|n l IH|n v|] using element_ind'; try apply keeps_fail.
  rewrite pr_message_eq. apply keeps_bind with (P := Forall fresh_refs).
  - induction IH as [|x l Hx _ IHl]; [apply keeps_ret; constructor|rewrite read_elements_cons].
    apply keeps_bind with (P := Forall fresh_refs).
    + destruct x; cbn [read_element].
      * apply keeps_one. apply field_fresh.
      * apply keeps_one. apply map_fresh.
      * apply keeps_one. apply oneof_fresh.
      * eapply keeps_bind; [exact Hx|]. intros _ _. apply keeps_ret. constructor.
      * eapply keeps_bind; [apply keeps_enum|]. intros _ _. apply keeps_ret. constructor.
      * apply keeps_ret. constructor.
    + intros f Ff. eapply keeps_bind; [exact IHl|]. intros fs Ffs. apply keeps_ret. now apply Forall_app.
  - intros fs F. eapply keeps_bind; [apply keeps_lift|]. intros a _.
    assert (FR : fresh_refs (TStruct (mkC PNone (PStr a) PNone []) fs)) by (unfold fresh_refs; cbn; now apply fold_and).
    eapply keeps_bind; [apply keeps_register; exact FR|]. intros _ _. now apply keeps_ret.
Qed.
Definition root_fresh (o : option rtype) : Prop := forall t, o = Some t -> fresh_refs t.
Lemma keeps_elements top l : forall root, root_fresh root -> keeps root_fresh (pr_elements top l root).
Proof.
  induction l as [|x l IH]; intros root F; cbn [pr_elements]; [now apply keeps_ret|].
  destruct x as [p|e|]; auto. destruct e; auto.
  - eapply keeps_bind; [apply keeps_message|]. intros t Ft. apply IH. destruct root; auto. intros u [= <-]. exact Ft.
  - eapply keeps_bind; [apply keeps_enum|]. auto.
Qed.
Lemma parse_settled l s : settled_reg (reg s) ->
  settled_reg (reg (fst (pr_parse l s))) /\ forall t, snd (pr_parse l s) = Ok t -> fresh_refs t.
Proof.
  intros S. unfold pr_parse. set (ns := match first_package l with Some p => _ | None => _ end).
  destruct (keeps_elements (top_of ns) l None (fun t E => ltac:(discriminate)) (reg s) S) as [S' F].
  destruct (pr_elements _ _ _ _) as [R [[t|]|e]]; cbn [fst snd] in *.
  - destruct ns; cbn; split; auto; intros u [= <-]. eapply F; eauto.
  - split; [exact S'|discriminate].
  - split; [exact S'|discriminate].
Qed.
Lemma to_settled l s : settled_reg (reg s) -> settled_reg (reg (fst (pr_to l s))).
Proof.
  intros S. pose proof (proj1 (parse_settled l s S)) as P. unfold pr_to. destruct (pr_parse l s) as [s' [t|e]]; exact P.
Qed.

(** ** Termination *)
Lemma nof_qualify top n : nof (qualify top n).
Proof. unfold qualify. destruct top; discriminate. Qed.
Lemma nof_type top ty : nof (pr_type top ty).
Proof. unfold pr_type. destruct (pr_scalar ty); [discriminate|]. apply nof_rbind; [|discriminate]. destruct (substr_in _ _); [discriminate|apply nof_qualify]. Qed.
Lemma nof_field top n ty c : nof (pr_field top n ty c).
Proof. unfold pr_field. apply nof_rbind; [apply nof_type|]. discriminate. Qed.
Lemma nof_map top n k v : nof (pr_map top n k v).
Proof.
  unfold pr_map. apply nof_rbind; [apply nof_type|]. intros t. destruct (match t with TInt _ _ _ => _ | _ => _ end); [|discriminate].
  apply nof_rbind; [apply nof_type|discriminate].
Qed.
Lemma nof_oneof top n l : nof (pr_oneof top n l).
Proof.
  rewrite pr_oneof_eq. apply nof_rbind; [|discriminate]. induction l as [|x l IH]; [discriminate|]. destruct x; auto.
  cbn [oneof_members]. apply nof_rbind; [apply nof_field|]. intros t. apply nof_rbind; [exact IH|discriminate].
Qed.
Definition nofm {A} (m : M A) := forall R, nof (snd (m R)).
Lemma nofm_bind {A B} (m : M A) (f : A -> M B) : nofm m -> (forall a, nofm (f a)) -> nofm (mbind m f).
Proof. intros Hm Hf R. unfold mbind. specialize (Hm R). destruct (m R) as [R' [a|e]]; cbn in *; [apply Hf|unfold nof in *; congruence]. Qed.
Lemma nofm_lift {A} (r : res A) : nof r -> nofm (lift r).
Proof. intros H R. exact H. Qed.
Lemma nofm_ret {A} (a : A) : nofm (ret a).
Proof. intros R. discriminate. Qed.
Lemma nofm_register t : nofm (register_alias t).
Proof. intros R. unfold register_alias. repeat match goal with |- context [match ?x with _ => _ end] => destruct x end; discriminate. Qed.
Lemma nofm_enum top n vs : nofm (pr_enum top n vs).
Proof. apply nofm_bind; [apply nofm_lift, nof_qualify|]. intros a. apply nofm_bind; [apply nofm_register|]. intros _. apply nofm_ret. Qed.
Lemma nofm_message top e : nofm (pr_message top e).
Proof.
  induction e as [n i ty c|n i k v|n l _|n l IH|n v|] using element_ind'; try (intros R; discriminate).
  rewrite pr_message_eq. apply nofm_bind.
  - induction IH as [|x l Hx _ IHl]; [apply nofm_ret|]. rewrite read_elements_cons. apply nofm_bind.
    + destruct x; cbn [read_element]; try apply nofm_ret; (apply nofm_bind; [|intros ?; apply nofm_ret]).
      * apply nofm_lift, nof_field.
      * apply nofm_lift, nof_map.
      * apply nofm_lift, nof_oneof.
      * exact Hx.
      * apply nofm_enum.
    + intros f. apply nofm_bind; [exact IHl|]. intros fs. apply nofm_ret.
  - intros fs. apply nofm_bind; [apply nofm_lift, nof_qualify|]. intros a. apply nofm_bind; [apply nofm_register|]. intros _. apply nofm_ret.
Qed.
Lemma nofm_elements top l : forall root, nofm (pr_elements top l root).
Proof.
  induction l as [|x l IH]; intros root; cbn [pr_elements]; [apply nofm_ret|]. destruct x as [p|e|]; auto. destruct e; auto.
  - apply nofm_bind; [apply nofm_message|]. auto.
  - apply nofm_bind; [apply nofm_enum|]. auto.
Qed.
Lemma nof_parse l s : nof (snd (pr_parse l s)).
Proof.
  unfold pr_parse. set (ns := match first_package l with Some p => _ | None => _ end). pose proof (nofm_elements (top_of ns) l None (reg s)) as N.
  destruct (pr_elements _ _ _ _) as [R [[t|]|e]]; cbn [snd] in *; try discriminate.
  - destruct ns; discriminate.
  - unfold nof in *. congruence.
Qed.
Lemma nof_see t s : nof (see t s).
Proof. unfold see. destruct (c_alias _); discriminate. Qed.
Lemma nof_enter kids prox R s t :
  (is_proxy t = false -> forall s', nof (kids s' t)) ->
  (forall t' s', is_proxy t = true -> resolve R t = Ok t' -> forall c, nof (prox s' (set_c t' c))) -> nof (px_enter kids prox R s t).
Proof.
  intros K P. unfold px_enter. apply nof_rbind; [|discriminate].
  destruct t as [c|c|c b g|c b|c b v|c b v|c v l va|c k v|c fs|c g|c ts|c rg];
    try (apply nof_rbind; [apply nof_see|]; intros s'; apply K; reflexivity).
  destruct (c_alias c); try discriminate. destruct (_ || _); [discriminate|].
  pose proof (nof_resolve R (TProxy c rg)). destruct (resolve R (TProxy c rg)) as [t'|e] eqn:E; cbn [rbind].
  - eapply P; eauto.
  - unfold nof in *. congruence.
Qed.
Lemma nof_px_all enter l : (forall x s, In x l -> nof (enter s x)) -> forall s, nof (px_all enter l s).
Proof.
  induction l as [|x l IH]; intros H s; [discriminate|rewrite px_all_cons]. apply nof_rbind; [apply H; now left|]. intros p.
  apply nof_rbind; [apply IH; intros; apply H; now right|discriminate].
Qed.
Lemma nof_kids_enter prox R t : (forall x s, In x (children t) -> nof (px_enter (px_kids prox R) prox R s x)) -> forall s, nof (px_kids prox R s t).
Proof.
  intros H s. rewrite px_kids_eq. cbv zeta. destruct t; cbn [children] in H; try discriminate.
  - apply nof_rbind; [apply H; now left|discriminate].
  - apply nof_rbind; [apply H; now left|]. intros p. apply nof_rbind; [apply H; right; now left|discriminate].
  - apply nof_rbind; [apply nof_px_all; exact H|discriminate].
  - apply nof_rbind; [apply nof_px_all; exact H|discriminate].
Qed.
Lemma rdepth_child t x : In x (children t) -> rdepth x <= rdepth t.
Proof.
  destruct t as [c|c|c b g|c b|c b v|c b v|c v l va|c k v|c fs|c g|c ts|c rg]; cbn [children rdepth]; intros I; try (destruct I; fail).
  - destruct I as [<-|[]]; lia.
  - destruct I as [<-|[<-|[]]]; lia.
  - induction fs as [|y l IH]; [destruct I|]; destruct I as [<-|I]; cbn; [lia|]. specialize (IH I). lia.
  - induction ts as [|y l IH]; [destruct I|]; destruct I as [<-|I]; cbn; [lia|]. specialize (IH I). lia.
Qed.
Lemma anchored_part t x : anchored t -> In x (children t) -> anchored x.
Proof.
  unfold anchored. destruct t as [c|c|c b g|c b|c b v|c b v|c v l va|c k v|c fs|c g|c ts|c rg]; cbn [children looks_in]; intros L I; try (destruct I; fail).
  - destruct I as [<-|[]]; auto.
  - destruct L. destruct I as [<-|[<-|[]]]; auto.
  - rewrite fold_and, Forall_forall in L. auto.
  - rewrite fold_and, Forall_forall in L. auto.
Qed.
Lemma parts_ind (P : rtype -> Prop) : (forall t, (forall x, In x (children t) -> P x) -> P t) -> forall t, P t.
Proof.
  intros H t. induction t as [c|c|c b s|c b|c b v|c b v|c v l va IH|c k v IHk IHv|c fs IH|c s|c ts IH|c r] using rtype_ind';
    apply H; cbn [children]; try (intros x []; fail).
  - intros x [<-|[]]; auto.
  - intros x [<-|[<-|[]]]; auto.
  - rewrite Forall_forall in IH. exact IH.
  - rewrite Forall_forall in IH. exact IH.
Qed.
Lemma nof_enter_tree prox R : settled_reg R -> forall t s, anchored t ->
  (forall t' s', settled t' -> rdepth t' < rdepth t -> nof (prox s' t')) ->
  (settled t \/ forall t' s', settled t' -> rdepth t' <= reg_depth R -> nof (prox s' t')) ->
  nof (px_enter (px_kids prox R) prox R s t) /\ nof (px_kids prox R s t).
Proof.
  intros SR t. induction t as [t IH] using parts_ind. intros s A P1 P2.
  assert (K : forall s', nof (px_kids prox R s' t)).
  { apply nof_kids_enter. intros x s' I. apply (IH x).
    - exact I.
    - eapply anchored_part; eauto.
    - intros t' s2 S D. apply P1; auto. pose proof (rdepth_child _ _ I). lia.
    - destruct P2 as [S|]; auto. left. inversion S as [t0 _ F|]; subst; [rewrite Forall_forall in F; auto|destruct I]. }
  split; auto. apply nof_enter; auto.
  intros t' s' PR RS c. destruct t as [| | | | | | | | | | |c' r]; try discriminate.
  assert (ST : settled t' /\ rdepth t' <= reg_depth (proxy_reg R r)).
  { eapply resolve_settled; eauto. intros R' ->. exact A. }
  destruct ST as [ST D]. assert (D' : rdepth (set_c t' c) = rdepth t') by (now destruct t').
  destruct r as [R'|]; cbn [proxy_reg] in D.
  - apply P1; [now apply settled_set_c|]. rewrite rdepth_ref. lia.
  - destruct P2 as [X|P2]; [inversion X; discriminate|]. apply P2; [now apply settled_set_c|lia].
Qed.

Lemma fresh_anchored t : fresh_refs t -> anchored t.
Proof.
  unfold fresh_refs, anchored. induction t as [t IH] using parts_ind. destruct t as [c|c|c b s|c b|c b v|c b v|c v l va|c k v|c fs|c s|c ts|c r];
    cbn [looks_in children] in *; auto.
  - apply IH. now left.
  - intros [K V]. split; apply IH; cbn; auto.
  - rewrite !fold_and, !Forall_forall. auto.
  - rewrite !fold_and, !Forall_forall. auto.
  - destruct r; [intros []|auto].
Qed.
Lemma settled_px n R : settled_reg R -> forall t s, settled t -> rdepth t <= n -> nof (px_f n R s t).
Proof.
  intros SR. induction n as [|n IH]; intros t s S D; cbn [px_f].
  - refine (proj2 (nof_enter_tree _ R SR t s (settled_anchored _ S) _ (or_introl S))). intros t' s' _ L. lia.
  - refine (proj2 (nof_enter_tree _ R SR t s (settled_anchored _ S) _ (or_introl S))). intros t' s' S' L. apply IH; auto. lia.
Qed.
Lemma nof_pr_resolve R t : settled_reg R -> fresh_refs t -> nof (pr_resolve R t).
Proof.
  intros SR F. unfold pr_resolve. set (m := Nat.max (rdepth t) (reg_depth R)). cbv zeta.
  assert (A : anchored t) by (now apply fresh_anchored).
  apply nof_rbind; [|discriminate].
  assert (P : forall t' s', settled t' -> rdepth t' <= m -> nof (px_f m R s' t')) by (intros; now apply settled_px).
  apply nof_enter.
  - intros _ s'. cbn [px_f]. refine (proj2 (nof_enter_tree _ R SR t s' A _ (or_intror _))); intros t' s2 S D; apply P; auto; unfold m; lia.
  - intros t' s' PR RS c. destruct t as [| | | | | | | | | | |c' r]; try discriminate.
    assert (ST : settled t' /\ rdepth t' <= reg_depth (proxy_reg R r)).
    { eapply resolve_settled; eauto. intros R' ->. exact A. }
    destruct ST as [ST D]. assert (D' : rdepth (set_c t' c) = rdepth t') by (now destruct t').
    cbn [px_f]. assert (SC : settled (set_c t' c)) by (now apply settled_set_c).
    refine (proj2 (nof_enter_tree _ R SR _ s' (settled_anchored _ SC) _ (or_introl SC))).
    intros t2 s2 S2 D2. apply P; auto. destruct r as [R'|]; cbn [proxy_reg] in D; unfold m; [rewrite rdepth_ref|]; lia.
Qed.
Lemma to_terminates l s : settled_reg (reg s) -> nof (snd (pr_to l s)).
Proof.
  intros S. pose proof (parse_settled l s S) as [P F]. unfold pr_to.
  pose proof (nof_parse l s) as N.
  destruct (pr_parse l s) as [s' [t|e]]; cbn [fst snd] in *.
  - apply nof_rbind; [apply nof_pr_resolve; auto|]. intros t'. destruct t'; discriminate.
  - unfold nof in *. congruence.
Qed.
(** The states that a converter goes through. *)
Lemma reached_settled s : reached s -> settled_reg (reg s).
Proof. induction 1; [apply builtin_settled|now apply to_settled]. Qed.
