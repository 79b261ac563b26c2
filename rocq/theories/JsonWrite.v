(** Facts about the JSON Schema writer. *)
From Coq Require Import String Ascii List NArith ZArith QArith Bool Lia.
From Verif Require Import PyVal PyValFacts RType Registry FromDict FromDictFacts RoundTrip
  SpecTypes SpecAvro AvroProps Url JsonSchema SpecJson.
Import ListNotations.
Open Scope nat_scope.
Open Scope string_scope.
Open Scope list_scope.

Lemma py_eq_none v : py_eq v PNone = true -> v = PNone.
Proof. destruct v as [|[]| | | | |]; cbn; intros H; try discriminate; reflexivity. Qed.
Lemma null_eq t : rt_eq t (TNull c0) = true <-> t = TNull c0.
Proof.
  split; [|intros ->; reflexivity]. destruct t; try (cbn; discriminate). cbn [rt_eq]. unfold c_eq.
  destruct c as [lo al doc ex]. cbn [c_logical c_alias c_doc c_extra c0].
  intros H. repeat (apply andb_true_iff in H as [H ?]).
  repeat match goal with E : py_eq _ PNone = true |- _ => apply py_eq_none in E; subst end.
  destruct ex; [reflexivity|]. discriminate.
Qed.

(** ** Required fields *)
Lemma split_one {A} (p : A -> bool) l x : filter p l = [x] ->
  exists l1 l2, l = l1 ++ x :: l2 /\ filter p l1 = [] /\ filter p l2 = [] /\ p x = true.
Proof.
  induction l as [|y l IH]; cbn; [discriminate|]. destruct (p y) eqn:E.
  - intros [= -> H]. exists [], l. auto.
  - intros H. apply IH in H as (l1 & l2 & -> & A1 & A2 & A3). exists (y :: l1), l2. cbn. rewrite E. auto.
Qed.
Lemma filter_nil {A} (p : A -> bool) l : filter p l = [] <-> Forall (fun x => p x = false) l.
Proof.
  induction l as [|y l IH]; cbn; [split; auto|]. destruct (p y) eqn:E.
  - split; [discriminate|]. intros H. inversion H. congruence.
  - rewrite IH. split; [auto|]. intros H. now inversion H.
Qed.
Lemma nulls l : filter (fun t => negb (rt_eq t (TNull c0))) l = [] <-> Forall (eq (TNull c0)) l.
Proof.
  rewrite filter_nil. split; intros H; (eapply Forall_impl; [|exact H]); intros a Ha; cbn beta in *.
  - symmetry. apply null_eq. now apply negb_false_iff.
  - rewrite <- Ha. reflexivity.
Qed.
Lemma filter_app' {A} (p : A -> bool) l1 l2 : filter p (l1 ++ l2) = filter p l1 ++ filter p l2.
Proof. induction l1; cbn; auto. destruct (p a); cbn; congruence. Qed.
Lemma required_iff t : js_required t = false <-> optional_union t.
Proof.
  split.
  - destruct t as [| | | | | | | | | |c ts|]; try discriminate. cbn. intros H. apply negb_false_iff in H. unfold is_optional in H.
    apply andb_true_iff in H as [H N]. apply andb_true_iff in H as [E D]. apply Nat.eqb_eq in N.
    destruct (filter _ ts) as [|x [|]] eqn:F; try discriminate.
    apply split_one in F as (l1 & l2 & -> & F1 & F2 & Fx). exists c, l1, x, l2. split; [reflexivity|].
    split; [unfold dmem in D; destruct (dget "default" (c_extra c)); [discriminate|discriminate D]|].
    split; [intros ->; discriminate Fx|]. apply nulls in F1, F2. split; [|apply Forall_app; auto].
    apply existsb_exists in E as (y & I & E). apply null_eq in E. subst y. intros Z.
    apply app_eq_nil in Z as [-> ->]. cbn in I. destruct I as [->|[]]. discriminate Fx.
  - intros (c & l1 & x & l2 & -> & D & X & Z & F). cbn. apply negb_false_iff. unfold is_optional.
    apply Forall_app in F as [F1 F2].
    assert (NX : negb (rt_eq x (TNull c0)) = true).
    { apply negb_true_iff. destruct (rt_eq x (TNull c0)) eqn:E; auto. destruct X. apply null_eq, E. }
    rewrite filter_app'. cbn [filter]. rewrite NX.
    pose proof (proj2 (nulls l1) F1) as ->. pose proof (proj2 (nulls l2) F2) as ->. cbn [app length Nat.eqb].
    rewrite andb_true_r. apply andb_true_iff. split.
    + apply existsb_exists. exists (TNull c0). split; [|reflexivity].
      destruct l1 as [|y l1]; [|inversion F1; subst; now left].
      destruct l2 as [|y l2]; [now destruct Z|]. inversion F2; subst. now right; left.
    + unfold dmem. destruct (dget "default" (c_extra c)); congruence.
Qed.

(** ** Fuel *)
Lemma only_ext {A} (f g : rtype -> res A) l : (forall x, In x l -> f x = g x) ->
  (fix only (l : list rtype) : res A :=
     match l with
     | [] => Err AssertionError
     | x :: r => if is_null x then only r else if existsb (fun y => negb (is_null y)) r then Err AssertionError else f x
     end) l =
  (fix only (l : list rtype) : res A :=
     match l with
     | [] => Err AssertionError
     | x :: r => if is_null x then only r else if existsb (fun y => negb (is_null y)) r then Err AssertionError else g x
     end) l.
Proof.
  induction l as [|x l IH]; intros H; [reflexivity|]. rewrite IH by (intros; apply H; now right).
  rewrite H by (now left). reflexivity.
Qed.

(** The nested loops as functions of the conversion of members. *)
Definition only_f (go : rtype -> res dict) := fix only (l : list rtype) : res dict :=
  match l with
  | [] => Err AssertionError
  | x :: r => if is_null x then only r else if existsb (fun y => negb (is_null y)) r then Err AssertionError else go x
  end.
Definition all_f (go : rtype -> res dict) := fix all (l : list rtype) : res (list pyval) :=
  match l with
  | [] => Ok []
  | x :: r => (d <- go x ;; ds <- all r ;; Ok (PDict d :: ds))%res
  end.
Definition fields_f (go : rtype -> res dict) := fix all (l : list rtype) (ps : dict) (req : list pyval) : res (dict * list pyval) :=
  match l with
  | [] => Ok (ps, req)
  | x :: r =>
      (n <- js_name x ;;
       d <- go x ;;
       all r (dset n (PDict d) ps) (if js_required x then req ++ [PStr n] else req))%res
  end.
Definition node (prox go : rtype -> res dict) (R : registry) (t : rtype) : res dict :=
  let done d := Ok (dupd (js_labels t) d) in
  (match t with
   | TUnion c ts =>
       if is_optional c ts then (d <- only_f go ts ;; done d)
       else (l <- all_f go ts ;; done [("oneOf", PList l)])
   | TStruct c fs =>
       (pr <- fields_f go fs [] [] ;;
        done (("type", PStr "object") :: ("properties", PDict (fst pr)) ::
              match snd pr with [] => [] | l => [("required", PList l)] end))
   | TList _ v _ _ => (d <- go v ;; done [("type", PStr "array"); ("items", PDict d)])
   | TMap _ _ v => (d <- go v ;; done [("type", PStr "object"); ("additionalProperties", PDict d)])
   | TEnum _ s => done [("type", PStr "string"); ("enum", s)]
   | TBool _ => done [("type", PStr "boolean")]
   | TInt _ _ _ => done [("type", PStr "integer")]
   | TFloat _ _ => done [("type", PStr "number")]
   | TString _ _ _ => done [("type", PStr "string")]
   | TBytes _ _ _ => done [("type", PStr "string"); ("format", PStr "byte")]
   | TNull _ => done [("type", PStr "null")]
   | TProxy c _ =>
       match c_alias c with
       | PStr a =>
           if dmem a builtin_aliases || negb (Nat.eqb (length (c_extra c)) 0)
           then (t' <- resolve R t ;; prox t')
           else done [("$ref", js_ref a)]
       | PList _ | PDict _ => Err TypeError
       | _ => Err Unmodelled
       end
   end)%res.
Lemma tree_eq prox R u t : js_tree prox R u t =
  match c_alias (get_c t) with
  | PStr a => if u && negb (is_proxy t) then Ok [("$ref", js_ref a)] else node prox (js_tree prox R true) R t
  | _ => node prox (js_tree prox R true) R t
  end.
Proof.
  destruct t; cbn [js_tree get_c is_proxy negb]; destruct (c_alias c) as [| | | |a| |] eqn:E; rewrite ?andb_false_r, ?andb_true_r;
    cbn [node]; rewrite ?E; try reflexivity; destruct u; reflexivity.
Qed.
Lemma tree_free prox R u t : (u = false \/ not_aliased t) -> js_tree prox R u t = node prox (js_tree prox R true) R t.
Proof.
  intros H. rewrite tree_eq. destruct (c_alias (get_c t)) as [| | | |a| |] eqn:E; auto.
  destruct H as [->|H]; [reflexivity|]. destruct (H _ E).
Qed.

(** More fuel does not change a result. *)
Definition more (r r' : res dict) : Prop := r = Err OutOfFuel \/ r = r'.
Lemma more_refl r : more r r. Proof. now right. Qed.
Lemma more_bind r r' (f f' : dict -> res dict) : more r r' -> (forall d, more (f d) (f' d)) -> more (rbind r f) (rbind r' f').
Proof. intros [->| ->] H; [now left|]. destruct r'; cbn; [apply H|now right]. Qed.
Lemma bind_more {A B} (r r' : res A) (f : A -> res B) : r = Err OutOfFuel \/ r = r' -> rbind r f = Err OutOfFuel \/ rbind r f = rbind r' f.
Proof. intros [->| ->]; auto. Qed.
Lemma node_more prox prox' go go' R t : (forall t', more (prox t') (prox' t')) ->
  Forall (fun x => more (go x) (go' x)) (children t) -> more (node prox go R t) (node prox' go' R t).
Proof.
  intros P H. destruct t as [c|c|c b s|c b|c b v|c b v|c v l va|c k v|c fs|c s|c ts|c r]; cbn [node children] in *; try apply more_refl.
  - inversion H. apply bind_more. auto.
  - inversion H as [|? ? ? H']. inversion H'. apply bind_more. auto.
  - apply bind_more.
    enough (G : forall ps rq, fields_f go fs ps rq = Err OutOfFuel \/ fields_f go fs ps rq = fields_f go' fs ps rq) by apply G.
    induction H as [|x l Hx Hl IHl]; intros ps rq; cbn [fields_f]; [now right|].
    destruct (js_name x) as [n|]; cbn [rbind]; [|now right].
    destruct Hx as [->| ->]; [now left|]; destruct (go' x); cbn [rbind]; [apply IHl|now right].
  - destruct (is_optional c ts); apply bind_more; induction H as [|x l Hx Hl IHl]; cbn [only_f all_f]; try (now right).
    + destruct (is_null x); [exact IHl|]; destruct (existsb _ l); [now right|apply Hx].
    + destruct Hx as [->| ->]; [now left|]; destruct (go' x); cbn [rbind]; [apply bind_more, IHl|now right].
  - destruct (c_alias c); try apply more_refl. destruct (_ || _); [|apply more_refl].
    destruct (resolve R _); cbn [rbind]; [apply P|apply more_refl].
Qed.
Lemma tree_more prox prox' R u t : (forall t', more (prox t') (prox' t')) -> more (js_tree prox R u t) (js_tree prox' R u t).
Proof.
  intros P. revert u.
  induction t as [c|c|c b s|c b|c b v|c b v|c v l va IH|c k v IHk IHv|c fs IH|c s|c ts IH|c r] using rtype_ind'; intros u;
    rewrite !tree_eq; destruct (c_alias (get_c _)) as [| | | |a| |]; try destruct (u && _); try apply more_refl;
    apply node_more; auto; cbn [children]; auto; (eapply Forall_impl; [|exact IH]); auto.
Qed.
Lemma field_more n : forall R u t, more (js_field_f n R u t) (js_field_f (S n) R u t).
Proof.
  induction n as [|n IH]; intros R u t.
  - apply tree_more. intros t'. now left.
  - cbn [js_field_f]. apply tree_more. intros t'. apply IH.
Qed.
Lemma field_le n m R u t : n <= m -> more (js_field_f n R u t) (js_field_f m R u t).
Proof.
  induction 1 as [|m L IH]; [apply more_refl|]. destruct IH as [IH|IH]; [now left|]. rewrite IH. apply field_more.
Qed.

(** ** Objects written for structs (C38) *)
(** A conversion of [t] that ends with [p]. *)
Definition converts (R : registry) (u : bool) (t : rtype) (p : dict) : Prop := exists n, js_field_f n R u t = Ok p.
Lemma converts_fun R u t p p' : converts R u t p -> converts R u t p' -> p = p'.
Proof.
  intros [n H] [m H']. destruct (Nat.le_ge_cases n m) as [L|L]; apply (field_le _ _ R u t) in L;
    destruct L as [L|L]; congruence.
Qed.
Lemma name_iff t n : js_name t = Ok n <-> named t n.
Proof.
  unfold js_name, named, attr, kwarg. destruct (dget "name" (c_extra (get_c t))) as [v|] eqn:E.
  2:{ split; [discriminate|]. intros [H _]. discriminate. }
  destruct v as [|[]|z|q|s|l|d]; try (split; [|intros [H _]; discriminate]).
  1-5,7-8: try discriminate; try (cbn; try destruct (negb _); discriminate); destruct l || destruct d; discriminate.
  destruct s; cbn; (split; [|intros [[= ->] H]; congruence]); [discriminate|]. intros [= <-]. split; [reflexivity|discriminate].
Qed.
Definition req_of (f : rtype) (n : string) : list string := if js_required f then [n] else [].
Lemma fields_spec go : forall fs ps rq ps' rq', fields_f go fs ps rq = Ok (ps', rq') ->
  exists ns ds, Forall2 named fs ns /\ Forall2 (fun f d => go f = Ok d) fs ds /\
    ps' = dupd ps (combine ns (map PDict ds)) /\
    rq' = rq ++ map PStr (concat (map (fun p => req_of (fst p) (snd p)) (combine fs ns))).
Proof.
  induction fs as [|x fs IH]; intros ps rq ps' rq' H; cbn [fields_f] in H.
  - injection H as <- <-. exists [], []. cbn. rewrite app_nil_r. repeat split; constructor.
  - apply rbind_Ok in H as (n & N & H). apply rbind_Ok in H as (d & D & H).
    apply IH in H as (ns & ds & A & B & E1 & E2). exists (n :: ns), (d :: ds).
    apply name_iff in N. repeat split; try (constructor; auto).
    + exact E1.
    + rewrite E2. cbn [combine map concat fst snd]. rewrite map_app. unfold req_of at 2. destruct (js_required x); cbn.
      * now rewrite <- app_assoc.
      * reflexivity.
Qed.
Lemma dupd_keys {V} (e : list (string * V)) : forall d k, In k (dkeys (dupd d e)) <-> In k (dkeys d) \/ In k (dkeys e).
Proof.
  induction e as [|[k0 v] e IH]; intros d k; cbn [dupd fold_left fst snd]; [cbn; tauto|].
  unfold dupd in IH. rewrite IH, dset_keys. cbn [dkeys map fst]. cbn. intuition.
Qed.
Lemma labels_keys t k : In k (dkeys (js_labels t)) -> k = "default" \/ k = "description".
Proof.
  unfold js_labels. intros H. apply dupd_keys in H as [H|H].
  - destruct (dget "default" _); cbn in H; intuition.
  - destruct (truthy _); cbn in H; intuition.
Qed.
Lemma dget_labelled t e k : NoDup (dkeys e) -> k <> "default" -> k <> "description" -> dget k (dupd (js_labels t) e) = dget k e.
Proof.
  intros N K1 K2. rewrite dget_dupd by auto. destruct (dget k e); auto. destruct (dget k (js_labels t)) eqn:E; auto.
  apply dget_In, (List.in_map fst), labels_keys in E. intuition.
Qed.
Lemma dkeys_combine {V} ns (vs : list V) : length ns = length vs -> dkeys (combine ns vs) = ns.
Proof. revert vs. induction ns as [|n ns IH]; intros [|v vs] H; cbn in *; try discriminate; auto. f_equal. apply IH. lia. Qed.
Lemma Forall2_len {A B} (P : A -> B -> Prop) l l' : Forall2 P l l' -> length l = length l'.
Proof. induction 1; cbn; auto. Qed.
Lemma Forall2_impl {A B} (P Q : A -> B -> Prop) l l' : (forall a b, P a b -> Q a b) -> Forall2 P l l' -> Forall2 Q l l'.
Proof. intros H. induction 1; constructor; auto. Qed.
Lemma Forall2_combine {A B C} (P : A -> B -> Prop) (Q : A -> C -> Prop) (S : B -> C -> Prop) fs ns ds :
  Forall2 P fs ns -> Forall2 Q fs ds -> (forall n d, In (n, d) (combine ns ds) -> S n d) ->
  Forall2 (fun f n => exists d, Q f d /\ S n d) fs ns.
Proof.
  intros H. revert ds. induction H as [|f n fs ns Hf H IH]; intros ds H2 HS; [constructor|].
  inversion H2 as [|f' d fs' ds' HQ H2']; subst. constructor.
  - exists d. split; auto. apply HS. now left.
  - eapply IH; eauto. intros n' d' I. apply HS. now right.
Qed.
Definition required_of (d : dict) : list pyval := match dget "required" d with Some (PList l) => l | _ => [] end.
Lemma struct_written R u c fs d : (u = false \/ not_aliased (TStruct c fs)) -> converts R u (TStruct c fs) d ->
  exists ns ps, Forall2 named fs ns /\ holds d "type" (PStr "object") /\ holds d "properties" (PDict ps) /\
    (forall n, In n (dkeys ps) <-> In n ns) /\
    (NoDup ns -> dkeys ps = ns /\ Forall2 (fun f n => exists p, converts R true f p /\ dget n ps = Some (PDict p)) fs ns) /\
    required_of d = map PStr (concat (map (fun p => req_of (fst p) (snd p)) (combine fs ns))) /\
    dget "required" d <> Some (PList []).
Proof.
  intros U [n H].
  assert (EX : exists prox, js_field_f n R u (TStruct c fs) = js_tree prox R u (TStruct c fs) /\
    forall f p, js_tree prox R true f = Ok p -> converts R true f p).
  { destruct n as [|n]; eexists; (split; [reflexivity|]); intros f p Hf; [exists 0|exists (S n)]; exact Hf. }
  destruct EX as (prox & E & CV). rewrite E, tree_free in H by auto. cbn [node] in H.
  apply rbind_Ok in H as ((ps & rq) & F & H). cbn [fst snd] in H.
  apply fields_spec in F as (ns & ds & N & D & E1 & E2). cbn [app] in E2. exists ns, ps.
  assert (LN : length ns = length (map PDict ds)).
  { rewrite map_length. rewrite <- (Forall2_len _ _ _ N). exact (Forall2_len _ _ _ D). }
  set (e := ("type", PStr "object") :: ("properties", PDict ps) :: match rq with [] => [] | p :: l => [("required", PList (p :: l))] end).
  change (Ok (dupd (js_labels (TStruct c fs)) e) = Ok d) in H. assert (HD : d = dupd (js_labels (TStruct c fs)) e) by congruence. rewrite HD. clear H HD.
  assert (ND : NoDup (dkeys e)).
  { unfold e. destruct rq; cbn; repeat (constructor; [cbn; intuition discriminate|]); constructor. }
  assert (DR : dget "required" (dupd (js_labels (TStruct c fs)) e) = match rq with [] => None | _ :: _ => Some (PList rq) end).
  { rewrite dget_labelled by (auto; discriminate). unfold e. destruct rq; reflexivity. }
  unfold holds, required_of. rewrite DR. rewrite !dget_labelled by (auto; discriminate). repeat split; auto.
  - intros K. rewrite E1 in K. apply dupd_keys in K as [[]|K]. rewrite dkeys_combine in K; auto.
  - intros K. rewrite E1. apply dupd_keys. right. rewrite dkeys_combine; auto.
  - rewrite E1. rewrite dupd_app; cbn [app]; rewrite ?dkeys_combine; auto.
  - rewrite dupd_app in E1; cbn [app]; rewrite ?dkeys_combine; auto. cbn [app] in E1.
    pose proof (Forall2_combine named _ (fun n d => dget n ps = Some (PDict d)) fs ns ds N D) as G.
    cbn beta in G. eapply Forall2_impl; [|apply G].
    + intros f m (p & A & B). eauto.
    + intros m p I. rewrite E1. apply In_dget; [rewrite dkeys_combine; auto|].
      clear - I. revert ds I. induction ns as [|m' ns IH]; intros [|d ds] I; cbn in *; try tauto.
      destruct I as [[= -> ->]|I]; [now left|right; auto].
  - rewrite E2. destruct (map PStr _); reflexivity.
  - destruct rq; discriminate.
Qed.

Lemma struct_required R u c fs d : (u = false \/ not_aliased (TStruct c fs)) -> converts R u (TStruct c fs) d ->
  exists ns ps, Forall2 named fs ns /\ holds d "type" (PStr "object") /\ holds d "properties" (PDict ps) /\
    (forall n, In n (dkeys ps) <-> In n ns) /\
    (NoDup ns -> dkeys ps = ns /\ Forall2 (fun f n => exists p, converts R true f p /\ holds ps n (PDict p)) fs ns) /\
    (forall n, required_name d n <-> exists f, In (f, n) (combine fs ns) /\ ~ optional_union f).
Proof.
  intros U H. apply struct_written in H as (ns & ps & N & T & P & K & ND & RQ & NE); auto. exists ns, ps.
  repeat (split; [assumption|]). intros n.
  assert (E : required_name d n <-> In (PStr n) (required_of d)).
  { unfold required_name, required_of. split; [intros (l & -> & I); exact I|].
    destruct (dget "required" d) as [v|]; [|intros []]. destruct v; try (intros []). eauto. }
  rewrite E, RQ, in_map_iff. split.
  - intros (s & [= ->] & I). apply in_concat in I as (l & I & IN). apply in_map_iff in I as ([f m] & <- & I). cbn [fst snd] in IN.
    unfold req_of in IN. destruct (js_required f) eqn:R1; [|destruct IN]. destruct IN as [<-|[]]. exists f. split; auto.
    intros O. apply required_iff in O. congruence.
  - intros (f & I & O). exists n. split; auto. apply in_concat. exists (req_of f n). split.
    + apply in_map_iff. exists (f, n). auto.
    + unfold req_of. destruct (js_required f) eqn:R1; [now left|]. exfalso. now apply O, required_iff.
Qed.
Lemma from_required R c fs d : not_aliased (TStruct c fs) -> js_from R (TStruct c fs) = Ok d ->
  exists ns ps, Forall2 named fs ns /\ holds d "type" (PStr "object") /\ holds d "properties" (PDict ps) /\
    (forall n, In n (dkeys ps) <-> In n ns) /\
    (NoDup ns -> dkeys ps = ns /\ Forall2 (fun f n => exists p, converts R true f p /\ holds ps n (PDict p)) fs ns) /\
    (forall n, required_name d n <-> exists f, In (f, n) (combine fs ns) /\ ~ optional_union f).
Proof.
  intros A H. unfold js_from in H. apply rbind_Ok in H as (m & M & H). apply rbind_Ok in H as (defs & _ & H).
  assert (X : forall k, k <> "$defs" -> dget k d = dget k m).
  { intros k K. assert (E : d = match defs with [] => m | _ => dset "$defs" (PDict defs) m end) by congruence. rewrite E.
    destruct defs; auto. rewrite dget_dset. apply String.eqb_neq in K. now rewrite K. }
  destruct (struct_required R true c fs m) as (ns & ps & N & T & P & K & ND & RQ); [auto|eexists; exact M|].
  exists ns, ps. unfold holds, required_name in *. rewrite !X by discriminate. auto 10.
Qed.
