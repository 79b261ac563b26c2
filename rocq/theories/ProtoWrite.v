(** Proofs about ProtobufConverter.from_recap. *)
From Coq Require Import String Ascii List NArith ZArith QArith Bool Lia.
From Verif Require DbapiFacts.
From Verif Require Import PyVal PyValFacts RType Registry FromDict Url Avro AvroProps JsonSchema SpecTypes SpecJson Proto SpecProto.
Import ListNotations.
Open Scope nat_scope.
Open Scope string_scope.
Open Scope list_scope.

Fixpoint write_all (l : list rtype) (i : nat) : res (list element) :=
  match l with
  | [] => Ok []
  | x :: r => if is_null x then write_all r i
              else (f <- pr_write x i ;; fs <- write_all r (S i) ;; Ok (f :: fs))%res
  end.
Definition others (ts : list rtype) : list rtype := filter (fun x => negb (is_null x)) ts.
Lemma write_union c ts n : pr_write (TUnion c ts) n =
  (fs <- write_all ts n ;;
   if Nat.eqb (length (others ts)) 1 then
     match fs with
     | [f] => if is_field f then Ok (set_card Optional f) else Err AssertionError
     | _ => Err AssertionError
     end
   else Ok (EOneOf (field_name (TUnion c ts) n) fs))%res.
Proof. reflexivity. Qed.
Fixpoint write_fields (l : list rtype) (i : nat) : res (list element * declared) :=
  match l with
  | [] => Ok ([], [])
  | x :: r => (e <- pr_write x i ;; d <- pr_gather x ;; ed <- write_fields r (S i) ;;
               Ok (e :: fst ed, d ++ snd ed))%res
  end.
Lemma gather_struct c fs : pr_gather (TStruct c fs) =
  match c_alias c with
  | PNone => Err AssertionError
  | PStr a =>
      if substr_in "." a then
        let (package, name) := rsplit_dot a in
        (ed <- write_fields fs 1 ;; Ok (snd ed ++ [(package, EMessage name (fst ed))]))%res
      else Err AssertionError
  | PList _ | PDict _ => Err Unmodelled
  | _ => Err TypeError
  end.
Proof. reflexivity. Qed.
Fixpoint gather_all (l : list rtype) : res declared :=
  match l with
  | [] => Ok []
  | x :: r => (d <- pr_gather x ;; e <- gather_all r ;; Ok (d ++ e))%res
  end.
Lemma gather_union c ts : pr_gather (TUnion c ts) = gather_all ts.
Proof. reflexivity. Qed.

Lemma set_card_numbers c f : numbers (set_card c f) = numbers f.
Proof. now destruct f. Qed.
Lemma write_all_single ts x n fs : others ts = [x] -> write_all ts n = Ok fs -> exists f, fs = [f] /\ pr_write x n = Ok f.
Proof.
  revert fs. induction ts as [|y r IH]; intros fs E H; [discriminate|]. cbn [others filter write_all] in *.
  destruct (is_null y) eqn:N; cbn [negb] in E; [apply IH; auto|]. injection E as -> E.
  apply rbind_Ok in H as (f & W & H). apply rbind_Ok in H as (fs' & W' & H). injection H as <-.
  exists f. split; auto. f_equal. clear - E W'. revert fs' W'. generalize (S n).
  induction r as [|z r IH]; intros k fs' W'; cbn [write_all filter] in *; [now injection W'|].
  destruct (is_null z) eqn:N; cbn [negb] in E; [eauto|discriminate].
Qed.
Lemma write_just t x n e : just t x -> pr_write t n = Ok e ->
  exists f, pr_write x n = Ok f /\ is_field f = true /\ e = set_card Optional f.
Proof.
  intros (c & ts & -> & E) H. rewrite write_union in H. change (others ts = [x]) in E.
  apply rbind_Ok in H as (fs & W & H). destruct (write_all_single _ _ _ _ E W) as (f & -> & Wf).
  rewrite E in H. cbn in H. destruct (is_field f) eqn:F; [|discriminate]. injection H as <-. eauto.
Qed.
Lemma write_list c v l va n e : pr_write (TList c v l va) n = Ok e ->
  exists f, pr_write v n = Ok f /\ is_field f = true /\ e = set_card Repeated f.
Proof.
  cbn [pr_write]. intros H. apply rbind_Ok in H as (f & W & H). destruct (is_field f) eqn:F; [|discriminate].
  injection H as <-. eauto.
Qed.

(** ** Field numbers *)
Lemma plain_numbers x : plain x -> forall n e, pr_write x n = Ok e -> numbers e = [n].
Proof.
  induction 1 as [t x J P IH|c v l va P IH|t NU NL]; intros n e W.
  - destruct (write_just _ _ _ _ J W) as (f & Wf & _ & ->). rewrite set_card_numbers. eauto.
  - destruct (write_list _ _ _ _ _ _ W) as (f & Wf & _ & ->). rewrite set_card_numbers. eauto.
  - destruct t as [c|c|c b s|c b|c b v|c b v|c v l va|c k v|c fs|c s|c ts|c rg]; cbn [pr_write] in W;
      try (exfalso; eapply NU; reflexivity); try (exfalso; eapply NL; reflexivity).
    + injection W as <-. reflexivity.
    + injection W as <-. reflexivity.
    + destruct s as [|[|]| | | | |]; try discriminate; destruct (int_of b); try discriminate;
        repeat (match type of W with (if ?x then _ else _) = _ => destruct x end); try discriminate; injection W as <-; reflexivity.
    + destruct (int_of b); [|discriminate]. repeat (match type of W with (if ?x then _ else _) = _ => destruct x end); try discriminate; injection W as <-; reflexivity.
    + destruct (int_of b); [|discriminate]. destruct (Z.leb _ _); [|discriminate]. injection W as <-; reflexivity.
    + destruct (int_of b); [|discriminate]. destruct (Z.leb _ _); [|discriminate]. injection W as <-; reflexivity.
    + apply rbind_Ok in W as (fk & _ & W). apply rbind_Ok in W as (fv & _ & W). destruct (_ && _); [|discriminate]. injection W as <-; reflexivity.
    + destruct (c_alias c); try discriminate; injection W as <-; reflexivity.
    + destruct (c_alias c); try discriminate; injection W as <-; reflexivity.
    + destruct (c_alias c); try discriminate; injection W as <-; reflexivity.
Qed.
Lemma write_all_numbers ts : Forall plain ts -> forall n fs, write_all ts n = Ok fs ->
  exists k, flat_map numbers fs = seq n k.
Proof.
  induction 1 as [|x r P F IH]; intros n fs W; cbn [write_all] in W; [injection W as <-; now exists 0|].
  destruct (is_null x); [eauto|]. apply rbind_Ok in W as (f & Wf & W). apply rbind_Ok in W as (fs' & W' & W). injection W as <-.
  destruct (IH _ _ W') as [k E]. exists (S k). cbn [flat_map seq]. rewrite E, (plain_numbers _ P _ _ Wf). reflexivity.
Qed.
Lemma last_numbers c ts n e : Forall plain ts -> pr_write (TUnion c ts) n = Ok e -> exists k, numbers e = seq n k.
Proof.
  intros F W. rewrite write_union in W. apply rbind_Ok in W as (fs & Wa & W). destruct (write_all_numbers _ F _ _ Wa) as [k E].
  destruct (Nat.eqb _ _).
  - destruct fs as [|f [|]]; try discriminate. destruct (is_field f); [|discriminate]. injection W as <-.
    cbn [flat_map] in E. rewrite app_nil_r in E. rewrite set_card_numbers. eauto.
  - injection W as <-. cbn [numbers]. eauto.
Qed.
Lemma fields_numbers l : Forall plain l -> forall r i ed, write_fields (l ++ r) i = Ok ed ->
  exists els ed', fst ed = els ++ fst ed' /\ flat_map numbers els = seq i (length l) /\ write_fields r (i + length l) = Ok ed'.
Proof.
  induction 1 as [|x l P F IH]; intros r i ed W.
  - exists [], ed. rewrite Nat.add_0_r. auto.
  - cbn [app write_fields] in W. apply rbind_Ok in W as (e & We & W). apply rbind_Ok in W as (d & _ & W).
    apply rbind_Ok in W as (ed1 & W1 & W). injection W as <-. destruct (IH _ _ _ W1) as (els & ed' & E1 & E2 & E3).
    exists (e :: els), ed'. cbn [fst app flat_map length seq]. rewrite E1, E2, (plain_numbers _ P _ _ We).
    split; [reflexivity|]. split; [reflexivity|]. rewrite <- E3. f_equal. lia.
Qed.
Lemma seq_well els i k : flat_map numbers els = seq (S i) k -> well_numbered els.
Proof.
  intros E. split; rewrite E; [apply seq_NoDup|]. apply Forall_forall. intros n I. apply in_seq in I. lia.
Qed.
Lemma last_choice_numbers fs ed : last_choice fs -> write_fields fs 1 = Ok ed -> well_numbered (fst ed).
Proof.
  intros (l & E & F) W. destruct E as [->|(x & c & ts & -> & -> & FT)].
  - rewrite <- (app_nil_r l) in W. destruct (fields_numbers _ F _ _ _ W) as (els & ed' & E1 & E2 & E3).
    injection E3 as <-. rewrite E1, app_nil_r. eapply seq_well; eauto.
  - destruct (fields_numbers _ F _ _ _ W) as (els & ed' & E1 & E2 & E3). cbn [write_fields] in E3.
    apply rbind_Ok in E3 as (e & We & E3). apply rbind_Ok in E3 as (d & _ & E3). injection E3 as <-.
    destruct (last_numbers _ _ _ _ FT We) as [k Ek]. rewrite E1. apply seq_well with (i := 0) (k := length l + k).
    rewrite flat_map_app, E2. cbn [fst flat_map]. rewrite Ek, app_nil_r, seq_app. reflexivity.
Qed.

(** The declarations found in a type. *)
Definition bodies (P : list element -> Prop) (D : declared) : Prop :=
  forall p n m, In (p, EMessage n m) D -> P m.
Lemma gather_bodies (P : list element -> Prop) t : forall D,
  (forall c fs ed, node_of (TStruct c fs) t -> write_fields fs 1 = Ok ed -> P (fst ed)) ->
  pr_gather t = Ok D -> bodies P D.
Proof.
  assert (NIL : bodies P []) by (intros ? ? ? []).
  assert (APP : forall D E, bodies P D -> bodies P E -> bodies P (D ++ E)).
  { intros D E HD HE p n m I. apply in_app_or in I as [I|I]; eauto. }
  induction t as [c|c|c b s|c b|c b v|c b v|c v l va IH|c k v IHk IHv|c fs IH|c s|c ts IH|c r] using rtype_ind';
    intros D H G; try (injection G as <-; exact NIL).
  - cbn [pr_gather] in G. eapply IH; eauto. intros. eapply H; eauto. eapply node_child; eauto. now left.
  - cbn [pr_gather] in G. apply rbind_Ok in G as (d & Gd & G). apply rbind_Ok in G as (e & Ge & G). injection G as <-.
    apply APP; [eapply IHk|eapply IHv]; eauto; intros; eapply H; eauto; eapply node_child; eauto; cbn; auto.
  - rewrite gather_struct in G. destruct (c_alias c) as [| | | |a| |] eqn:A; try discriminate.
    destruct (substr_in "." a); [|discriminate]. destruct (rsplit_dot a) as [p n]. apply rbind_Ok in G as (ed & W & G). injection G as <-.
    apply APP.
    + assert (X : forall i ed, write_fields fs i = Ok ed -> bodies P (snd ed)); [|eauto].
      clear ed W. assert (HX : forall x, In x fs -> forall c' fs' ed, node_of (TStruct c' fs') x -> write_fields fs' 1 = Ok ed -> P (fst ed)).
      { intros x I c' fs' ed N W. eapply H; eauto. eapply node_child; eauto. }
      clear H. induction IH as [|x l Hx Hl IHl]; intros i ed W; cbn [write_fields] in W; [injection W as <-; exact NIL|].
      apply rbind_Ok in W as (e & _ & W). apply rbind_Ok in W as (d & Gd & W). apply rbind_Ok in W as (ed' & W' & W). injection W as <-.
      cbn [snd]. apply APP; [eapply Hx; eauto; intros; eapply HX; eauto; now left|eapply IHl; eauto; intros; eapply HX; eauto; now right].
    + intros p' n' m [[= <- <- <-]|[]]. eapply H; eauto. apply node_self.
  - cbn [pr_gather] in G. destruct (c_alias c) as [| | | |a| |]; try discriminate.
    destruct (substr_in "." a); [|discriminate]. destruct (rsplit_dot a). destruct s; try discriminate. injection G as <-.
    intros ? ? ? [[=]|[]].
  - rewrite gather_union in G.
    assert (HX : forall x, In x ts -> forall c' fs' ed, node_of (TStruct c' fs') x -> write_fields fs' 1 = Ok ed -> P (fst ed)).
    { intros x I c' fs' ed N W. eapply H; eauto. eapply node_child; eauto. }
    clear H. revert D G. induction IH as [|x l Hx Hl IHl]; intros D G; cbn [gather_all] in G; [injection G as <-; exact NIL|].
    apply rbind_Ok in G as (d & Gd & G). apply rbind_Ok in G as (e & Ge & G). injection G as <-.
    apply APP; [eapply Hx; eauto; intros; eapply HX; eauto; now left|eapply IHl; eauto; intros; eapply HX; eauto; now right].
Qed.

(** ** Construction of the file *)
Lemma in_package_In D p e : In e (in_package D p) <-> In (p, e) D.
Proof.
  unfold in_package. rewrite in_map_iff. split.
  - intros ([q x] & <- & I). apply filter_In in I as [I E]. apply String.eqb_eq in E. cbn in *. now subst.
  - intros I. exists (p, e). split; auto. apply filter_In. split; auto. apply String.eqb_refl.
Qed.
Lemma no_numbers fuel D k p : bodies (fun m => True) D -> (forall q e, In (q, e) D -> numbers e = []) ->
  flat_map numbers (pr_construct fuel D k p) = [].
Proof.
  intros _ H. destruct fuel; [reflexivity|]. cbn [pr_construct]. assert (X : forall e, In e (in_package D p) -> numbers e = []).
  { intros e I. apply in_package_In in I. eauto. }
  revert X. set (own := in_package D p) at 2. clearbody own. intros X.
  assert (Y : forall l, (forall e, In e l -> numbers e = []) -> forall g : string -> list element -> list element,
    flat_map numbers (map (fun e => match e with EMessage n els => EMessage n (g n els) | _ => e end) l) = []).
  { induction l as [|e l IH]; intros Z g; auto. cbn [map flat_map]. rewrite IH by (intros; apply Z; now right).
    rewrite app_nil_r. pose proof (Z e (or_introl eq_refl)). destruct e; auto. }
  apply (Y (in_package D p)). intros e I. apply in_package_In in I. eauto.
Qed.
Lemma gather_kinds t : forall D, pr_gather t = Ok D -> forall q e, In (q, e) D -> (exists n m, e = EMessage n m) \/ (exists n v, e = EEnum n v).
Proof.
  induction t as [c|c|c b s|c b|c b v|c b v|c v l va IH|c k v IHk IHv|c fs IH|c s|c ts IH|c r] using rtype_ind';
    intros D G q e I; try (injection G as <-; destruct I; fail).
  - cbn [pr_gather] in G. eauto.
  - cbn [pr_gather] in G. apply rbind_Ok in G as (d & Gd & G). apply rbind_Ok in G as (f & Ge & G). injection G as <-.
    apply in_app_or in I as [I|I]; eauto.
  - rewrite gather_struct in G. destruct (c_alias c) as [| | | |a| |] eqn:A; try discriminate.
    destruct (substr_in "." a); [|discriminate]. destruct (rsplit_dot a) as [p n]. apply rbind_Ok in G as (ed & W & G). injection G as <-.
    apply in_app_or in I as [I|[[= <- <-]|[]]]; [|eauto]. revert ed W I. generalize 1.
    induction IH as [|x l Hx Hl IHl]; intros i ed W I; cbn [write_fields] in W; [injection W as <-; destruct I|].
    apply rbind_Ok in W as (f & _ & W). apply rbind_Ok in W as (d & Gd & W). apply rbind_Ok in W as (ed' & W' & W). injection W as <-.
    cbn [snd] in I. apply in_app_or in I as [I|I]; eauto.
  - cbn [pr_gather] in G. destruct (c_alias c) as [| | | |a| |]; try discriminate.
    destruct (substr_in "." a); [|discriminate]. destruct (rsplit_dot a). destruct s; try discriminate. injection G as <-.
    destruct I as [[= <- <-]|[]]. eauto.
  - rewrite gather_union in G. revert D G I. induction IH as [|x l Hx Hl IHl]; intros D G I; cbn [gather_all] in G; [injection G as <-; destruct I|].
    apply rbind_Ok in G as (d & Gd & G). apply rbind_Ok in G as (f & Ge & G). injection G as <-. apply in_app_or in I as [I|I]; eauto.
Qed.
Lemma construct_message fuel D k p n m : In (EMessage n m) (pr_construct fuel D k p) ->
  exists fuel' els k' r, fuel = S fuel' /\ In (p, EMessage n els) D /\
    m = els ++ concat (repeat (pr_construct fuel' D k' (p ++ "." ++ n)%string) r).
Proof.
  destruct fuel as [|fuel']; [intros []|]. cbn [pr_construct]. intros I. apply in_map_iff in I as (e & E & I).
  apply in_package_In in I. destruct e; try discriminate. inversion E; subst. eauto 9.
Qed.
Lemma concat_repeat_In {A} (l : list A) k x : In x (concat (repeat l k)) -> In x l.
Proof. induction k; cbn; [intros []|]. intros I. apply in_app_or in I as []; auto. Qed.
Lemma concat_repeat_flat {A B} (f : A -> list B) l k : flat_map f l = [] -> flat_map f (concat (repeat l k)) = [].
Proof. intros E. induction k; cbn; auto. now rewrite flat_map_app, E, IHk. Qed.

Lemma inside_construct D (P : list element -> Prop) :
  (forall q e, In (q, e) D -> (exists n m, e = EMessage n m) \/ (exists n v, e = EEnum n v)) ->
  bodies (fun m => P m /\ forall x y, ~ In (EMessage x y) m) D ->
  (forall m l, P m -> flat_map numbers l = [] -> P (m ++ l)) ->
  forall els m, inside els m -> forall fuel k p, (forall n b, In (EMessage n b) els -> In (EMessage n b) (pr_construct fuel D k p)) -> P m.
Proof.
  intros K B X. assert (NN : forall fuel k p, flat_map numbers (pr_construct fuel D k p) = []).
  { intros. apply no_numbers; [intros ? ? ? _; exact I|]. intros q e I. destruct (K _ _ I) as [(n & m & ->)|(n & v & ->)]; auto. }
  induction 1 as [els n m I|els n m m' I H IH]; intros fuel k p S.
  - apply S in I. apply construct_message in I as (fuel' & els' & k' & r & -> & I & ->). apply X; [now apply (B _ _ _ I)|].
    apply concat_repeat_flat, NN.
  - apply S in I. apply construct_message in I as (fuel' & els' & k' & r & -> & I & ->).
    apply (IH fuel' k' (p ++ "." ++ n)%string). intros x b J. apply in_app_or in J as [J|J]; [exfalso; eapply (B _ _ _ I); eauto|].
    now apply concat_repeat_In in J.
Qed.

Lemma write_no_message t : forall n x y, pr_write t n <> Ok (EMessage x y).
Proof.
  assert (SC : forall c f x y, set_card c f = EMessage x y -> f = EMessage x y) by (intros ? [] ? ? E; cbn in E; congruence).
  intros n x y H. destruct t as [c|c|c b s|c b|c b v|c b v|c v l va|c k v|c fs|c s|c ts|c rg]; cbn [pr_write] in H; try discriminate.
  - destruct s as [|[|]| | | | |]; try discriminate; destruct (int_of b); try discriminate;
      repeat (match type of H with (if ?x then _ else _) = _ => destruct x end); discriminate.
  - destruct (int_of b); try discriminate. repeat (match type of H with (if ?x then _ else _) = _ => destruct x end); discriminate.
  - destruct (int_of b); try discriminate. destruct (Z.leb _ _); discriminate.
  - destruct (int_of b); try discriminate. destruct (Z.leb _ _); discriminate.
  - apply rbind_Ok in H as (f & _ & H). destruct f; discriminate.
  - apply rbind_Ok in H as (f & _ & H). apply rbind_Ok in H as (g & _ & H). destruct (_ && _); discriminate.
  - destruct (c_alias c); discriminate.
  - destruct (c_alias c); discriminate.
  - change (pr_write (TUnion c ts) n = Ok (EMessage x y)) in H. rewrite write_union in H. apply rbind_Ok in H as (fs & _ & H).
    destruct (Nat.eqb _ _); [|discriminate]. destruct fs as [|f [|]]; try discriminate. destruct f; discriminate.
  - destruct (c_alias c); discriminate.
Qed.
Lemma fields_no_message fs : forall i ed, write_fields fs i = Ok ed -> forall x y, ~ In (EMessage x y) (fst ed).
Proof.
  induction fs as [|f r IH]; intros i ed W x y I; cbn [write_fields] in W; [injection W as <-; destruct I|].
  apply rbind_Ok in W as (e & We & W). apply rbind_Ok in W as (d & _ & W). apply rbind_Ok in W as (ed' & W' & W). injection W as <-.
  destruct I as [->|I]; [eapply write_no_message; eauto|eapply IH; eauto].
Qed.
Lemma pr_from_inv t f : pr_from t = Ok f -> exists D p, pr_gather t = Ok D /\ str_min (map fst D) = Some p /\
  forallb (fun d => String.prefix p (fst d)) D = true /\ f = FPackage p :: map FElement (pr_construct (name_bound D) D 1 p).
Proof.
  unfold pr_from. intros H. apply rbind_Ok in H as (D & G & H).
  assert (G' : pr_gather t = Ok D) by (destruct (c_alias (get_c t)); congruence).
  destruct (str_min _) as [p|] eqn:M; [|discriminate]. destruct (forallb _ _) eqn:F; [|discriminate]. injection H as <-. eauto 9.
Qed.
Lemma body_file p els : body (FPackage p :: map FElement els) = els.
Proof. unfold body. cbn. induction els; cbn; congruence. Qed.

Theorem numbers_unique t f : (forall c fs, node_of (TStruct c fs) t -> last_choice fs) ->
  pr_from t = Ok f -> forall m, inside (body f) m -> well_numbered m.
Proof.
  intros L H m I. apply pr_from_inv in H as (D & p & G & _ & _ & ->). rewrite body_file in I.
  eapply (inside_construct D well_numbered); eauto.
  - eapply gather_kinds; eauto.
  - eapply gather_bodies; eauto. intros c fs ed N W. split; [eapply last_choice_numbers; eauto|eapply fields_no_message; eauto].
  - intros a b [N F] E. split; rewrite flat_map_app, E, app_nil_r; auto.
Qed.

(** A choice that is not last: its second member has the number of the next field. *)
Lemma write_all_count ts : Forall plain ts -> forall n fs, write_all ts n = Ok fs ->
  flat_map numbers fs = seq n (length (others ts)).
Proof.
  induction 1 as [|x r P F IH]; intros n fs W; cbn [write_all others filter] in *; [injection W as <-; reflexivity|].
  destruct (is_null x); cbn [negb]; [eauto|]. apply rbind_Ok in W as (f & Wf & W). apply rbind_Ok in W as (fs' & W' & W). injection W as <-.
  cbn [flat_map length seq]. rewrite (IH _ _ W'), (plain_numbers _ P _ _ Wf). reflexivity.
Qed.
Lemma twice {A} (a : list A) y m x d : NoDup (a ++ y :: x :: m ++ x :: d) -> False.
Proof.
  induction a as [|z a IH]; cbn [app]; intros N; inversion N; subst; auto.
  inversion H2; subst. apply H3. apply in_or_app. right. now left.
Qed.
Theorem numbers_clash l c ts x r ed : Forall plain l -> Forall plain ts -> 2 <= length (others ts) -> plain x ->
  write_fields (l ++ TUnion c ts :: x :: r) 1 = Ok ed -> ~ NoDup (flat_map numbers (fst ed)).
Proof.
  intros F FT L P W ND. destruct (fields_numbers _ F _ _ _ W) as (els & ed' & E1 & E2 & E3). cbn [write_fields] in E3.
  apply rbind_Ok in E3 as (e & We & E3). apply rbind_Ok in E3 as (d & _ & E3). apply rbind_Ok in E3 as (ed2 & E3 & Q). injection Q as <-.
  apply rbind_Ok in E3 as (e2 & We2 & E3). apply rbind_Ok in E3 as (d2 & _ & E3). apply rbind_Ok in E3 as (ed3 & E3 & Q). injection Q as <-.
  rewrite E1, flat_map_app in ND. cbn [fst flat_map] in ND. rewrite (plain_numbers _ P _ _ We2) in ND.
  rewrite write_union in We. apply rbind_Ok in We as (fs & Wa & We). apply write_all_count in Wa; auto.
  destruct (Nat.eqb_spec (length (others ts)) 1); [lia|]. injection We as <-. cbn [numbers] in ND.
  rewrite Wa in ND. destruct (length (others ts)) as [|[|k]]; try lia. cbn [seq app] in ND.
  exact (twice _ _ _ _ _ ND).
Qed.

(** ** Lists *)
Theorem list_repeated c v l va n e : pr_write (TList c v l va) n = Ok e -> exists nm ty, e = EField nm n ty (Some Repeated).
Proof.
  intros W. destruct (write_list _ _ _ _ _ _ W) as (f & Wf & F & ->). destruct f as [nm k ty cd| | | | |]; try discriminate.
  assert (k = n).
  { clear W F. revert Wf. assert (X : forall t n nm k ty cd, pr_write t n = Ok (EField nm k ty cd) -> k = n).
    { clear. induction t as [c|c|c b s|c b|c b v|c b v|c v l va IH|c k v IHk IHv|c fs IH|c s|c ts IH|c r] using rtype_ind'; intros n nm i ty cd W;
        try (cbn [pr_write] in W; repeat (match type of W with
          | (if ?x then _ else _) = _ => destruct x
          | (match ?x with _ => _ end) = _ => destruct x end); congruence).
      - destruct (write_list _ _ _ _ _ _ W) as (f & Wf & F & E). destruct f; try discriminate. injection E as -> -> -> _. eauto.
      - cbn [pr_write] in W. apply rbind_Ok in W as (f & _ & W). apply rbind_Ok in W as (g & _ & W). destruct (_ && _); discriminate.
      - rewrite write_union in W. apply rbind_Ok in W as (fs & Wa & W). destruct (Nat.eqb_spec (length (others ts)) 1) as [L|]; [|discriminate].
        destruct (others ts) as [|x [|]] eqn:O; try discriminate. destruct (write_all_single _ _ _ _ O Wa) as (f & -> & Wf).
        destruct f; try discriminate. injection W as -> -> -> _. rewrite Forall_forall in IH. eapply IH; [|eassumption].
        assert (I : In x (others ts)) by (rewrite O; now left). apply filter_In in I. tauto. }
    apply X. }
  subst. exists nm, ty. reflexivity.
Qed.
Theorem nullable_list_lost t c v l va n e : just t (TList c v l va) -> pr_write t n = Ok e ->
  exists nm k ty, e = EField nm k ty (Some Optional).
Proof.
  intros J W. destruct (write_just _ _ _ _ J W) as (f & _ & F & ->). destruct f; try discriminate. cbn. eauto.
Qed.

(** ** Names *)
Definition named_field (t : rtype) (nm : pyval) : Prop := dget "name" (c_extra (get_c t)) = Some nm.
Theorem names_kept t nm n e : named_field t nm -> (forall c v l va, t <> TList c v l va) -> (forall x, ~ just t x) ->
  pr_write t n = Ok e -> element_name e = Some nm.
Proof.
  intros N NL NJ W. assert (FN : field_name t n = nm) by (unfold field_name, kwarg; now rewrite N).
  destruct t as [c|c|c b s|c b|c b v|c b v|c v l va|c k v|c fs|c s|c ts|c rg].
  7: { exfalso. eapply NL; reflexivity. }
  10: { rewrite write_union in W. apply rbind_Ok in W as (fs & _ & W). destruct (Nat.eqb_spec (length (others ts)) 1) as [L|].
       - destruct (others ts) as [|x [|]] eqn:O; try discriminate. exfalso. apply (NJ x). exists c, ts. auto.
       - injection W as <-. cbn. now rewrite FN. }
  7: { cbn [pr_write] in W. apply rbind_Ok in W as (f & _ & W). apply rbind_Ok in W as (g & _ & W). destruct (_ && _); [|discriminate].
       assert (E : e = EMapField (field_name (TMap c k v) n) n (type_of f) (type_of g)) by congruence. subst e. cbn. now rewrite <- FN. }
  all: cbn [pr_write] in W; rewrite ?FN in W;
    repeat (match type of W with
          | (if ?x then _ else _) = _ => destruct x
          | (match ?x with _ => _ end) = _ => destruct x end); try discriminate; injection W as <-; cbn; auto.
Qed.
(** The name of a nullable field is that of the type inside. *)
Theorem nullable_name_lost t x n e : just t x -> (forall c v l va, x <> TList c v l va) -> (forall y, ~ just x y) ->
  dget "name" (c_extra (get_c x)) = None -> pr_write t n = Ok e -> element_name e = Some (PStr ("field_" ++ dec n)).
Proof.
  intros J NL NJ N W. destruct (write_just _ _ _ _ J W) as (f & Wf & F & ->).
  assert (FN : field_name x n = PStr ("field_" ++ dec n)) by (unfold field_name, kwarg; now rewrite N).
  assert (element_name f = Some (field_name x n)).
  { clear W. destruct x as [c|c|c b s|c b|c b v|c b v|c v l va|c k v|c fs|c s|c ts|c rg].
    7: { exfalso. eapply NL; reflexivity. }
    10: { rewrite write_union in Wf. apply rbind_Ok in Wf as (fs & _ & W). destruct (Nat.eqb_spec (length (others ts)) 1) as [L|].
         - destruct (others ts) as [|x [|]] eqn:O; try discriminate. exfalso. apply (NJ x). exists c, ts. auto.
         - injection W as <-. reflexivity. }
    7: { cbn [pr_write] in Wf. apply rbind_Ok in Wf as (f1 & _ & W). apply rbind_Ok in W as (g & _ & W). destruct (_ && _); [|discriminate].
         injection W as <-. discriminate. }
    all: cbn [pr_write] in Wf;
      repeat (match type of Wf with
            | (if ?x then _ else _) = _ => destruct x
            | (match ?x with _ => _ end) = _ => destruct x end); try discriminate; injection Wf as <-; reflexivity. }
  destruct f; try discriminate. cbn in *. congruence.
Qed.

(** ** Integer ranges *)
Theorem write_range c b s n e : (0 < b)%Z -> pr_write (TInt c (PInt b) (PBool s)) n = Ok e ->
  exists nm ty r, e = EField nm n ty None /\ proto_range ty = Some r /\ within (recap_range b s) r.
Proof.
  intros B W. cbn [pr_write int_of] in W. assert (M : forall x y, (0 <= x <= y -> 2 ^ x <= 2 ^ y)%Z) by (intros; apply Z.pow_le_mono_r; lia).
  pose proof (Z.pow_pos_nonneg 2 b). pose proof (Z.pow_pos_nonneg 2 (b - 1)).
  destruct s; (destruct (Z.leb_spec b 32) as [L|L]; [|destruct (Z.leb_spec b 64) as [L'|L']; [|discriminate]]);
    injection W as <-; eexists _, _, _; (split; [reflexivity|]; split; [vm_compute; reflexivity|]);
    unfold within, recap_range; cbn [fst snd].
  - specialize (M (b - 1) 31)%Z. change (2 ^ 31)%Z with 2147483648%Z in M. lia.
  - specialize (M (b - 1) 63)%Z. change (2 ^ 63)%Z with 9223372036854775808%Z in M. lia.
  - specialize (M b 32)%Z. change (2 ^ 32)%Z with 4294967296%Z in M. lia.
  - specialize (M b 64)%Z. change (2 ^ 64)%Z with 18446744073709551616%Z in M. lia.
Qed.
Theorem read_range top ty r : proto_range ty = Some r ->
  exists b s, pr_type top ty = Ok (TInt c0 (PInt b) (PBool s)) /\ (0 < b)%Z /\ recap_range b s = r.
Proof.
  unfold proto_range. cbn [existsb]. intros H.
  repeat (match type of H with (if ?x then _ else _) = _ => destruct x eqn:?E end; [|]); try discriminate;
    repeat (match goal with E : (_ || _)%bool = true |- _ => apply orb_true_iff in E as [E|E] end); try discriminate;
    match goal with E : String.eqb ty _ = true |- _ => apply String.eqb_eq in E; subst ty end;
    injection H as <-; eexists _, _; (split; [vm_compute; reflexivity|split; [lia|vm_compute; reflexivity]]).
Qed.

(** ** Declarations *)
Lemma dot_in a b : substr_in "." (a ++ "." ++ b)%string = true.
Proof. apply DbapiFacts.substr_spec. eauto. Qed.
Lemma dotless_in n : dotless n -> substr_in "." n = false.
Proof.
  intros D. destruct (substr_in "." n) eqn:E; auto. apply DbapiFacts.substr_spec in E as (a & b & ->). destruct (D a b eq_refl).
Qed.
Lemma rsplit_app q n : dotless n -> rsplit_dot (q ++ "." ++ n)%string = (q, n).
Proof.
  intros D. induction q as [|c q IH].
  - change ("" ++ "." ++ n)%string with (String "." n). cbn [rsplit_dot]. rewrite (dotless_in n D). reflexivity.
  - change (String c q ++ "." ++ n)%string with (String c (q ++ "." ++ n)). cbn [rsplit_dot]. rewrite dot_in, IH. reflexivity.
Qed.
Lemma gather_node s t : node_of s t -> forall D, pr_gather t = Ok D -> exists d, pr_gather s = Ok d /\ incl d D.
Proof.
  induction 1 as [|t x I N IH]; intros D G; [exists D; split; auto; apply incl_refl|].
  enough (exists d, pr_gather x = Ok d /\ incl d D) as (d & Gd & S).
  { destruct (IH d Gd) as (d' & G' & S'). exists d'. split; auto. eapply incl_tran; eauto. }
  clear IH N. destruct t as [c|c|c b s0|c b|c b v|c b v|c v l va|c k v|c fs|c s0|c ts|c rg]; try (destruct I; fail).
  - destruct I as [<-|[]]. cbn [pr_gather] in G. exists D. split; auto. apply incl_refl.
  - cbn [pr_gather] in G. apply rbind_Ok in G as (d & Gd & G). apply rbind_Ok in G as (e & Ge & G). injection G as <-.
    destruct I as [<-|[<-|[]]]; [exists d|exists e]; split; auto; [apply incl_appl|apply incl_appr]; apply incl_refl.
  - rewrite gather_struct in G. destruct (c_alias c) as [| | | |a| |] eqn:A; try discriminate.
    destruct (substr_in "." a); [|discriminate]. destruct (rsplit_dot a) as [p n]. apply rbind_Ok in G as (ed & W & G). injection G as <-.
    cbn [children] in I. enough (exists d, pr_gather x = Ok d /\ incl d (snd ed)) as (d & ? & ?) by (exists d; split; auto; now apply incl_appl).
    revert ed W. generalize 1. induction fs as [|y l IH]; intros i ed W; [destruct I|]. cbn [write_fields] in W.
    apply rbind_Ok in W as (e & _ & W). apply rbind_Ok in W as (d & Gd & W). apply rbind_Ok in W as (ed' & W' & W). injection W as <-.
    destruct I as [->|I]; cbn [snd]; [exists d; split; auto; apply incl_appl, incl_refl|].
    destruct (IH I _ _ W') as (d' & ? & ?). exists d'. split; auto. now apply incl_appr.
  - rewrite gather_union in G. cbn [children] in I. revert D G. induction ts as [|y l IH]; intros D G; [destruct I|]. cbn [gather_all] in G.
    apply rbind_Ok in G as (d & Gd & G). apply rbind_Ok in G as (e & Ge & G). injection G as <-.
    destruct I as [->|I]; [exists d; split; auto; apply incl_appl, incl_refl|].
    destruct (IH I _ Ge) as (d' & ? & ?). exists d'. split; auto. now apply incl_appr.
Qed.
Lemma gather_declared s t D q n : node_of s t -> pr_gather t = Ok D -> dotless n -> aliased s (q ++ "." ++ n) ->
  ((exists c fs, s = TStruct c fs) -> exists m, In (q, EMessage n m) D) /\
  ((exists c x, s = TEnum c x) -> exists v, In (q, EEnum n v) D).
Proof.
  intros N G L A. destruct (gather_node _ _ N _ G) as (d & Gd & S). unfold aliased in A. split; intros (c & x & ->); cbn [get_c] in A.
  - rewrite gather_struct, A, dot_in, rsplit_app in Gd by auto. apply rbind_Ok in Gd as (ed & _ & E). injection E as <-.
    exists (fst ed). apply S, in_or_app. right. now left.
  - cbn [pr_gather] in Gd. rewrite A, dot_in, rsplit_app in Gd by auto. destruct x; try discriminate. injection Gd as <-.
    eexists. apply S. now left.
Qed.
Lemma bound_package D q e : In (q, e) D -> String.length q < name_bound D.
Proof.
  unfold name_bound. induction D as [|[p x] D IH]; intros []; cbn [fold_right fst]; [injection H as -> ->; lia|]. specialize (IH H). lia.
Qed.
Lemma construct_In fuel D k q e : In (q, e) D -> In (match e with
    | EMessage n els => EMessage n (els ++ concat (repeat (pr_construct fuel D (k * length (filter (is_message n) (in_package D q))) (q ++ "." ++ n)%string) k))
    | _ => e end) (pr_construct (S fuel) D k q).
Proof. intros I. cbn [pr_construct]. apply in_package_In in I. apply in_map_iff. exists e. split; [now destruct e|auto]. Qed.
Lemma concat_repeat_incl {A} (l : list A) k : 0 < k -> incl l (concat (repeat l k)).
Proof. destruct k; [lia|]. intros _ x I. cbn. apply in_or_app. now left. Qed.
Lemma length_app_s a b : String.length (a ++ b)%string = String.length a + String.length b.
Proof. induction a; cbn; auto. Qed.
Lemma scope_rooted t D p q : pr_gather t = Ok D -> rooted t p q ->
  exists els fuel k, scope p (pr_construct (name_bound D) D 1 p) q els /\ incl (pr_construct fuel D k q) els /\
    0 < k /\ name_bound D <= fuel + String.length q.
Proof.
  intros G. induction 1 as [|q n Rq IH L (c & fs & N & A)].
  - exists (pr_construct (name_bound D) D 1 p), (name_bound D), 1. split; [constructor|]. split; [apply incl_refl|]. lia.
  - destruct IH as (els & fuel & k & S & I & K & F).
    destruct (gather_declared _ _ _ _ _ N G L A) as [M _]. destruct M as [m M]; [eauto|]. pose proof (bound_package _ _ _ M) as B.
    destruct fuel as [|fuel]; [lia|]. pose proof (construct_In fuel D k q _ M) as C. cbn beta iota in C.
    eexists _, fuel, _. split; [eapply scope_in; [exact S|apply I; exact C]|]. split.
    + apply incl_appr. apply concat_repeat_incl; auto.
    + split; [|rewrite !length_app_s; cbn [String.length]; lia]. apply Nat.mul_pos_pos; auto.
      assert (X : In (EMessage n m) (filter (is_message n) (in_package D q))).
      { apply filter_In. split; [now apply in_package_In|]. cbn. apply String.eqb_refl. }
      destruct (filter _ _); [destruct X|cbn; lia].
Qed.
Lemma felement_inj l : forall l', map FElement l = map FElement l' -> l = l'.
Proof.
  induction l as [|x l IH]; intros [|y l'] E; try discriminate; [reflexivity|].
  cbn [map] in E. inversion E. f_equal. auto.
Qed.
Theorem declared_rooted t p els s q n : pr_from t = Ok (FPackage p :: map FElement els) -> node_of s t ->
  (exists c x, s = TStruct c x) \/ (exists c x, s = TEnum c x) -> aliased s (q ++ "." ++ n) -> dotless n -> rooted t p q ->
  declares (FPackage p :: map FElement els) (q ++ "." ++ n).
Proof.
  intros H N K A L Q. apply pr_from_inv in H as (D & p' & G & _ & _ & E). injection E as <- E.
  apply felement_inj in E.
  subst els. destruct (scope_rooted _ _ _ _ G Q) as (els & fuel & k & S & I & Kp & F).
  destruct (gather_declared _ _ _ _ _ N G L A) as [GM GE].
  eexists p, _, q, els, n. split; [reflexivity|]. split; [exact S|]. split; [reflexivity|].
  destruct K as [K|K].
  - left. destruct (GM K) as [m M]. pose proof (bound_package _ _ _ M) as B. destruct fuel as [|fuel]; [lia|].
    pose proof (construct_In fuel D k q _ M) as C. cbn beta iota in C. eexists. apply I, C.
  - right. destruct (GE K) as [v M]. pose proof (bound_package _ _ _ M) as B. destruct fuel as [|fuel]; [lia|].
    pose proof (construct_In fuel D k q _ M) as C. cbn beta iota in C. exists v. apply I, C.
Qed.
