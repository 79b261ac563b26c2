(** What processes that share a registry directory see of each other (proofs only). *)
From Coq Require Import String List ZArith Lia Bool Sorting.Sorted.
From Verif Require Import PyVal PyValFacts RType Registry FromDict ToDict Quote QuoteFacts Storage SpecStorage StorageFacts StorageMore
  Server ServerFacts CrashFacts Processes SpecProcesses ProcessFacts.
Import ListNotations.
Open Scope nat_scope.
Open Scope string_scope.
Open Scope list_scope.

(** Call [k] of a process, and how far it is. *)
Definition call (p : process) (k : nat) : option (op * (phase + answer)) :=
  match nth_error (finished p) k with
  | Some (o, a) => Some (o, inr a)
  | None => if Nat.eqb k (length (finished p))
            then match todo p with o :: _ => Some (o, inl (stands p)) | [] => None end
            else None
  end.
Definition inst (l : list process) (i k : nat) : option (op * (phase + answer)) :=
  match nth_error l i with Some p => call p k | None => None end.
Definition chosen (s : op * (phase + answer)) : option (string * Z) :=
  match s with
  | (OPut n _ _, inr (APut (Ok w))) | (OPut n _ _, inl (Putting w _)) => Some (n, w)
  | _ => None
  end.

Lemma call_current p o r : todo p = o :: r -> call p (length (finished p)) = Some (o, inl (stands p)).
Proof.
  intros T. unfold call. rewrite (proj2 (nth_error_None _ _)) by lia. now rewrite Nat.eqb_refl, T.
Qed.
Lemma call_after p o r x k : todo p = o :: r ->
  call (after p o r x) k =
  if Nat.eqb k (length (finished p)) then Some (o, x)
  else match x with
       | inr _ => if Nat.eqb k (S (length (finished p))) then match r with o' :: _ => Some (o', inl Begin) | [] => None end else call p k
       | inl _ => call p k
       end.
Proof.
  intros T. unfold call, after. destruct x as [ph|a]; simpl.
  - destruct (Nat.eqb_spec k (length (finished p))) as [->|NE].
    + now rewrite (proj2 (nth_error_None _ _)) by lia.
    + reflexivity.
  - rewrite app_length. simpl. rewrite Nat.add_1_r. destruct (Nat.eqb_spec k (length (finished p))) as [->|NE].
    + rewrite nth_error_app2, Nat.sub_diag by lia. reflexivity.
    + destruct (Nat.lt_ge_cases k (length (finished p))) as [LT|GE].
      * rewrite nth_error_app1 by auto. destruct (nth_error (finished p) k) as [[o' a']|] eqn:N.
        -- destruct (Nat.eqb_spec k (S (length (finished p)))); [lia|auto].
        -- apply nth_error_None in N. lia.
      * rewrite (proj2 (nth_error_None (finished p ++ _) _)) by (rewrite app_length; simpl; lia).
        rewrite (proj2 (nth_error_None (finished p) _)) by lia.
        destruct (Nat.eqb_spec k (S (length (finished p)))); auto.
Qed.

Section Step.
  Variables (l : list process) (j : nat) (p : process) (o : op) (r : list op) (x : phase + answer).
  Hypothesis (N : nth_error l j = Some p) (T : todo p = o :: r).
  Let l' := replace j (after p o r x) l.
  Let m := length (finished p).

  Lemma inst_current : inst l j m = Some (o, inl (stands p)).
  Proof. unfold inst. rewrite N. now apply (call_current _ _ r). Qed.
  Lemma inst_current' : inst l' j m = Some (o, x).
  Proof. unfold inst, l'. rewrite (nth_replace_eq _ _ _ _ N), (call_after _ _ _ _ _ T), Nat.eqb_refl. reflexivity. Qed.
  Lemma inst_cases i k s : inst l' i k = Some s ->
    (i = j /\ k = m /\ s = (o, x)) \/ (exists o', s = (o', inl Begin) /\ In o' r) \/ ((i, k) <> (j, m) /\ inst l i k = Some s).
  Proof.
    unfold inst, l'. intros H. destruct (Nat.eq_dec j i) as [<-|NE].
    - rewrite (nth_replace_eq _ _ _ _ N), (call_after _ _ _ _ _ T) in H. rewrite N.
      destruct (Nat.eqb_spec k (length (finished p))) as [->|NK]; [left; split; auto; split; auto; congruence|].
      assert (NJ : (j, k) <> (j, m)) by (unfold m; congruence).
      destruct x as [ph|a]; [right; right; auto|]. destruct (Nat.eqb_spec k (S (length (finished p)))); [|right; right; auto].
      destruct r as [|o' r']; [discriminate|]. injection H as <-. right. left. exists o'. simpl. auto.
    - rewrite nth_replace_ne in H by auto. right. right. split; [congruence|exact H].
  Qed.
  Lemma inst_other i k s : inst l i k = Some s -> (i, k) <> (j, m) -> inst l' i k = Some s.
  Proof.
    unfold inst, l'. intros H NE. destruct (Nat.eq_dec j i) as [<-|NI].
    - rewrite (nth_replace_eq _ _ _ _ N), (call_after _ _ _ _ _ T). rewrite N in H.
      destruct (Nat.eqb_spec k (length (finished p))) as [->|NK]; [unfold m in NE; congruence|].
      destruct x as [ph|a]; auto. destruct (Nat.eqb_spec k (S (length (finished p)))) as [->|]; auto.
      unfold call in H. rewrite (proj2 (nth_error_None _ _)) in H by lia.
      destruct (Nat.eqb_spec (S (length (finished p))) (length (finished p))); [lia|discriminate].
    - now rewrite nth_replace_ne by auto.
  Qed.
End Step.

Lemma begun_inst l i k n w : begun l i k n w <-> exists s, inst l i k = Some s /\ chosen s = Some (n, w).
Proof.
  unfold begun, inst. split.
  - intros (p & t & v & N & [H|(-> & H & r & E)]); rewrite N.
    + exists (OPut n t v, inr (APut (Ok w))). split; [|reflexivity]. unfold call. now rewrite H.
    + destruct (todo p) as [|o q] eqn:T; [discriminate|]. injection H as ->. rewrite (call_current p _ q T). eexists. split; [reflexivity|]. now rewrite E.
  - intros (s & H & C). destruct (nth_error l i) as [p|]; [|discriminate]. exists p. unfold call in H.
    destruct (nth_error (finished p) k) as [[o a]|] eqn:F.
    + injection H as <-. destruct o as [n' t v| | | |]; try discriminate. destruct a as [[w'|]| | | |]; try discriminate.
      injection C as -> ->. exists t, v. auto.
    + destruct (Nat.eqb_spec k (length (finished p))) as [->|]; [|discriminate].
      destruct (todo p) as [|o q]; [discriminate|]. injection H as <-.
      destruct o as [n' t v| | | |]; try discriminate. cbn [chosen] in C.
      destruct (stands p) as [|w' q'|] eqn:S; try discriminate. injection C as -> ->. exists t, v. split; auto. right. simpl. eauto 6.
Qed.
Lemma returned_inst l i k o a : returned l i k o a <-> inst l i k = Some (o, inr a).
Proof.
  unfold returned, inst, call. split.
  - intros (p & -> & ->). reflexivity.
  - destruct (nth_error l i) as [p|]; [|discriminate]. intros H. exists p. split; auto.
    destruct (nth_error (finished p) k) as [[o' a']|]; [congruence|].
    destruct (Nat.eqb k (length (finished p))); [destruct (todo p)|]; discriminate.
Qed.
Lemma not_begun_inst l i k : not_begun l i k -> inst l i k = None \/ exists o, inst l i k = Some (o, inl Begin).
Proof.
  intros (p & N & H). unfold inst, call. rewrite N. destruct H as [H|[-> H]].
  - rewrite (proj2 (nth_error_None _ _)) by lia. destruct (Nat.eqb_spec k (length (finished p))); [lia|auto].
  - rewrite (proj2 (nth_error_None _ _)) by lia. rewrite Nat.eqb_refl, H. destruct (todo p); eauto.
Qed.

Section Props.
  Variable root : path.
  Hypothesis root_valid : Forall valid_name root.
  Variable size : pyval -> nat.
  Notation file n w := (root ++ [quote_plus n; file_name w]).
  Notation Inv := (Inv root).
  Notation astep := (astep root size).

  Lemma begin_inst calls i k s : inst (map begin calls) i k = Some s -> exists o, s = (o, inl Begin) /\ In o (concat calls).
  Proof.
    unfold inst, call. destruct (nth_error (map begin calls) i) as [p|] eqn:N; [|discriminate].
    apply nth_error_In, in_map_iff in N as (l & <- & Hl). simpl. replace (nth_error [] k) with (@None (op * answer)) by now destruct k.
    destruct (Nat.eqb k 0); [|discriminate]. destruct l as [|o l]; [discriminate|]. intros [= <-]. exists o. split; auto.
    apply in_concat. exists (o :: l). simpl. auto.
  Qed.

  Lemma entry_other e h n w : (forall d, e <> Stored n w d) -> e <> Damaged n w -> entry (e :: h) n w = entry h n w.
  Proof.
    intros H1 H2. destruct e as [m u d|m u|m]; simpl; auto.
    - destruct (String.eqb_spec n m), (Z.eqb_spec w u); subst; simpl; auto. elim (H1 d). reflexivity.
    - destruct (String.eqb_spec n m), (Z.eqb_spec w u); subst; simpl; auto. elim H2. reflexivity.
  Qed.
  Lemma file_inj n w m u : file n w = file m u -> n = m /\ w = u.
  Proof.
    intros E. apply app_inv_head in E. injection E as E1 E2. apply quote_inj in E1. apply file_name_inj in E2. auto.
  Qed.

  (** *** What is read was stored *)
  Section Sound.
    Variables (h0 : list event) (calls : list (list op)).
    Definition source (n : string) (w : Z) (d : pyval) : Prop :=
      entry h0 n w = Some (Some d) \/
      exists t v, In (OPut n t v) (concat calls) /\ to_dict true true t = Ok d /\ (v = None \/ v = Some w).
    Definition good (o : op) (a : answer) : Prop :=
      match o, a with
      | OGet n v, AGet (Ok (Some (t, w))) => (v = None \/ v = Some w) /\ exists d, source n w d /\ parse d = Ok t
      | OGet n v, AGet (Ok None) => True
      | OGet n v, AGet (Err e) => e = JSONDecodeError \/ exists w d, (v = None \/ v = Some w) /\ source n w d /\ parse d = Err e
      | OPut n t v, APut (Ok w) => v = None \/ v = Some w
      | OPut n t v, APut (Err e) => to_dict true true t = Err e
      | OVersions _, AVersions (Ok _) | OLatest _, ALatest (Ok _) | OLs, ALs (Ok _) => True
      | _, _ => False
      end.
    Definition sound (h : list event) (L : list (path * nat)) (l : list process) : Prop :=
      (forall n w d, entry h n w = Some (Some d) -> source n w d) /\
      (forall p o, In p l -> In o (todo p) -> In o (concat calls)) /\
      (forall i k o a, inst l i k = Some (o, inr a) -> In o (concat calls) /\ good o a).

    Lemma answer_good h n v w : (forall n w d, entry h n w = Some (Some d) -> source n w d) -> (v = None \/ v = Some w) ->
      good (OGet n v) (AGet (answer_of parse h n w)).
    Proof.
      intros S V. unfold answer_of. destruct (entry h n w) as [[d|]|] eqn:E; simpl; auto.
      destruct (parse d) as [t|e] eqn:P; simpl.
      - split; auto. eauto.
      - right. exists w, d. eauto.
    Qed.

    Lemma sound_step h L l i p o r h' L' x : sound h L l -> Forall (proc_ok root h) l -> nth_error l i = Some p -> todo p = o :: r ->
      astep h L o (stands p) h' L' x -> sound h' L' (replace i (after p o r x) l).
    Proof.
      intros (S1 & S2 & S3) OK N T A. assert (IN : In o (concat calls)).
      { apply (S2 p); [eapply nth_error_In; eauto|]. rewrite T. simpl. auto. }
      pose proof (proj1 (Forall_forall _ _) OK p (nth_error_In _ _ N)) as [_ PT]. rewrite T in PT.
      split; [|split].
      - intros n w d E. inversion A; subst; eauto.
        + simpl in E. destruct (String.eqb n n0 && Z.eqb w w0)%bool; [discriminate|eauto].
        + simpl in E. destruct (String.eqb_spec n n0), (Z.eqb_spec w w0); simpl in E; eauto. injection E as ->. subst.
          right. exists t, v. split; auto.
          match goal with H : Putting _ _ = stands p |- _ => rewrite <- H in PT end.
          destruct PT as (d' & TD & V & LO). split; [|exact V]. rewrite TD. f_equal.
          destruct LO as [EA|[[[=] _]|[[[= E1] _]|[[=] _]]]]; [inversion EA|auto].
        + simpl in E. destruct (String.eqb n n0 && Z.eqb w w0)%bool; [discriminate|eauto].
      - intros q o' Hq Ho. apply In_nth_error in Hq as [k Hk]. apply (nth_replace_inv _ _ _ _ _ _ N) in Hk as [[_ ->]|[_ Hk]].
        + apply (S2 p); [eapply nth_error_In; eauto|]. rewrite T. destruct x; simpl in *; auto.
        + apply (S2 q); [eapply nth_error_In; eauto|auto].
      - intros i' k o' a H. destruct (inst_cases l i p o r x N T i' k _ H) as [(-> & -> & [= <- <-])|[(o1 & [=] & _)|[_ H']]]; [|eauto].
        split; auto. inversion A; subst; try exact Logic.I; auto using answer_good.
        match goal with H : Putting _ _ = stands p |- _ => rewrite <- H in PT end. now destruct PT as (d' & _ & V & _).
    Qed.
  End Sound.

  Lemma sound_run fs h calls sched : Inv fs h -> Forall (Forall op_ok) calls ->
    exists h' L, sound h calls h' L (snd (run root size sched (system_of fs calls))).
  Proof.
    intros I OK. unfold system_of.
    destruct (run_ind root root_valid size (sound h calls)) with (sched := sched) (fs := fs) (L := @nil (path * nat)) (h := h) (l := map begin calls) as (h' & _ & _ & S).
    - intros. eapply sound_step; eauto.
    - exact I.
    - now apply begin_ok.
    - split; [|split].
      + intros n w d E. now left.
      + intros p o Hp Ho. apply in_map_iff in Hp as (l & <- & Hl). apply in_concat. eauto.
      + intros i k o a H. apply begin_inst in H as (o' & [=] & _).
    - eauto.
  Qed.

  (** *** A put that nobody else overwrites stays *)
  Definition kept (h : list event) (L : list (path * nat)) (s : op * (phase + answer)) : Prop :=
    match s with
    | (OPut n t v, inr (APut (Ok w))) => forall d, to_dict true true t = Ok d -> entry h n w = Some (Some d)
    | (OPut n t v, inl (Putting w [])) => forall d, to_dict true true t = Ok d -> entry h n w = Some (Some d)
    | (OPut n t v, inl (Putting w [Write _ _])) => text_len (file n w) L = 0
    | _ => True
    end.
  Definition durable (h : list event) (L : list (path * nat)) (l : list process) : Prop :=
    forall i k s n w, inst l i k = Some s -> chosen s = Some (n, w) ->
      (exists i' k' s', (i', k') <> (i, k) /\ inst l i' k' = Some s' /\ chosen s' = Some (n, w)) \/ kept h L s.

  (** The accesses of a put touch its own file only. *)
  Lemma astep_chosen h L o ph h' L' x n w : astep h L o ph h' L' x -> chosen (o, inl ph) <> Some (n, w) ->
    entry h' n w = entry h n w /\ text_len (file n w) L' = text_len (file n w) L.
  Proof.
    intros A C. inversion A; subst; try (split; reflexivity); cbn [chosen] in C.
    - split; [apply entry_other; intros; congruence|]. simpl. destruct (path_eqb_spec (file n w) (file n0 w0)) as [E|]; auto.
      apply file_inj in E as [-> ->]. congruence.
    - split; [apply entry_other; intros; congruence|]. simpl. destruct (path_eqb_spec (file n w) (file n0 w0)) as [E|]; auto.
      apply file_inj in E as [-> ->]. congruence.
    - split; [|auto]. apply entry_other; intros; congruence.
  Qed.
  Lemma kept_same h L h' L' s n w : chosen s = Some (n, w) -> entry h' n w = entry h n w ->
    text_len (file n w) L' = text_len (file n w) L -> kept h L s -> kept h' L' s.
  Proof.
    intros C E1 E2. destruct s as [[n' t v| | | |] [[|w' l|]|[[w'|]| | | |]]]; simpl in *; auto; injection C as -> ->.
    - destruct l as [|[| |] [|]]; rewrite ?E1, ?E2; auto.
    - rewrite E1. auto.
  Qed.
  Lemma chosen_later h L o ph h' L' x n w : astep h L o ph h' L' x -> chosen (o, inl ph) = Some (n, w) -> chosen (o, x) = Some (n, w).
  Proof. intros A C. inversion A; subst; simpl in *; auto; discriminate. Qed.

  Lemma early_kept h L n t v w d l : early root n w d l -> kept h L (OPut n t v, inl (Putting w l)).
  Proof. intros E. inversion E as [p l' _ E'|]; subst; exact Logic.I. Qed.
  Lemma early_rest n w d p l : early root n w d (Mkdir p :: l) -> early root n w d l \/ l = [OpenW (file n w); Write (file n w) d].
  Proof. intros E. inversion E; subst; auto. Qed.
  Lemma astep_kept h L o ph h' L' x : astep h L o ph h' L' x -> phase_ok root h o ph -> op_ok o ->
    (chosen (o, inl ph) <> None -> kept h L (o, inl ph)) -> kept h' L' (o, x).
  Proof.
    intros A PT OO K. destruct A; try exact Logic.I; cbn [chosen phase_ok] in *;
      try (specialize (K ltac:(discriminate)); destruct PT as (d' & TD & _ & LO)).
    - apply (early_kept _ _ _ _ _ _ d). now apply put_list_early.
    - destruct LO as [EA|[[[=] _]|[[[=] _]|[[=] _]]]]. apply early_rest in EA as [EA| ->]; [now apply (early_kept _ _ _ _ _ _ d')|exact Logic.I].
    - destruct LO as [EA|[[[=] _]|[[[=] _]|[[=] _]]]]. apply early_rest in EA as [EA| ->]; [now apply (early_kept _ _ _ _ _ _ d')|exact Logic.I].
    - destruct LO as [EA|[[[= ->] _]|[[[=] _]|[[=] _]]]]; [inversion EA|]. simpl. now rewrite path_eqb_refl.
    - destruct LO as [EA|[[[=] _]|[[[= -> ->] _]|[[=] _]]]]; [inversion EA|]. intros d Hd. rewrite TD in Hd. injection Hd as <-.
      simpl. now rewrite String.eqb_refl, Z.eqb_refl.
    - destruct LO as [EA|[[[=] _]|[[[= -> ->] _]|[[=] _]]]]; [inversion EA|]. cbn [kept] in K. lia.
    - exact K.
  Qed.

  Lemma durable_step h L l i p o r h' L' x : durable h L l -> Forall (proc_ok root h) l -> nth_error l i = Some p -> todo p = o :: r ->
    astep h L o (stands p) h' L' x -> durable h' L' (replace i (after p o r x) l).
  Proof.
    intros D OK N T A i0 k0 s n w H C.
    pose proof (proj1 (Forall_forall _ _) OK p (nth_error_In _ _ N)) as [OT PT]. rewrite T in OT, PT.
    inversion OT as [|? ? OO _]; subst.
    assert (M : forall i' k' s', (i', k') <> (i0, k0) -> inst l i' k' = Some s' -> chosen s' = Some (n, w) ->
      exists i'' k'' s'', (i'', k'') <> (i0, k0) /\ inst (replace i (after p o r x) l) i'' k'' = Some s'' /\ chosen s'' = Some (n, w)).
    { intros i' k' s' NE Hs Cs. destruct (Nat.eq_dec i' i) as [->|NI]; [destruct (Nat.eq_dec k' (length (finished p))) as [->|NK]|].
      - exists i, (length (finished p)), (o, x). split; auto. split; [now apply (inst_current' l i p o r x N T)|].
        rewrite (inst_current l i p o r N T) in Hs. injection Hs as <-. eapply chosen_later; eauto.
      - exists i, k', s'. split; auto. split; auto. apply (inst_other l i p o r x N T); auto. congruence.
      - exists i', k', s'. split; auto. split; auto. apply (inst_other l i p o r x N T); auto. congruence. }
    destruct (inst_cases l i p o r x N T i0 k0 _ H) as [(-> & -> & ->)|[(o1 & -> & _)|[NE H']]].
    - (* the call that made the access *)
      destruct (chosen (o, inl (stands p))) as [[n' w']|] eqn:CO.
      + pose proof (chosen_later _ _ _ _ _ _ _ _ _ A CO) as CL. rewrite CL in C. injection C as -> ->.
        destruct (D i _ _ n w (inst_current l i p o r N T) CO) as [(i' & k' & s' & NE' & Hs & Cs)|K]; [left; eauto|].
        right. apply (astep_kept _ _ _ _ _ _ _ A PT OO). auto.
      + right. apply (astep_kept _ _ _ _ _ _ _ A PT OO). congruence.
    - destruct o1; discriminate.
    - destruct (D i0 k0 s n w H' C) as [(i' & k' & s' & NE' & Hs & Cs)|K]; [left; eauto|].
      destruct (chosen (o, inl (stands p))) as [[n' w']|] eqn:CO.
      + destruct (string_dec n' n) as [->|]; [destruct (Z.eq_dec w' w) as [->|]|].
        * left. apply (M i (length (finished p)) (o, inl (stands p))); auto. now apply (inst_current l i p o r N T).
        * right. destruct (astep_chosen _ _ _ _ _ _ _ n w A) as [E1 E2]; [congruence|]. eapply kept_same; eauto.
        * right. destruct (astep_chosen _ _ _ _ _ _ _ n w A) as [E1 E2]; [congruence|]. eapply kept_same; eauto.
      + right. destruct (astep_chosen _ _ _ _ _ _ _ n w A) as [E1 E2]; [congruence|]. eapply kept_same; eauto.
  Qed.

  Lemma durable_run fs h calls sched i k n t v w d : Inv fs h -> Forall (Forall op_ok) calls -> valid_name n ->
    let (dk, l) := run root size sched (system_of fs calls) in
    returned l i k (OPut n t v) (APut (Ok w)) -> (forall i' k', begun l i' k' n w -> (i', k') = (i, k)) -> to_dict true true t = Ok d ->
    get root (fst dk) n (Some w) = match parse d with Ok t' => Ok (Some (t', w)) | Err e => Err e end.
  Proof.
    intros I OK V. unfold system_of.
    destruct (run_ind root root_valid size durable) with (sched := sched) (fs := fs) (L := @nil (path * nat)) (h := h) (l := map begin calls) as (h' & I' & _ & S).
    - intros. eapply durable_step; eauto.
    - exact I.
    - now apply begin_ok.
    - intros i0 k0 s n0 w0 H C. apply begin_inst in H as (o & -> & _). destruct o; discriminate.
    - destruct (run root size sched (fs, [], map begin calls)) as [dk l]. cbn [fst snd] in *. intros R U TD.
      apply returned_inst in R. destruct (S i k _ n w R eq_refl) as [(i' & k' & s' & NE & Hs & Cs)|K].
      + elim NE. apply U. apply begun_inst. eauto.
      + simpl. rewrite (get_version_spec root root_valid _ _ _ _ I' V). unfold answer_of. cbn [kept] in K. now rewrite (K d TD).
  Qed.

  (** *** Versions follow the order of calls *)
  Definition shown_put (h : list event) (L : list (path * nat)) (l : list process) : Prop :=
    forall i k n t v w, inst l i k = Some (OPut n t v, inr (APut (Ok w))) -> present h n w.
  Lemma present_later h h' n w : h' = h \/ (exists e, h' = e :: h) -> present h n w -> present h' n w.
  Proof. intros [->|[e ->]]; auto using present_cons. Qed.
  Lemma shown_step h L l i p o r h' L' x : shown_put h L l -> Forall (proc_ok root h) l -> nth_error l i = Some p -> todo p = o :: r ->
    astep h L o (stands p) h' L' x -> shown_put h' L' (replace i (after p o r x) l).
  Proof.
    intros D OK N T A i0 k n t v w H. pose proof (astep_events _ _ _ _ _ _ _ _ _ A) as LT.
    destruct (inst_cases l i p o r x N T i0 k _ H) as [(-> & -> & [= <- <-])|[(o1 & [=] & _)|[_ H']]].
    - inversion A; subst. pose proof (proj1 (Forall_forall _ _) OK p (nth_error_In _ _ N)) as [_ PT]. rewrite T in PT.
      match goal with E : Putting _ _ = stands p |- _ => rewrite <- E in PT end.
      destruct PT as (d' & _ & _ & [EA|[[[=] _]|[[[=] _]|[_ P]]]]); [inversion EA|exact P].
    - eapply present_later; eauto.
  Qed.
  Definition above (j k : nat) (n : string) (w : Z) (h : list event) (L : list (path * nat)) (l : list process) : Prop :=
    present h n w /\ forall t s, inst l j k = Some (OPut n t None, s) -> forall w', chosen (OPut n t None, s) = Some (n, w') -> (w < w')%Z.
  Lemma above_step j k n w h L l i p o r h' L' x : above j k n w h L l -> Forall (proc_ok root h) l -> nth_error l i = Some p -> todo p = o :: r ->
    astep h L o (stands p) h' L' x -> above j k n w h' L' (replace i (after p o r x) l).
  Proof.
    intros [P D] OK N T A. split; [exact (present_later _ _ _ _ (astep_events _ _ _ _ _ _ _ _ _ A) P)|].
    intros t s H w' C. destruct (inst_cases l i p o r x N T j k _ H) as [(-> & -> & [= <- <-])|[(o1 & [= <- ->] & _)|[_ H']]]; [|discriminate|eauto].
    destruct (chosen (OPut n t None, inl (stands p))) as [[n' w1]|] eqn:CO.
    - pose proof (chosen_later _ _ _ _ _ _ _ _ _ A CO) as CL. rewrite CL in C. injection C as -> ->.
      eapply D; [now apply (inst_current l i p _ r N T)|exact CO].
    - inversion A; subst; cbn [chosen] in *; try discriminate;
          try (match goal with E : Putting _ _ = stands p |- _ => rewrite <- E in CO end; discriminate).
      injection C as <-. match goal with TG : target _ _ _ _ |- _ => inversion TG as [Q|u [_ Q]]; subst end.
      + elim (Q w P).
      + apply Q in P. lia.
  Qed.

  Lemma run_app a b s : run root size (a ++ b) s = run root size b (run root size a s).
  Proof. revert s. induction a as [|i a IH]; intros s; simpl; auto. Qed.

  Lemma ordered_run fs h calls a b i k j k' n t v w t' w' : Inv fs h -> Forall (Forall op_ok) calls ->
    let s1 := run root size a (system_of fs calls) in
    let s2 := run root size b s1 in
    returned (snd s1) i k (OPut n t v) (APut (Ok w)) -> not_begun (snd s1) j k' ->
    returned (snd s2) j k' (OPut n t' None) (APut (Ok w')) -> (w < w')%Z.
  Proof.
    intros I OK s1 s2 R NB R2.
    destruct (run_ind root root_valid size shown_put) with (sched := a) (fs := fs) (L := @nil (path * nat)) (h := h) (l := map begin calls) as (h1 & I1 & O1 & S1).
    { intros. eapply shown_step; eauto. }
    { exact I. }
    { now apply begin_ok. }
    { intros i0 k0 n0 t0 v0 w0 H. apply begin_inst in H as (o & [=] & _). }
    fold (system_of fs calls) in I1, O1, S1. fold s1 in I1, O1, S1.
    unfold s2 in R2. destruct s1 as [[fs1 L1] l1]. cbn [fst snd] in *.
    destruct (run_ind root root_valid size (above j k' n w)) with (sched := b) (fs := fs1) (L := L1) (h := h1) (l := l1) as (h2 & _ & _ & [_ S2]); auto.
    { intros. eapply above_step; eauto. }
    { split; [apply returned_inst in R; eapply S1; eauto|]. intros t0 s H w0 C.
      destruct (not_begun_inst _ _ _ NB) as [E|[o E]]; rewrite E in H; [discriminate|]. injection H as -> <-. discriminate. }
    apply returned_inst in R2. eapply S2; eauto.
  Qed.

  (** *** In terms of calls *)
  Lemma source_put h calls n w d : source h calls n w d -> entry h n w = Some (Some d) \/ some_put calls n w d.
  Proof.
    intros [H|(t & v & IN & H)]; auto. right. apply in_concat in IN as (l & Hl & IN). exists l, t, v. auto.
  Qed.
  Lemma called_ok calls o : Forall (Forall op_ok) calls -> In o (concat calls) -> op_ok o.
  Proof.
    intros F IN. apply in_concat in IN as (l & Hl & IN). pose proof (proj1 (Forall_forall _ _) F l Hl) as F'.
    exact (proj1 (Forall_forall _ _) F' o IN).
  Qed.
  Lemma get_sound fs calls sched i k n v t w : reachable root fs -> Forall (Forall op_ok) calls ->
    returned (snd (run root size sched (system_of fs calls))) i k (OGet n v) (AGet (Ok (Some (t, w)))) ->
    (v = None \/ v = Some w) /\
    (get root fs n (Some w) = Ok (Some (t, w)) \/ exists d, some_put calls n w d /\ snd (from_dict_new d) = Ok t).
  Proof.
    intros RE OK R. destruct (reachable_inv root fs root_valid RE) as [h I].
    destruct (sound_run fs h calls sched I OK) as (h' & L & _ & _ & S). apply returned_inst in R.
    destruct (S _ _ _ _ R) as [IN (V & d & SO & P)]. split; auto.
    pose proof (called_ok _ _ OK IN) as VN. apply source_put in SO as [E|SO]; [|eauto].
    left. simpl. rewrite (get_version_spec root root_valid _ _ _ _ I VN). unfold answer_of. now rewrite E, P.
  Qed.
  Lemma failures_sound fs calls sched i k o a e : reachable root fs -> Forall (Forall op_ok) calls ->
    returned (snd (run root size sched (system_of fs calls))) i k o a -> failure a = Some e ->
    match o with
    | OPut n t v => to_dict true true t = Err e
    | OGet n v => e = JSONDecodeError \/ (exists w, get root fs n (Some w) = Err e) \/
                  exists w d, some_put calls n w d /\ snd (from_dict_new d) = Err e
    | _ => False
    end.
  Proof.
    intros RE OK R FE. destruct (reachable_inv root fs root_valid RE) as [h I].
    destruct (sound_run fs h calls sched I OK) as (h' & L & _ & _ & S). apply returned_inst in R.
    destruct (S _ _ _ _ R) as [IN G]. pose proof (called_ok _ _ OK IN) as VN.
    destruct o as [n t v|n v|n|n|], a as [[|]|[[[]|]|]|[|]|[|]|[|]]; try discriminate FE; try contradiction G; injection FE as ->; auto.
    destruct G as [->|(w & d & _ & SO & P)]; auto. right. apply source_put in SO as [E|SO]; [|eauto].
    left. exists w. simpl. rewrite (get_version_spec root root_valid _ _ _ _ I VN). unfold answer_of. now rewrite E, P.
  Qed.
  Lemma given_version fs calls sched i k n t v w : reachable root fs -> Forall (Forall op_ok) calls ->
    returned (snd (run root size sched (system_of fs calls))) i k (OPut n t (Some v)) (APut (Ok w)) -> w = v.
  Proof.
    intros RE OK R. destruct (reachable_inv root fs root_valid RE) as [h I].
    destruct (sound_run fs h calls sched I OK) as (h' & L & _ & _ & S). apply returned_inst in R.
    destruct (S _ _ _ _ R) as [_ [[=]|[= ->]]]. reflexivity.
  Qed.
  Lemma order_kept fs calls a b i k j k' n t v w t' w' : reachable root fs -> Forall (Forall op_ok) calls ->
    let s1 := run root size a (system_of fs calls) in
    let s2 := run root size b s1 in
    returned (snd s1) i k (OPut n t v) (APut (Ok w)) -> not_begun (snd s1) j k' ->
    returned (snd s2) j k' (OPut n t' None) (APut (Ok w')) -> (w < w')%Z.
  Proof. intros RE OK. destruct (reachable_inv root fs root_valid RE) as [h I]. now apply (ordered_run fs h). Qed.
  Lemma put_kept fs calls sched i k n t v w d : reachable root fs -> Forall (Forall op_ok) calls -> valid_name n ->
    let s := run root size sched (system_of fs calls) in
    returned (snd s) i k (OPut n t v) (APut (Ok w)) -> (forall i' k', begun (snd s) i' k' n w -> (i', k') = (i, k)) ->
    to_dict true true t = Ok d ->
    get root (fst (fst s)) n (Some w) = match snd (from_dict_new d) with Ok t' => Ok (Some (t', w)) | Err e => Err e end.
  Proof.
    intros RE OK V s. destruct (reachable_inv root fs root_valid RE) as [h I].
    pose proof (durable_run fs h calls sched i k n t v w d I OK V) as X. fold s in X. destruct s as [dk l]. exact X.
  Qed.
  Lemma reachable_root fs : reachable root fs -> root_exists root fs.
  Proof. intros RE. destruct (reachable_inv root fs root_valid RE) as [h I]. exact (inv_root _ _ _ I). Qed.

  (** *** A put that returned is read by gets that begin later *)
  Definition expected (d : pyval) (w : Z) : answer := AGet (match parse d with Ok t' => Ok (Some (t', w)) | Err e => Err e end).
  Definition readable (i k j k' : nat) (n : string) (t : rtype) (v : option Z) (w : Z) (d : pyval)
      (h : list event) (L : list (path * nat)) (l : list process) : Prop :=
    durable h L l /\ inst l i k = Some (OPut n t v, inr (APut (Ok w))) /\
    forall a, inst l j k' = Some (OGet n (Some w), inr a) ->
      (exists i' k' s', (i', k') <> (i, k) /\ inst l i' k' = Some s' /\ chosen s' = Some (n, w)) \/ a = expected d w.
  Lemma others_later h L l i p o r h' L' x i0 k0 n w : nth_error l i = Some p -> todo p = o :: r -> astep h L o (stands p) h' L' x ->
    (exists i' k' s', (i', k') <> (i0, k0) /\ inst l i' k' = Some s' /\ chosen s' = Some (n, w)) ->
    exists i' k' s', (i', k') <> (i0, k0) /\ inst (replace i (after p o r x) l) i' k' = Some s' /\ chosen s' = Some (n, w).
  Proof.
    intros N T A (i' & k' & s' & NE & Hs & Cs). destruct (Nat.eq_dec i' i) as [->|NI]; [destruct (Nat.eq_dec k' (length (finished p))) as [->|NK]|].
    - exists i, (length (finished p)), (o, x). split; auto. split; [now apply (inst_current' l i p o r x N T)|].
      rewrite (inst_current l i p o r N T) in Hs. injection Hs as <-. eapply chosen_later; eauto.
    - exists i, k', s'. split; auto. split; auto. apply (inst_other l i p o r x N T); auto. congruence.
    - exists i', k', s'. split; auto. split; auto. apply (inst_other l i p o r x N T); auto. congruence.
  Qed.
  Lemma readable_step i k j k' n t v w d : to_dict true true t = Ok d -> forall h L l i0 p o r h' L' x,
    readable i k j k' n t v w d h L l -> Forall (proc_ok root h) l -> nth_error l i0 = Some p -> todo p = o :: r ->
    astep h L o (stands p) h' L' x -> readable i k j k' n t v w d h' L' (replace i0 (after p o r x) l).
  Proof.
    intros TD h L l i0 p o r h' L' x (D & PI & G) OK N T A. split; [eapply durable_step; eauto|].
    split.
    - apply (inst_other l i0 p o r x N T); auto. intros [= -> ->]. rewrite (inst_current l i0 p o r N T) in PI. discriminate.
    - intros a H. destruct (inst_cases l i0 p o r x N T j k' _ H) as [(-> & -> & [= <- <-])|[(o1 & [=] & _)|[_ H']]].
      + destruct (D i k _ n w PI eq_refl) as [OT|K]; [left; eapply others_later; eauto|right].
        inversion A; subst. unfold expected, answer_of. cbn [kept] in K. now rewrite (K d TD).
      + destruct (G a H') as [OT| ->]; auto. left. eapply others_later; eauto.
  Qed.
  Lemma put_read fs calls b1 b2 i k j k' n t v w d a : reachable root fs -> Forall (Forall op_ok) calls ->
    let s1 := run root size b1 (system_of fs calls) in
    let s2 := run root size b2 s1 in
    returned (snd s1) i k (OPut n t v) (APut (Ok w)) -> not_begun (snd s1) j k' ->
    returned (snd s2) j k' (OGet n (Some w)) a ->
    (forall i' k', begun (snd s2) i' k' n w -> (i', k') = (i, k)) -> to_dict true true t = Ok d ->
    a = AGet (match snd (from_dict_new d) with Ok t' => Ok (Some (t', w)) | Err e => Err e end).
  Proof.
    intros RE OK s1 s2 R NB R2 U TD. destruct (reachable_inv root fs root_valid RE) as [h I].
    destruct (run_ind root root_valid size durable) with (sched := b1) (fs := fs) (L := @nil (path * nat)) (h := h) (l := map begin calls) as (h1 & I1 & O1 & D1).
    { intros. eapply durable_step; eauto. }
    { exact I. }
    { now apply begin_ok. }
    { intros i0 k0 s n0 w0 H C. apply begin_inst in H as (o & -> & _). destruct o; discriminate. }
    fold (system_of fs calls) in I1, O1, D1. fold s1 in I1, O1, D1. unfold s2 in R2, U. destruct s1 as [[fs1 L1] l1]. cbn [fst snd] in *.
    destruct (run_ind root root_valid size (readable i k j k' n t v w d)) with (sched := b2) (fs := fs1) (L := L1) (h := h1) (l := l1) as (h2 & _ & _ & (_ & _ & G)); auto.
    { intros. eapply readable_step; eauto. }
    { split; auto. split; [now apply returned_inst|]. intros a0 H.
      destruct (not_begun_inst _ _ _ NB) as [E|[o E]]; rewrite E in H; discriminate. }
    apply returned_inst in R2. destruct (G a R2) as [(i' & k1 & s' & NE & Hs & Cs)|E]; [|exact E].
    elim NE. apply U. apply begun_inst. eauto.
  Qed.
End Props.
