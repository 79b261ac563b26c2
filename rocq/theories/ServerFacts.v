(** Facts about the server (proofs only). *)
From Coq Require Import String List ZArith Lia Bool.
From Verif Require Import PyVal PyValFacts RType Registry FromDict ToDict Quote Storage SpecStorage StorageFacts StorageMore Server.
Import ListNotations.
Open Scope nat_scope.
Open Scope string_scope.
Open Scope list_scope.

Lemma present_cons e h n v : present h n v -> present (e :: h) n v.
Proof.
  unfold present. intros H. destruct e as [m w d|m w|m]; simpl; auto;
    destruct (String.eqb n m && Z.eqb v w)%bool; congruence.
Qed.
Lemma present_stored n v d h : present (Stored n v d :: h) n v.
Proof. unfold present. simpl. rewrite String.eqb_refl, Z.eqb_refl. discriminate. Qed.
Lemma next_fresh h n v : next_version h n v -> ~ present h n v.
Proof.
  intros [H|w [_ H]] P.
  - now apply (H 1%Z).
  - apply H in P. lia.
Qed.

(** The disks a registry can leave behind: created, used, crashed, any number of times. *)
Definition reachable (root : path) (fs : fsys) : Prop :=
  exists fs0 l, fresh_root root fs0 /\ Forall cop_ok l /\ fs = fst (run_cops root (fst (init root fs0)) l).

Lemma reachable_inv root fs : Forall valid_name root -> reachable root fs -> exists h, Inv root fs h.
Proof.
  intros R (fs0 & l & F & OK & ->). destruct (init_inv root fs0 F) as (fs1 & E & I). rewrite E. simpl.
  destruct (crefine_run root R l fs1 [] I OK) as (h & Ih & _). eauto.
Qed.
Lemma reachable_step root fs c : reachable root fs -> cop_ok c -> reachable root (fst (run_cop root fs c)).
Proof.
  intros (fs0 & l & F & OK & ->) C. exists fs0, (l ++ [c]). split; auto. split; [apply Forall_app; auto|].
  generalize (fst (init root fs0)). induction l as [|o l IH]; intros f; simpl.
  - destruct (run_cop root f c) as [f' a]. reflexivity.
  - inversion OK; subst. destruct (run_cop root f o) as [f' a]. specialize (IH H2 f').
    destruct (run_cops root f' l) as [f2 az], (run_cops root f' (l ++ [c])) as [f3 az3]. simpl in *. auto.
Qed.

Definition request_name (q : request) : option string :=
  match q with
  | QLs => None
  | QLatest n | QVersions n | QVersion n _ | QPost n _ _ | QPut n _ _ _ => Some n
  end.
Definition request_ok (q : request) : Prop := match request_name q with Some n => valid_name n | None => True end.

Section Facts.
  Variable root : path.
  Hypothesis root_valid : Forall valid_name root.

  Lemma put_inv fs h n t v : Inv root fs h -> valid_name n ->
    (exists e, put root fs n t v = (fs, Err e)) \/
    (exists w d fs', put root fs n t v = (fs', Ok w) /\ target h n v w /\ Inv root fs' (Stored n w d :: h)).
  Proof.
    intros I V. unfold put, put_plan.
    destruct (put_version_spec root root_valid fs h n v I V) as (w & -> & T). cbn [rbind].
    destruct (to_dict true true t) as [d|e]; cbn [rbind]; [|left; eauto].
    right. rewrite (put_steps root root_valid fs h n w d I V). exists w, d. eexists. split; [reflexivity|].
    split; auto. now apply inv_written.
  Qed.

  (** Running a handler: at most one version is added; a POST that ends adds a fresh one. *)
  Lemma resume_inv fs h q l fs' l' : Inv root fs h -> request_ok q -> resume root fs q l = (fs', l') ->
    (fs' = fs /\ (forall w, l' = Done (RVersion w) -> l = Done (RVersion w))) \/
    (exists n w d v, Inv root fs' (Stored n w d :: h) /\ target h n v w /\ l = Reading /\ l' = Done (RVersion w) /\
       match q with QPost m _ _ => m = n /\ v = None | QPut m u _ _ => m = n /\ v = Some u | _ => False end).
  Proof.
    intros I OK E.
    assert (NF : forall e w, failure e <> RVersion w) by (destruct e; discriminate).
    assert (NT : forall r w, type_reply r <> RVersion w).
    { intros [[[t v]|]|e] w; simpl; try discriminate; auto. destruct (to_dict true true t); [discriminate|auto]. }
    assert (FP : forall n b v, valid_name n -> finish_put root fs n b v = (fs', l') ->
      (fs' = fs /\ (forall w, l' = Done (RVersion w) -> Reading = Done (RVersion w))) \/
      (exists w d, Inv root fs' (Stored n w d :: h) /\ target h n v w /\ l' = Done (RVersion w))).
    { intros n b v V F. unfold finish_put in F. destruct (body_type b) as [t|e].
      - destruct (put_inv fs h n t v I V) as [[e P]|(w & d & f & P & T & I')]; rewrite P in F; injection F as <- <-.
        + left. split; auto. intros w [= X]. now apply NF in X.
        + right. eauto 6.
      - injection F as <- <-. left. split; auto. intros w [= X]. now apply NF in X. }
    unfold request_ok in OK. destruct l; simpl in E.
    - left. destruct q as [|n|n|n v|n ct b|n v ct b]; simpl in E.
      + injection E as <- <-. split; auto. intros w [= X]. destruct (ls root fs); [discriminate|now apply NF in X].
      + injection E as <- <-. split; auto. intros w [= X]. now apply NT in X.
      + injection E as <- <-. split; auto. intros w [= X].
        destruct (versions root fs n) as [[[|]|]|]; try discriminate. now apply NF in X.
      + injection E as <- <-. split; auto. intros w [= X]. now apply NT in X.
      + destruct (content_type_ok ct); injection E as <- <-; split; auto; discriminate.
      + cbn [get] in E. destruct (get_version root fs n v) as [[o|]|e].
        * injection E as <- <-. split; auto. discriminate.
        * destruct (content_type_ok ct); injection E as <- <-; split; auto; discriminate.
        * injection E as <- <-. split; auto. intros w [= X]. now apply NF in X.
    - destruct q as [|n|n|n v|n ct b|n v ct b]; simpl in OK;
        try (left; injection E as <- <-; split; [auto|discriminate]).
      + apply FP in E as [X|(w & d & I' & T & ->)]; auto. right. exists n, w, d, None. auto 8.
      + apply FP in E as [X|(w & d & I' & T & ->)]; auto. right. exists n, w, d, (Some v). auto 8.
    - injection E as <- <-. left. auto.
  Qed.

  (** *** Concurrent POSTs *)
  Definition posted (s : request * local) (n : string) (v : Z) : Prop :=
    exists ct b, s = (QPost n ct b, Done (RVersion v)).

  Lemma resume_nth_eq i : forall fs l q s, nth_error l i = Some (q, s) ->
    resume_nth root i fs l = (fst (resume root fs q s), firstn i l ++ (q, snd (resume root fs q s)) :: skipn (S i) l).
  Proof.
    induction i as [|i IH]; intros fs [|[q0 s0] l] q s H; simpl in H; try discriminate.
    - injection H as -> ->. simpl. destruct (resume root fs q s). reflexivity.
    - simpl. rewrite (IH _ _ _ _ H). destruct (resume root fs q s). reflexivity.
  Qed.
  Lemma resume_nth_none i : forall fs l, nth_error l i = None -> resume_nth root i fs l = (fs, l).
  Proof.
    induction i as [|i IH]; intros fs [|[q0 s0] l] H; simpl in *; try discriminate; auto. now rewrite IH.
  Qed.
  Lemma nth_replace {A} (l : list A) : forall i j x y, nth_error l i = Some x ->
    nth_error (firstn i l ++ y :: skipn (S i) l) j = if Nat.eqb j i then Some y else nth_error l j.
  Proof.
    induction l as [|a l IH]; intros i j x y H; [destruct i; discriminate|].
    destruct i as [|i]; simpl in *.
    - destruct j; reflexivity.
    - destruct j; simpl; [reflexivity|]. exact (IH i j x y H).
  Qed.

  Definition posts_ok (h : list event) (l : list (request * local)) : Prop :=
    (forall i c n v, nth_error l i = Some c -> posted c n v -> present h n v) /\
    (forall i j c d n v w, i <> j -> nth_error l i = Some c -> nth_error l j = Some d ->
       posted c n v -> posted d n w -> v <> w).

  Lemma posts_step h fs l i : Inv root fs h -> Forall (fun c => request_ok (fst c)) l -> posts_ok h l ->
    exists h', Inv root (fst (resume_nth root i fs l)) h' /\
      Forall (fun c => request_ok (fst c)) (snd (resume_nth root i fs l)) /\ posts_ok h' (snd (resume_nth root i fs l)).
  Proof.
    intros I F P. destruct (nth_error l i) as [[q s]|] eqn:E.
    2:{ rewrite resume_nth_none by auto. exists h. auto. }
    rewrite (resume_nth_eq i fs l q s E). destruct (resume root fs q s) as [fs' s'] eqn:R. cbn [fst snd].
    assert (OK : request_ok q).
    { rewrite Forall_forall in F. apply (F (q, s)). eapply nth_error_In; eauto. }
    assert (F' : Forall (fun c => request_ok (fst c)) (firstn i l ++ (q, s') :: skipn (S i) l)).
    { rewrite Forall_forall in *. intros c Hc. apply in_app_or in Hc as [Hc|[<-|Hc]]; auto.
      - apply F. eapply in_firstn; eauto.
      - apply F. rewrite <- (firstn_skipn (S i) l). apply in_or_app. auto. }
    destruct P as [P1 P2].
    destruct (resume_inv fs h q s fs' s' I OK R) as [[-> NW]|(n & w & d & v & I' & T & -> & -> & Q)].
    - exists h. split; auto. split; auto.
      assert (G : forall j c n v, nth_error (firstn i l ++ (q, s') :: skipn (S i) l) j = Some c -> posted c n v ->
                exists c', nth_error l j = Some c' /\ posted c' n v).
      { intros j c n v Hj Hc. rewrite (nth_replace l i j (q, s)) in Hj by auto.
        destruct (Nat.eqb_spec j i) as [->|NE]; [|eauto]. injection Hj as <-.
        destruct Hc as (ct & b & X). injection X as -> X. apply NW in X. subst s.
        exists (QPost n ct b, Done (RVersion v)). split; auto. exists ct, b. auto. }
      split.
      + intros j c n v Hj Hc. destruct (G j c n v Hj Hc) as (c' & Hj' & Hc'). eauto.
      + intros j k c c2 n v w NE Hj Hk Hc Hc2.
        destruct (G j c n v Hj Hc) as (c' & Hj' & Hc'). destruct (G k c2 n w Hk Hc2) as (c2' & Hk' & Hc2'). eauto.
    - exists (Stored n w d :: h). split; auto. split; auto.
      assert (G : forall j c m u, nth_error (firstn i l ++ (q, Done (RVersion w)) :: skipn (S i) l) j = Some c -> posted c m u ->
                (j = i /\ m = n /\ u = w /\ ~ present h n w) \/ (j <> i /\ exists c', nth_error l j = Some c' /\ posted c' m u)).
      { intros j c m u Hj Hc. rewrite (nth_replace l i j (q, Reading)) in Hj by auto.
        destruct (Nat.eqb_spec j i) as [->|NE]; [|right; eauto]. injection Hj as <-.
        destruct Hc as (ct & b & X). injection X as -> ->. destruct Q as [-> ->].
        left. repeat split; auto. now apply next_fresh. }
      split.
      + intros j c m u Hj Hc. destruct (G j c m u Hj Hc) as [(-> & -> & -> & _)|(_ & c' & Hj' & Hc')].
        * apply present_stored.
        * apply present_cons. eauto.
      + intros j k c c2 m u x NE Hj Hk Hc Hc2.
        destruct (G j c m u Hj Hc) as [(-> & -> & -> & NP)|(NEj & c' & Hj' & Hc')];
        destruct (G k c2 _ x Hk Hc2) as [(-> & ? & -> & NP2)|(NEk & c2' & Hk' & Hc2')]; subst; try congruence.
        * intros ->. apply NP. eauto.
        * intros ->. apply NP2. eauto.
        * eauto.
  Qed.

  Lemma posts_run sched : forall fs h l, Inv root fs h -> Forall (fun c => request_ok (fst c)) l -> posts_ok h l ->
    exists h', Inv root (fst (run_server root sched (fs, l))) h' /\ posts_ok h' (snd (run_server root sched (fs, l))).
  Proof.
    induction sched as [|i sched IH]; intros fs h l I F P; simpl; [eauto|].
    destruct (posts_step h fs l i I F P) as (h' & I' & F' & P').
    destruct (resume_nth root i fs l) as [fs' l']. simpl in *. eauto.
  Qed.

  Theorem distinct_versions fs l sched i j n v w ct ct' b b' : reachable root fs -> Forall request_ok l -> i <> j ->
    nth_error (snd (run_server root sched (accept fs l))) i = Some (QPost n ct b, Done (RVersion v)) ->
    nth_error (snd (run_server root sched (accept fs l))) j = Some (QPost n ct' b', Done (RVersion w)) ->
    v <> w.
  Proof.
    intros R F NE Hi Hj. destruct (reachable_inv root fs root_valid R) as [h I].
    destruct (posts_run sched fs h (map (fun q => (q, Start)) l) I) as (h' & _ & _ & P).
    - rewrite Forall_forall in *. intros c Hc. apply in_map_iff in Hc as (q & <- & Hq). simpl. auto.
    - split.
      + intros k c m u Hk (ct0 & b0 & ->). rewrite nth_error_map in Hk. destruct (nth_error l k); discriminate.
      + intros k k2 c d m u x _ Hk _ (ct0 & b0 & ->). rewrite nth_error_map in Hk. destruct (nth_error l k); discriminate.
    - unfold accept in *. eapply (P i j); eauto; do 2 eexists; reflexivity.
  Qed.

  (** *** PUT *)
  Theorem put_check fs n v ct b l : get root fs n (Some v) <> Ok None ->
    resume root fs (QPut n v ct b) Start = (fs, l) ->
    (forall t, get root fs n (Some v) = Ok (Some (t, v)) -> l = Done (RStatus 409)) /\
    (forall fs', resume root fs' (QPut n v ct b) l = (fs', l)).
  Proof.
    intros H E. simpl in *. destruct (get_version root fs n v) as [[o|]|e]; [| congruence |];
      injection E as <-; split; auto; intros t X; congruence.
  Qed.

  Theorem serve_keeps fs q m u : reachable root fs -> request_ok q -> valid_name m ->
    get root fs m (Some u) <> Ok None ->
    get root (fst (serve root fs q)) m (Some u) = get root fs m (Some u).
  Proof.
    intros R OK Vm NN. destruct (reachable_inv root fs root_valid R) as [h I]. unfold serve.
    destruct (resume root fs q Start) as [fs1 l1] eqn:E1.
    destruct (resume_inv fs h q Start fs1 l1 I OK E1) as [[-> NW]|(n & w & d & v & _ & _ & X & _)]; [|discriminate].
    destruct (resume root fs q l1) as [fs2 l2] eqn:E2. simpl fst.
    destruct (resume_inv fs h q l1 fs2 l2 I OK E2) as [[-> _]|(n & w & d & v & I2 & T & -> & -> & Q)]; auto.
    cbn [get] in *. rewrite (get_version_spec root root_valid fs2 _ m u I2 Vm), (get_version_spec root root_valid fs _ m u I Vm) in *.
    unfold answer_of. rewrite entry_stored. destruct (String.eqb_spec m n), (Z.eqb_spec u w); simpl; auto. subst.
    exfalso. assert (NP : ~ present h n w).
    { destruct q; try tauto; destruct Q as [-> ->]; simpl in T.
      - now apply next_fresh.
      - subst w. unfold request_ok in OK. simpl in OK. simpl in E1.
        rewrite (get_version_spec root root_valid fs _ n v0 I OK) in E1. unfold answer_of, present in *.
        destruct (entry h n v0) as [[d0|]|]; try congruence.
        destruct (parse d0); discriminate. }
    apply NN. unfold answer_of, present in *. destruct (entry h n w); [elim NP; discriminate|reflexivity].
  Qed.
End Facts.
