(** What GET answers for a posted document (proofs only). *)
From Coq Require Import String List ZArith Lia Bool.
From Verif Require Import PyVal PyValFacts RType Registry FromDict ToDict Quote Storage SpecStorage StorageFacts StorageMore Server ServerFacts
  SpecTypes SpecCompact CompactAgain.
Import ListNotations.
Open Scope nat_scope.
Open Scope string_scope.
Open Scope list_scope.

Section Trip.
  Variable root : path.
  Hypothesis root_valid : Forall valid_name root.

  Lemma post_stores fs h n ct b w fs' : Inv root fs h -> valid_name n ->
    resume root fs (QPost n ct b) Reading = (fs', Done (RVersion w)) ->
    exists t d, body_type b = Ok t /\ to_dict true true t = Ok d /\ Inv root fs' (Stored n w d :: h).
  Proof.
    intros I V E. assert (NF : forall e w, failure e <> RVersion w) by (destruct e; discriminate).
    cbn [resume] in E. unfold finish_put in E. destruct (body_type b) as [t|e]; [|injection E as _ E; now apply NF in E].
    unfold put, put_plan in E. destruct (put_version_spec root root_valid fs h n None I V) as (w' & X & T). rewrite X in E. cbn [rbind] in E.
    destruct (to_dict true true t) as [d|e] eqn:TD; cbn [rbind] in E; [|injection E as _ E; now apply NF in E].
    rewrite (put_steps root root_valid fs h n w' d I V) in E. injection E as <- <-. exists t, d. split; auto. split; auto. now apply inv_written.
  Qed.

  (** Requests [l] in flight; request [i] posts [b] under [n]. *)
  Variables (i : nat) (n : string) (ct : option string) (b : body).
  Definition unwritten (v : Z) (l : list (request * local)) : Prop := forall ct' b' s, ~ In (QPut n v ct' b', s) l.
  Definition kept (h : list event) (l : list (request * local)) : Prop :=
    forall v, nth_error l i = Some (QPost n ct b, Done (RVersion v)) -> unwritten v l ->
      exists t d, body_type b = Ok t /\ to_dict true true t = Ok d /\ entry h n v = Some (Some d).

  Lemma unwritten_step l j q s s' v : nth_error l j = Some (q, s) ->
    unwritten v (firstn j l ++ (q, s') :: skipn (S j) l) -> unwritten v l.
  Proof.
    intros E U ct' b' s0 I. apply In_nth_error in I as [k K]. destruct (Nat.eq_dec k j) as [->|NE].
    - rewrite E in K. injection K as -> ->. apply (U ct' b' s'). apply in_or_app. right. now left.
    - apply (U ct' b' s0). apply nth_error_In with k. rewrite (nth_replace l j k (q, s)) by auto.
      apply Nat.eqb_neq in NE. now rewrite NE.
  Qed.

  Lemma kept_step h fs l j : Inv root fs h -> Forall (fun c => request_ok (fst c)) l -> kept h l ->
    exists h', Inv root (fst (resume_nth root j fs l)) h' /\
      Forall (fun c => request_ok (fst c)) (snd (resume_nth root j fs l)) /\ kept h' (snd (resume_nth root j fs l)).
  Proof.
    intros I F P. destruct (nth_error l j) as [[q s]|] eqn:E.
    2:{ rewrite resume_nth_none by auto. exists h. auto. }
    rewrite (resume_nth_eq root j fs l q s E). destruct (resume root fs q s) as [fs' s'] eqn:R. cbn [fst snd].
    assert (OK : request_ok q).
    { rewrite Forall_forall in F. apply (F (q, s)). eapply nth_error_In; eauto. }
    assert (F' : Forall (fun c => request_ok (fst c)) (firstn j l ++ (q, s') :: skipn (S j) l)).
    { rewrite Forall_forall in *. intros c Hc. apply in_app_or in Hc as [Hc|[<-|Hc]]; auto.
      - apply F. eapply in_firstn; eauto.
      - apply F. rewrite <- (firstn_skipn (S j) l). apply in_or_app. auto. }
    destruct (resume_inv root root_valid fs h q s fs' s' I OK R) as [[-> NW]|(m & w & d & v & I' & T & -> & -> & Q)].
    - exists h. split; auto. split; auto. intros v Hv U. pose proof (unwritten_step _ _ _ _ _ _ E U) as U'. apply P; auto.
      rewrite (nth_replace l j i (q, s)) in Hv by auto. destruct (Nat.eqb_spec i j) as [<-|NE]; auto.
      injection Hv as -> ->. now rewrite E, (NW v eq_refl).
    - destruct (Nat.eq_dec i j) as [<-|NE].
      + destruct (match q with QPost n' ct' b' => true | _ => false end) eqn:QP.
        2:{ exists (Stored m w d :: h). split; auto. split; auto. intros v0 Hv. rewrite (nth_replace l i i (q, Reading)), Nat.eqb_refl in Hv by auto.
            injection Hv as -> _. discriminate. }
        destruct q as [| | | |m' ct' b'|]; try discriminate. destruct Q as [-> ->].
        destruct (post_stores fs h m ct' b' w fs' I OK R) as (t & d2 & B1 & B2 & B3).
        exists (Stored m w d2 :: h). split; auto. split; auto. intros v0 Hv _. rewrite (nth_replace l i i (QPost m ct' b', Reading)), Nat.eqb_refl in Hv by auto.
        injection Hv as -> -> -> ->. exists t, d2. repeat split; auto. rewrite entry_stored, String.eqb_refl, Z.eqb_refl. reflexivity.
      + exists (Stored m w d :: h). split; auto. split; auto. intros v0 Hv U. rewrite (nth_replace l j i (q, Reading)) in Hv by auto.
        pose proof NE as NE'. apply Nat.eqb_neq in NE'. rewrite NE' in Hv.
        destruct (P v0 Hv (unwritten_step _ _ _ _ _ _ E U)) as (t & d0 & B1 & B2 & B3). exists t, d0. repeat split; auto.
        rewrite entry_stored. destruct (String.eqb_spec n m) as [<-|]; auto. destruct (Z.eqb_spec v0 w) as [<-|]; auto. cbn. exfalso.
        destruct q; try tauto; destruct Q as [-> ->].
        * apply next_fresh in T. apply T. unfold present. rewrite B3. discriminate.
        * cbn in T. subst v1. apply (U ct0 b0 (Done (RVersion v0))). apply in_or_app. right. now left.
  Qed.
  Lemma kept_run sched : forall fs h l, Inv root fs h -> Forall (fun c => request_ok (fst c)) l -> kept h l ->
    exists h', Inv root (fst (run_server root sched (fs, l))) h' /\ kept h' (snd (run_server root sched (fs, l))).
  Proof.
    induction sched as [|j sched IH]; intros fs h l I F P; simpl; [eauto|].
    destruct (kept_step h fs l j I F P) as (h' & I' & F' & P').
    destruct (resume_nth root j fs l) as [fs' l']. simpl in *. eauto.
  Qed.
  (** The requests stay the same. *)
  Lemma resume_requests j : forall fs l, map fst (snd (resume_nth root j fs l)) = map fst l.
  Proof.
    induction j as [|j IH]; intros fs [|[q s] l]; simpl; auto.
    - now destruct (resume root fs q s).
    - specialize (IH fs l). destruct (resume_nth root j fs l). simpl in *. congruence.
  Qed.
  Lemma run_requests sched : forall s, map fst (snd (run_server root sched s)) = map fst (snd s).
  Proof. induction sched as [|j sched IH]; intros s; simpl; auto. rewrite IH. apply resume_requests. Qed.

  Theorem get_posted fs l sched v : reachable root fs -> Forall request_ok l -> valid_name n ->
    nth_error (snd (run_server root sched (accept fs l))) i = Some (QPost n ct b, Done (RVersion v)) ->
    (forall ct' b', ~ In (QPut n v ct' b') l) ->
    exists t d, body_type b = Ok t /\ to_dict true true t = Ok d /\
      get root (fst (run_server root sched (accept fs l))) n (Some v) =
        match snd (from_dict_new d) with Ok t' => Ok (Some (t', v)) | Err e => Err e end.
  Proof.
    intros R F V Hi NP. destruct (reachable_inv root fs root_valid R) as [h I].
    destruct (kept_run sched fs h (map (fun q => (q, Start)) l) I) as (h' & I' & K).
    - rewrite Forall_forall in *. intros c Hc. apply in_map_iff in Hc as (q & <- & Hq). simpl. auto.
    - intros v0 Hv. rewrite nth_error_map in Hv. destruct (nth_error l i); discriminate.
    - destruct (K v Hi) as (t & d & B1 & B2 & B3).
      + intros ct' b' s J. apply (in_map fst) in J. rewrite run_requests in J. cbn in J. rewrite map_map in J. cbn in J. rewrite map_id in J. now apply NP in J.
      + exists t, d. repeat split; auto. cbn [get]. unfold accept. rewrite (get_version_spec root root_valid _ _ n v I' V). unfold answer_of. rewrite B3. reflexivity.
  Qed.

  Theorem get_denotes fs l sched v t : reachable root fs -> Forall request_ok l -> valid_name n ->
    match b with Json j => pwf j | _ => True end ->
    nth_error (snd (run_server root sched (accept fs l))) i = Some (QPost n ct b, Done (RVersion v)) ->
    (forall ct' b', ~ In (QPut n v ct' b') l) ->
    body_type b = Ok t -> all_nodes (alias_ok true) t -> all_nodes compact_ok t ->
    exists d t1 t2, serve root (fst (run_server root sched (accept fs l))) (QVersion n v) =
        (fst (run_server root sched (accept fs l)), Done (RType d v)) /\
      same_meaning (names_in t) t t1 /\ snd (from_dict_new d) = Ok t2 /\ same_meaning (names_in t1) t1 t2.
  Proof.
    intros R F V W Hi NP BT AO CO. destruct (get_posted fs l sched v R F V Hi NP) as (t0 & d1 & B1 & B2 & B3).
    rewrite BT in B1. injection B1 as <-.
    assert (J : exists j, pwf j /\ snd (from_dict_new j) = Ok t).
    { destruct b as [j|s|]; cbn [body_type] in BT; [exists j|exists (PStr s)|discriminate]; (split; [auto using pwf_str|]);
        destruct (snd (from_dict_new _)); congruence. }
    destruct J as (j & Wj & Ej). unfold from_dict_new in *. destruct (from_dict j builtin_aliases) as [R' r] eqn:Ef. cbn in Ej. subst r.
    destruct (alias_twice j _ R' t Wj Ef AO CO) as (d1' & R1 & t1 & d2 & R2 & t2 & A1 & A2 & A3 & A4 & A5 & A6).
    rewrite B2 in A1. injection A1 as <-. rewrite A2 in B3. cbn [snd] in B3. exists d2, t1, t2. repeat split; auto.
    - unfold serve. cbn [resume]. rewrite B3. cbn [type_reply]. rewrite A4. reflexivity.
    - now rewrite A5.
  Qed.
End Trip.
