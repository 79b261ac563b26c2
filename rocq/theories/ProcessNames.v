(** Processes that work on different names do not affect each other (proofs only): the calls about
    one name run as if there were no others. *)
From Coq Require Import String List ZArith Lia Bool Sorting.Sorted.
From Verif Require Import PyVal PyValFacts RType Registry FromDict ToDict Quote QuoteFacts Storage SpecStorage StorageFacts StorageMore
  Server ServerFacts CrashFacts Processes SpecProcesses ProcessFacts.
Import ListNotations.
Open Scope nat_scope.
Open Scope string_scope.
Open Scope list_scope.

Section Names.
  Variable root : path.
  Hypothesis root_valid : Forall valid_name root.
  Variable size : pyval -> nat.
  Variable m : string.
  Hypothesis m_valid : valid_name m.

  Definition alike (d1 d2 : disk) : Prop :=
    view (dir_path root m) (fst d1) = view (dir_path root m) (fst d2) /\ root_exists root (fst d1) /\ root_exists root (fst d2) /\
    forall p, is_under (dir_path root m) p = true -> text_len p (snd d1) = text_len p (snd d2).

  Lemma root_fset p nd fs : (exists q x, p = root ++ q ++ [x]) -> root_exists root fs -> root_exists root (fset p nd fs).
  Proof.
    intros (q & x & ->) R p0 q0 E0. rewrite <- (R p0 q0 E0). rewrite node_at_fset; auto.
    - rewrite (root_not_below root p0 q0) by (auto || destruct q; discriminate). reflexivity.
    - destruct root; [destruct q; discriminate|discriminate].
  Qed.
  Lemma exec_root s fs fs' : root_exists root fs -> exec s fs = Ok fs' ->
    ((exists p q, s = Mkdir p /\ root = p ++ q) \/ exists q x, step_path s = root ++ q ++ [x]) -> root_exists root fs'.
  Proof.
    intros R E H. pose proof (exec_view root root_valid s fs fs R R eq_refl H) as X. rewrite E in X. apply X.
  Qed.

  (** A step of a put of another name. *)
  Lemma access_other n w j s d1 d1' d2 : valid_name n -> n <> m -> In s (put_list root n w j) -> alike d1 d2 ->
    access size s d1 = Ok d1' -> alike d1' d2.
  Proof.
    intros V NE Hs (A & R1 & R2 & L) E.
    pose proof (put_list_other root root_valid n w j m s V m_valid NE Hs) as U.
    pose proof (put_list_shape root root_valid n w j s V Hs) as SH.
    destruct d1 as [fs1 L1]. unfold access in E. cbn [fst snd] in *.
    assert (TL : forall p k q, is_under (dir_path root m) q = true -> is_under (dir_path root m) p = false ->
      text_len q ((p, k) :: L1) = text_len q (snd d2)).
    { intros p k q Uq Up. simpl. destruct (path_eqb_spec q p) as [->|]; [congruence|auto]. }
    destruct s as [p|p|p d].
    - destruct (exec (Mkdir p) fs1) as [f|] eqn:X; [|discriminate]. injection E as <-. split; [|split; [|split]]; auto; cbn [fst snd].
      + rewrite <- A. eapply exec_other; eauto.
      + exact (exec_root _ _ _ R1 X SH).
    - destruct (exec (OpenW p) fs1) as [f|] eqn:X; [|discriminate]. injection E as <-. split; [|split; [|split]]; auto; cbn [fst snd].
      + rewrite <- A. eapply exec_other; eauto.
      + exact (exec_root _ _ _ R1 X SH).
      + intros q Uq. now apply TL.
    - assert (P : exists q x, p = root ++ q ++ [x]) by (destruct SH as [(? & ? & [=] & _)|SH]; exact SH).
      destruct (Nat.leb (text_len p L1) (size d)); injection E as <-; (split; [|split; [|split]]); auto; cbn [fst snd];
        auto using root_fset; try (rewrite <- A; now apply view_fset); intros q Uq; now apply TL.
  Qed.

  (** A step of a put of this name. *)
  Lemma access_same w j s d1 d2 : In s (put_list root m w j) -> alike d1 d2 ->
    match access size s d1, access size s d2 with
    | Ok d1', Ok d2' => alike d1' d2'
    | Err e1, Err e2 => e1 = e2
    | _, _ => False
    end.
  Proof.
    intros Hs (A & R1 & R2 & L). destruct d1 as [fs1 L1], d2 as [fs2 L2]. unfold access. cbn [fst snd] in *.
    pose proof (put_list_shape root root_valid m w j s m_valid Hs) as SH.
    assert (UP : (exists p q, s = Mkdir p /\ root = p ++ q) \/ s = Mkdir (dir_path root m) \/
                 s = OpenW (file_path root m w) \/ s = Write (file_path root m w) j).
    { unfold put_list, mkdirs in Hs. rewrite dir_path_valid, prefixes_app, map_app, !in_app_iff, in_map_iff in Hs by auto. simpl in Hs.
      rewrite dir_path_valid by auto.
      destruct Hs as [[(p0 & <- & Hp)|[<-|[]]]|[<-|[<-|[]]]]; auto. apply prefixes_spec in Hp as [_ [q Hq]]. left. eauto. }
    pose proof (under_dir root m m_valid) as UD. pose proof (under_file root root_valid m w m_valid) as UF.
    assert (TL : forall p k q, is_under (dir_path root m) q = true -> text_len q ((p, k) :: L1) = text_len q ((p, k) :: L2)).
    { intros p k q Uq. simpl. destruct (path_eqb q p); auto. }
    destruct UP as [(p & q & -> & Eq)|[->|[->| ->]]].
    - cbn [exec]. rewrite (R1 p q Eq), (R2 p q Eq). cbn [rbind]. repeat split; auto.
    - cbn [exec]. rewrite (node_at_view _ _ fs1 fs2 A UD). destruct (node_at (dir_path root m) fs2) as [[|]|]; cbn [rbind]; [repeat split; auto|auto|].
      assert (P : exists q x, dir_path root m = root ++ q ++ [x]).
      { exists [], (quote_plus m). now rewrite dir_path_valid. }
      split; [|split; [|split]]; auto; cbn [fst snd]; auto using root_fset. now apply view_fset_in.
    - cbn [exec]. assert (RL : removelast (file_path root m w) = dir_path root m).
      { rewrite file_path_valid, dir_path_valid by auto. change [quote_plus m; file_name w] with ([quote_plus m] ++ [file_name w]).
        now rewrite app_assoc, removelast_last. }
      rewrite RL, (node_at_view _ _ fs1 fs2 A UD), (node_at_view _ _ fs1 fs2 A UF).
      assert (P : exists q x, file_path root m w = root ++ q ++ [x]).
      { exists [quote_plus m], (file_name w). now rewrite file_path_valid. }
      destruct (node_at (dir_path root m) fs2) as [[|]|]; cbn [rbind]; auto.
      destruct (node_at (file_path root m w) fs2) as [[|]|]; cbn [rbind]; auto;
        (split; [|split; [|split]]); auto; cbn [fst snd]; auto using root_fset; now apply view_fset_in.
    - assert (P : exists q x, file_path root m w = root ++ q ++ [x]).
      { exists [quote_plus m], (file_name w). now rewrite file_path_valid. }
      rewrite (L _ UF). destruct (Nat.leb (text_len (file_path root m w) L2) (size j));
        (split; [|split; [|split]]); auto; cbn [fst snd]; auto using root_fset; now apply view_fset_in.
  Qed.

  (** The accesses that a put has left are those of its plan. *)
  Definition shaped (o : op) (ph : phase) : Prop :=
    match o, ph with OPut n _ _, Putting w l => exists d pre, put_list root n w d = pre ++ l | _, _ => True end.
  Definition keeps (x : phase + answer) (o : op) : Prop := match x with inl ph => shaped o ph | inr _ => True end.
  Lemma plan_list fs n t v w l : put_plan root fs n t v = Ok (w, l) -> exists d, l = put_list root n w d.
  Proof.
    unfold put_plan. destruct (put_version root fs n v) as [w'|]; [|discriminate]. cbn [rbind].
    destruct (to_dict true true t) as [d|]; [|discriminate]. cbn [rbind]. intros [= <- <-]. exists d. reflexivity.
  Qed.
  Lemma shaped_later d o ph : shaped o ph -> keeps (snd (advance root size d o ph)) o.
  Proof.
    destruct o as [n t v|n v|n|n|]; [|intros _; cbn [advance] ..].
    - destruct ph as [|w [|s l]|u]; cbn [advance shaped]; intros H; try exact Logic.I.
      + destruct (put_plan root (fst d) n t v) as [[w l]|] eqn:P; simpl; auto. apply plan_list in P as [d' ->]. exists d', []. reflexivity.
      + destruct H as (d' & pre & E). destruct (access size s d); simpl; auto. exists d', (pre ++ [s]). now rewrite <- app_assoc.
    - destruct ph, v; try exact Logic.I. destruct (versions root (fst d) n) as [[[|x l]|]|]; try exact Logic.I.
    - destruct ph; exact Logic.I.
    - destruct ph; exact Logic.I.
    - destruct ph; exact Logic.I.
  Qed.

  Lemma advance_other d1 d2 o ph : alike d1 d2 -> op_ok o -> about m o = false -> shaped o ph ->
    alike (fst (advance root size d1 o ph)) d2.
  Proof.
    intros A OK AB SH. destruct o as [n t v|n v|n|n|].
    - assert (NE : n <> m) by (unfold about in AB; cbn [op_name] in AB; now apply String.eqb_neq in AB).
      destruct ph as [|w [|s l]|u]; cbn [advance]; auto.
      + destruct (put_plan root (fst d1) n t v) as [[w l]|]; auto.
      + destruct (access size s d1) as [d1'|] eqn:E; auto. destruct SH as (d' & pre & E'). cbn [fst].
        apply (access_other n w d' s d1 d1' d2); auto. rewrite E'. apply in_or_app. simpl. auto.
    - destruct ph, v; cbn [advance]; auto. destruct (versions root (fst d1) n) as [[[|x l]|]|]; auto.
    - destruct ph; auto.
    - destruct ph; auto.
    - destruct ph; auto.
  Qed.
  Lemma advance_same d1 d2 o ph : alike d1 d2 -> about m o = true -> shaped o ph ->
    alike (fst (advance root size d1 o ph)) (fst (advance root size d2 o ph)) /\
    snd (advance root size d1 o ph) = snd (advance root size d2 o ph).
  Proof.
    intros A AB SH. destruct A as (V & R). assert (A : alike d1 d2) by (split; auto).
    destruct o as [n t v|n v|n|n|]; try discriminate AB; unfold about in AB; cbn [op_name] in AB; apply String.eqb_eq in AB; subst n.
    - destruct ph as [|w [|s l]|u]; cbn [advance]; auto.
      + rewrite (put_plan_view root m t v _ _ m_valid V). destruct (put_plan root (fst d2) m t v) as [[w l]|]; auto.
      + destruct SH as (d' & pre & E'). assert (IN : In s (put_list root m w d')) by (rewrite E'; apply in_or_app; simpl; auto).
        pose proof (access_same w d' s d1 d2 IN A) as X.
        destruct (access size s d1) as [d1'|], (access size s d2) as [d2'|]; try tauto; cbn [fst snd]; auto. subst. auto.
    - destruct ph, v; cbn [advance]; auto.
      + now rewrite (get_version_view root root_valid m _ _ _ m_valid V).
      + rewrite (versions_view root m _ _ m_valid V). destruct (versions root (fst d2) m) as [[[|x l]|]|]; auto.
      + now rewrite (get_version_view root root_valid m _ _ _ m_valid V).
    - destruct ph; cbn [advance]; auto. now rewrite (versions_view root m _ _ m_valid V).
    - destruct ph; cbn [advance]; auto. now rewrite (latest_view root m _ _ m_valid V).
  Qed.

  (** A process and what it would be with the calls about [m] only. *)
  Definition erase (p : process) : process :=
    mkProc (filter (about m) (todo p))
      (match todo p with o :: _ => if about m o then stands p else Begin | [] => Begin end)
      (answers_about m p).
  Definition proc_shaped (p : process) : Prop :=
    Forall op_ok (todo p) /\ match todo p with o :: _ => shaped o (stands p) | [] => stands p = Begin end.

  Lemma erase_begin l : erase (begin l) = begin (filter (about m) l).
  Proof. unfold erase, begin. simpl. f_equal. destruct l as [|o l]; auto. now destruct (about m o). Qed.

  Lemma erase_after_other p o r x : todo p = o :: r -> about m o = false -> erase (after p o r x) = erase p.
  Proof.
    intros T AB. unfold erase, answers_about. rewrite T. cbn [filter]. rewrite AB. destruct x as [ph|a]; simpl.
    - now rewrite AB.
    - rewrite filter_app. simpl. rewrite AB, app_nil_r. f_equal. destruct r as [|o' r]; auto. now destruct (about m o').
  Qed.
  Lemma erase_after_same p o r x : todo p = o :: r -> about m o = true ->
    erase (after p o r x) = after (erase p) o (filter (about m) r) x.
  Proof.
    intros T AB. unfold erase, answers_about. rewrite T. destruct x as [ph|a]; simpl.
    - now rewrite AB.
    - rewrite filter_app. simpl. rewrite AB. f_equal. destruct r as [|o' r]; auto. now destruct (about m o').
  Qed.
  Lemma shaped_after p o r x : proc_shaped p -> todo p = o :: r -> keeps x o -> proc_shaped (after p o r x).
  Proof.
    intros [OK SH] T K. rewrite T in OK. inversion OK; subst. destruct x as [ph|a]; split; simpl; auto.
    destruct r as [|o' r]; auto. destruct o'; exact Logic.I.
  Qed.

  Lemma simulation sched : forall d1 d2 l, alike d1 d2 -> Forall proc_shaped l ->
    exists sched', alike (fst (run root size sched (d1, l))) (fst (run root size sched' (d2, map erase l))) /\
      map erase (snd (run root size sched (d1, l))) = snd (run root size sched' (d2, map erase l)).
  Proof.
    induction sched as [|i sched IH]; intros d1 d2 l A F; [exists []; auto|].
    cbn [run fst snd]. destruct (nth_error l i) as [p|] eqn:N; [|rewrite proceed_nth_none by auto; now apply IH].
    rewrite (proceed_nth_eq root size i d1 l p N). destruct (todo p) as [|o r] eqn:T; [now apply IH|].
    pose proof (proj1 (Forall_forall _ _) F p (nth_error_In _ _ N)) as PS. pose proof PS as [OK SH]. rewrite T in OK, SH. inversion OK; subst.
    assert (F' : Forall proc_shaped (replace i (after p o r (snd (advance root size d1 o (stands p)))) l)).
    { apply Forall_forall. intros q Hq. apply In_nth_error in Hq as [j Hj].
      apply (nth_replace_inv _ _ _ _ _ _ N) in Hj as [[_ ->]|[_ Hj]].
      - apply shaped_after; auto. now apply shaped_later.
      - exact (proj1 (Forall_forall _ _) F q (nth_error_In _ _ Hj)). }
    destruct (about m o) eqn:AB.
    - destruct (advance_same d1 d2 o (stands p) A AB SH) as [A' X].
      destruct (IH _ _ _ A' F') as (sched' & R1 & R2). exists (i :: sched'). cbn [run fst snd].
      assert (N' : nth_error (map erase l) i = Some (erase p)) by now rewrite nth_error_map, N.
      rewrite (proceed_nth_eq root size i d2 _ _ N'). 
      assert (TE : todo (erase p) = o :: filter (about m) r) by (unfold erase; cbn [todo]; rewrite T; cbn [filter]; now rewrite AB). rewrite TE.
      rewrite map_replace, (erase_after_same p o r _ T AB) in R1, R2.
      assert (ST : stands (erase p) = stands p) by (unfold erase; cbn [stands]; now rewrite T, AB).
      rewrite ST, <- X. split; [exact R1|exact R2].
    - pose proof (advance_other d1 d2 o (stands p) A ltac:(auto) AB SH) as A'.
      destruct (IH _ _ _ A' F') as (sched' & R1 & R2). exists sched'.
      rewrite map_replace, (erase_after_other p o r _ T AB) in R1, R2.
      rewrite (replace_same (map erase l) i (erase p)) in R1, R2 by now rewrite nth_error_map, N. auto.
  Qed.

  Theorem names_apart fs calls sched : root_exists root fs -> Forall (Forall op_ok) calls ->
    exists sched',
      let r := run root size sched (system_of fs calls) in
      let r' := run root size sched' (system_of fs (map (filter (about m)) calls)) in
      map (answers_about m) (snd r) = map finished (snd r') /\
      versions root (fst (fst r)) m = versions root (fst (fst r')) m /\
      latest root (fst (fst r)) m = latest root (fst (fst r')) m /\
      forall v, get root (fst (fst r)) m v = get root (fst (fst r')) m v.
  Proof.
    intros R OK. unfold system_of.
    destruct (simulation sched (fs, []) (fs, []) (map begin calls)) as (sched' & A & E).
    - split; auto.
    - apply Forall_forall. intros p Hp. apply in_map_iff in Hp as (l & <- & Hl). split; [exact (proj1 (Forall_forall _ _) OK l Hl)|].
      destruct l as [|o l]; [reflexivity|]. destruct o; exact Logic.I.
    - exists sched'. cbv zeta.
      assert (ME : map begin (map (filter (about m)) calls) = map erase (map begin calls)).
      { rewrite !map_map. apply map_ext. intros l. symmetry. apply erase_begin. }
      rewrite ME. destruct A as (V & _). split; [|split; [|split]].
      + apply (f_equal (map finished)) in E. rewrite map_map in E. exact E.
      + now apply versions_view.
      + now apply latest_view.
      + intros v. now apply get_view.
  Qed.
End Names.
