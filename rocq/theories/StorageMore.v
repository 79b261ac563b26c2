(** Which part of the file system an operation reads and writes (proofs only). *)
From Coq Require Import String Ascii List ZArith NArith Bool Lia Sorting.Sorted.
From Verif Require Import PyVal PyValFacts RType Registry FromDict ToDict Quote QuoteFacts Storage SpecStorage StorageFacts.
Import ListNotations.
Open Scope nat_scope.
Open Scope string_scope.
Open Scope list_scope.

(** The entries at or below a directory. *)
Definition is_under (d p : path) : bool := match strip d p with Some _ => true | None => false end.
Definition view (d : path) (fs : fsys) : fsys := filter (fun e => is_under d (fst e)) fs.

Lemma is_under_spec d p : is_under d p = true <-> exists r, p = d ++ r.
Proof.
  unfold is_under. destruct (strip d p) as [r|] eqn:E.
  - apply strip_app in E. split; eauto.
  - split; [discriminate|]. intros [r ->]. rewrite (proj2 (strip_app d (d ++ r) r) eq_refl) in E. discriminate.
Qed.
Lemma is_under_trans d e p : is_under d e = true -> is_under e p = true -> is_under d p = true.
Proof. rewrite !is_under_spec. intros [r ->] [s ->]. exists (r ++ s). now rewrite app_assoc. Qed.

Lemma view_fset d p n fs : is_under d p = false -> view d (fset p n fs) = view d fs.
Proof.
  intros H. induction fs as [|[q m] fs IH]; simpl.
  - now rewrite H.
  - destruct (path_eqb_spec p q); simpl; [subst; now rewrite H|]. destruct (is_under d q); congruence.
Qed.
Lemma view_fset_in d p n fs1 fs2 : view d fs1 = view d fs2 -> is_under d p = true ->
  view d (fset p n fs1) = view d (fset p n fs2).
Proof.
  intros E H.
  assert (G : forall fs, view d (fset p n fs) = fset p n (view d fs)).
  { induction fs as [|[q m] fs IH]; simpl; [now rewrite H|].
    destruct (path_eqb_spec p q); simpl.
    - subst. rewrite H. simpl. now rewrite path_eqb_refl.
    - destruct (is_under d q); simpl; [|auto]. destruct (path_eqb_spec p q); congruence. }
  now rewrite !G, E.
Qed.
Lemma fget_view d p fs : is_under d p = true -> fget p (view d fs) = fget p fs.
Proof.
  intros H. induction fs as [|[q m] fs IH]; simpl; auto.
  destruct (is_under d q) eqn:E; simpl; rewrite IH; auto.
  destruct (path_eqb_spec p q); congruence.
Qed.
Lemma child_names_view d p fs : is_under d p = true -> child_names p (view d fs) = child_names p fs.
Proof.
  intros H. induction fs as [|[q m] fs IH]; simpl; auto.
  destruct (is_under d q) eqn:E; simpl; rewrite IH; auto.
  destruct (strip p q) as [r|] eqn:S; auto.
  assert (is_under p q = true) by (unfold is_under; now rewrite S).
  rewrite (is_under_trans d p q) in E; auto. discriminate.
Qed.
Lemma node_at_view d p fs1 fs2 : view d fs1 = view d fs2 -> is_under d p = true -> node_at p fs1 = node_at p fs2.
Proof.
  intros E H. destruct p; auto. cbn [node_at]. now rewrite <- (fget_view d _ fs1 H), <- (fget_view d _ fs2 H), E.
Qed.
Lemma listdir_view d p fs1 fs2 : view d fs1 = view d fs2 -> is_under d p = true -> listdir p fs1 = listdir p fs2.
Proof.
  intros E H. unfold listdir. rewrite (node_at_view d p fs1 fs2 E H).
  now rewrite <- (child_names_view d _ fs1 H), <- (child_names_view d _ fs2 H), E.
Qed.
Lemma view_view d e fs1 fs2 : is_under d e = true -> view d fs1 = view d fs2 -> view e fs1 = view e fs2.
Proof.
  intros H E.
  assert (G : forall fs, view e (view d fs) = view e fs).
  { induction fs as [|[q m] fs IH]; simpl; auto.
    destruct (is_under d q) eqn:F; simpl; [now rewrite IH|].
    destruct (is_under e q) eqn:K; auto. rewrite (is_under_trans d e q) in F; auto. discriminate. }
  rewrite <- (G fs1), <- (G fs2). now rewrite E.
Qed.

Section Reads.
  Variable root : path.
  Hypothesis root_valid : Forall valid_name root.

  Lemma under_dir n : valid_name n -> is_under (dir_path root n) (dir_path root n) = true.
  Proof. intros _. apply is_under_spec. exists []. now rewrite app_nil_r. Qed.
  Lemma under_file n v : valid_name n -> is_under (dir_path root n) (file_path root n v) = true.
  Proof.
    intros V. rewrite dir_path_valid, file_path_valid by auto. apply is_under_spec. exists [file_name v].
    now rewrite <- app_assoc.
  Qed.
  Lemma root_dir n : valid_name n -> is_under root (dir_path root n) = true.
  Proof. intros V. rewrite dir_path_valid by auto. apply is_under_spec. eauto. Qed.

  (** Reading a name looks only below its directory. *)
  Lemma versions_view n fs1 fs2 : valid_name n -> view (dir_path root n) fs1 = view (dir_path root n) fs2 ->
    versions root fs1 n = versions root fs2 n.
  Proof. intros V E. unfold versions. now rewrite (listdir_view _ _ _ _ E (under_dir n V)). Qed.
  Lemma latest_view n fs1 fs2 : valid_name n -> view (dir_path root n) fs1 = view (dir_path root n) fs2 ->
    latest root fs1 n = latest root fs2 n.
  Proof. intros V E. unfold latest. now rewrite (versions_view n fs1 fs2 V E). Qed.
  Lemma get_version_view n v fs1 fs2 : valid_name n -> view (dir_path root n) fs1 = view (dir_path root n) fs2 ->
    get_version root fs1 n v = get_version root fs2 n v.
  Proof.
    intros V E. unfold get_version, read. now rewrite (node_at_view _ _ _ _ E (under_file n v V)).
  Qed.
  Lemma get_view n v fs1 fs2 : valid_name n -> view (dir_path root n) fs1 = view (dir_path root n) fs2 ->
    get root fs1 n v = get root fs2 n v.
  Proof.
    intros V E. destruct v; simpl; [now apply get_version_view|]. rewrite (versions_view n fs1 fs2 V E).
    destruct (versions root fs2 n) as [[[|x l]|]|]; cbn [rbind]; auto.
    destruct (max_list (x :: l)); auto. now apply get_version_view.
  Qed.
  Lemma ls_view fs1 fs2 : view root fs1 = view root fs2 -> ls root fs1 = ls root fs2.
  Proof.
    intros E. unfold ls. rewrite (listdir_view root root fs1 fs2); auto.
    apply is_under_spec. exists []. now rewrite app_nil_r.
  Qed.
  Lemma put_plan_view n t v fs1 fs2 : valid_name n -> view (dir_path root n) fs1 = view (dir_path root n) fs2 ->
    put_plan root fs1 n t v = put_plan root fs2 n t v.
  Proof. intros V E. unfold put_plan, put_version. destruct v; auto. now rewrite (latest_view n fs1 fs2 V E). Qed.

  (** *** What the steps of a put touch *)
  Definition step_path (s : step) : path := match s with Mkdir p | OpenW p | Write p _ => p end.

  Lemma exec_other d s fs fs' : exec s fs = Ok fs' -> is_under d (step_path s) = false -> view d fs' = view d fs.
  Proof.
    intros E H. destruct s as [p|p|p j]; simpl in *.
    - destruct (node_at p fs) as [[|]|]; try discriminate; injection E as <-; auto. now apply view_fset.
    - destruct (node_at (removelast p) fs) as [[|]|]; try discriminate.
      destruct (node_at p fs) as [[|]|]; try discriminate; injection E as <-; now apply view_fset.
    - injection E as <-. now apply view_fset.
  Qed.
  Lemma exec_all_other d l : forall fs, (forall s, In s l -> is_under d (step_path s) = false) ->
    view d (fst (exec_all l fs)) = view d fs.
  Proof.
    induction l as [|s l IH]; intros fs H; simpl; auto.
    destruct (exec s fs) as [fs'|e] eqn:E; auto.
    rewrite IH by (intros; apply H; simpl; auto). eapply exec_other; eauto. apply H. simpl. auto.
  Qed.

  Lemma exec_fget s fs fs' p : exec s fs = Ok fs' -> p <> step_path s -> fget p fs' = fget p fs.
  Proof.
    intros E H. destruct s as [q|q|q j]; simpl in *.
    - destruct (node_at q fs) as [[|]|]; try discriminate; injection E as <-; auto.
      rewrite fget_fset. destruct (path_eqb_spec p q); congruence.
    - destruct (node_at (removelast q) fs) as [[|]|]; try discriminate.
      destruct (node_at q fs) as [[|]|]; try discriminate; injection E as <-;
        rewrite fget_fset; destruct (path_eqb_spec p q); congruence.
    - injection E as <-. rewrite fget_fset. destruct (path_eqb_spec p q); congruence.
  Qed.
  Lemma exec_all_fget l p : forall fs, (forall s, In s l -> p <> step_path s) -> fget p (fst (exec_all l fs)) = fget p fs.
  Proof.
    induction l as [|s l IH]; intros fs H; simpl; auto.
    destruct (exec s fs) as [fs'|e] eqn:E; auto.
    rewrite IH by (intros; apply H; simpl; auto). eapply exec_fget; eauto. apply H. simpl. auto.
  Qed.

  Definition put_list (n : string) (v : Z) (d : pyval) : list step :=
    mkdirs (dir_path root n) ++ [OpenW (file_path root n v); Write (file_path root n v) d].

  Lemma put_list_paths n v d s : valid_name n -> In s (put_list n v d) ->
    (exists q, root = step_path s ++ q) \/ step_path s = root ++ [quote_plus n] \/
    step_path s = root ++ [quote_plus n; file_name v].
  Proof.
    intros V. unfold put_list, mkdirs. rewrite dir_path_valid, file_path_valid by auto.
    rewrite prefixes_app, map_app, !in_app_iff, in_map_iff. simpl.
    intros [[(p & <- & Hp)|[<-|[]]]|[<-|[<-|[]]]]; simpl; auto.
    apply prefixes_spec in Hp as [_ Hp]. auto.
  Qed.

  Lemma in_firstn {A} (x : A) k l : In x (firstn k l) -> In x l.
  Proof. intros H. rewrite <- (firstn_skipn k l). apply in_or_app. auto. Qed.

  Lemma short_not_under (d p : path) : length p < length d -> is_under d p = false.
  Proof.
    intros H. destruct (is_under d p) eqn:E; auto. apply is_under_spec in E as [r ->].
    rewrite app_length in H. lia.
  Qed.

  Lemma put_list_other n v d m s : valid_name n -> valid_name m -> n <> m -> In s (put_list n v d) ->
    is_under (dir_path root m) (step_path s) = false.
  Proof.
    intros V Vm NE H. rewrite dir_path_valid by auto.
    assert (NQ : quote_plus m <> quote_plus n) by (intros E; apply quote_inj in E; congruence).
    destruct (put_list_paths n v d s V H) as [[q E]|[->| ->]].
    - apply short_not_under. apply (f_equal (@length _)) in E. rewrite app_length in *. simpl. lia.
    - destruct (is_under _ _) eqn:U; auto. apply is_under_spec in U as [r E].
      rewrite <- app_assoc in E. apply app_inv_head in E. simpl in E. congruence.
    - destruct (is_under _ _) eqn:U; auto. apply is_under_spec in U as [r E].
      rewrite <- app_assoc in E. apply app_inv_head in E. simpl in E. congruence.
  Qed.

  (** The state after a put that is cut off after [k] steps (all of them: a completed put). *)
  Lemma put_is_crash fs n t v : exists k, fst (put root fs n t v) = put_crash root k fs n t v.
  Proof.
    unfold put, put_crash. destruct (put_plan root fs n t v) as [[w l]|e]; [|now exists 0].
    exists (length l). rewrite firstn_all. destruct (exec_all l fs) as [fs' [|]]; reflexivity.
  Qed.

  Lemma put_crash_steps k fs n t v : put_crash root k fs n t v = fs \/
    exists w d, put_version root fs n v = Ok w /\ to_dict true true t = Ok d /\
      put_crash root k fs n t v = fst (exec_all (firstn k (put_list n w d)) fs).
  Proof.
    unfold put_crash, put_plan. destruct (put_version root fs n v) as [w|e]; simpl; auto.
    destruct (to_dict true true t) as [d|e]; simpl; auto. right. exists w, d. auto.
  Qed.

  Theorem crash_isolated k fs n m t v : valid_name n -> valid_name m -> n <> m ->
    view (dir_path root m) (put_crash root k fs n t v) = view (dir_path root m) fs.
  Proof.
    intros V Vm NE. destruct (put_crash_steps k fs n t v) as [->|(w & d & _ & _ & ->)]; auto.
    apply exec_all_other. intros s Hs. apply in_firstn in Hs. exact (put_list_other n w d m s V Vm NE Hs).
  Qed.

  Theorem crash_same_name k fs n t v w u : valid_name n -> put_version root fs n v = Ok w -> u <> w ->
    get_version root (put_crash root k fs n t v) n u = get_version root fs n u.
  Proof.
    intros V PV NE. destruct (put_crash_steps k fs n t v) as [->|(w' & d & PV' & _ & ->)]; auto.
    assert (w' = w) by congruence. subst w'.
    unfold get_version, read. rewrite file_path_valid by auto. rewrite !(node_at_app root) by discriminate.
    rewrite exec_all_fget; auto. intros s Hs. apply in_firstn in Hs.
    destruct (put_list_paths n w d s V Hs) as [[q E]|[->| ->]]; intros X.
    - rewrite <- X in E. apply (f_equal (@length _)) in E. rewrite !app_length in E. simpl in E. lia.
    - apply app_inv_head in X. discriminate.
    - apply app_inv_head in X. injection X as X. apply file_name_inj in X. congruence.
  Qed.

  Theorem crash_other k fs n t v w m u : valid_name n -> valid_name m ->
    put_version root fs n v = Ok w -> (m, u) <> (n, w) ->
    get_version root (put_crash root k fs n t v) m u = get_version root fs m u.
  Proof.
    intros V Vm PV NE. destruct (string_dec n m) as [<-|NM].
    - eapply crash_same_name; eauto. congruence.
    - apply get_version_view; auto. now apply crash_isolated.
  Qed.

  (** *** Nothing outside the root *)
  Definition root_exists (fs : fsys) : Prop := forall p q, root = p ++ q -> node_at p fs = Some Dir.

  Lemma exec_all_root k n v d fs p : root_exists fs -> valid_name n -> is_under root p = false ->
    fget p (fst (exec_all (firstn k (put_list n v d)) fs)) = fget p fs.
  Proof.
    intros R V U.
    assert (NU : forall q, p <> root ++ q).
    { intros q ->. assert (is_under root (root ++ q) = true) by (apply is_under_spec; eauto). congruence. }
    assert (G : forall l fs, (forall s, In s l -> (exists p q, s = Mkdir p /\ root = p ++ q) \/ step_path s <> p) ->
      root_exists fs -> (forall s, In s l -> (exists p q, s = Mkdir p /\ root = p ++ q) \/ exists q, step_path s = root ++ q /\ q <> []) ->
      fget p (fst (exec_all l fs)) = fget p fs).
    { induction l as [|s l IH]; intros f H RE H2; simpl; auto.
      destruct (exec s f) as [f'|e] eqn:E; auto.
      assert (X : fget p f' = fget p f /\ root_exists f').
      { destruct (H2 s (or_introl eq_refl)) as [(p0 & q & -> & Eq)|(q & Eq & NEq)].
        - simpl in E. rewrite (RE p0 q Eq) in E. injection E as <-. auto.
        - split; [eapply exec_fget; eauto; rewrite Eq; apply NU|].
          intros p0 q0 E0. rewrite <- (RE p0 q0 E0).
          destruct p0 as [|a p0]; [reflexivity|]. cbn [node_at]. eapply exec_fget; eauto.
          rewrite Eq. intros X. rewrite X, <- app_assoc in E0. rewrite <- (app_nil_r root) in E0 at 1. apply app_inv_head in E0.
          destruct q; [congruence|discriminate]. }
      destruct X as [<- RE']. apply IH; auto; intros; [apply H|apply H2]; simpl; auto. }
    assert (H2 : forall s, In s (firstn k (put_list n v d)) ->
       (exists p q, s = Mkdir p /\ root = p ++ q) \/ exists q, step_path s = root ++ q /\ q <> []).
    { intros s Hs. apply in_firstn in Hs. unfold put_list, mkdirs in Hs.
      rewrite dir_path_valid, file_path_valid, prefixes_app, map_app, !in_app_iff, in_map_iff in Hs by auto. simpl in Hs.
      destruct Hs as [[(p0 & <- & Hp)|[<-|[]]]|[<-|[<-|[]]]]; simpl.
      - apply prefixes_spec in Hp as [_ [q Hq]]. left. eauto.
      - right. eexists. split; [reflexivity|discriminate].
      - right. eexists. split; [reflexivity|discriminate].
      - right. eexists. split; [reflexivity|discriminate]. }
    apply G; auto. intros s Hs. destruct (H2 s Hs) as [?|(q & Eq & _)]; auto. right. rewrite Eq. intros X. now apply (NU q).
  Qed.

  Theorem crash_outside k fs n t v p : root_exists fs -> valid_name n -> is_under root p = false ->
    fget p (put_crash root k fs n t v) = fget p fs.
  Proof.
    intros R V U. destruct (put_crash_steps k fs n t v) as [->|(w & d & _ & _ & ->)]; auto.
    now apply exec_all_root.
  Qed.

  (** Two disks with the same content below the root: the same results. *)
  Lemma exec_view s fs1 fs2 : root_exists fs1 -> root_exists fs2 -> view root fs1 = view root fs2 ->
    ((exists p q, s = Mkdir p /\ root = p ++ q) \/ exists q x, step_path s = root ++ q ++ [x]) ->
    match exec s fs1, exec s fs2 with
    | Ok f1, Ok f2 => view root f1 = view root f2 /\ root_exists f1 /\ root_exists f2
    | Err e1, Err e2 => e1 = e2
    | _, _ => False
    end.
  Proof.
    intros R1 R2 E [(p & q & -> & Eq)|(q & x & Eq)].
    - simpl. rewrite (R1 p q Eq), (R2 p q Eq). auto.
    - assert (U : is_under root (step_path s) = true) by (apply is_under_spec; eauto).
      assert (U' : is_under root (removelast (step_path s)) = true).
      { rewrite Eq, app_assoc, removelast_last. apply is_under_spec. eauto. }
      assert (RE : forall nd f, root_exists f -> root_exists (fset (step_path s) nd f)).
      { intros nd f R p0 q0 E0. rewrite <- (R p0 q0 E0). rewrite node_at_fset; auto.
        - rewrite Eq, (root_not_below root p0 q0) by (auto || destruct q; discriminate). reflexivity.
        - rewrite Eq. destruct root; [destruct q; discriminate|discriminate]. }
      assert (VF : forall nd, view root (fset (step_path s) nd fs1) = view root (fset (step_path s) nd fs2))
        by (intros; now apply view_fset_in).
      destruct s as [p|p|p j]; simpl in *.
      + rewrite (node_at_view root p fs1 fs2 E U). destruct (node_at p fs2) as [[|]|]; auto.
      + rewrite (node_at_view root p fs1 fs2 E U), (node_at_view root _ fs1 fs2 E U').
        destruct (node_at (removelast p) fs2) as [[|]|]; auto. destruct (node_at p fs2) as [[|]|]; auto.
      + auto.
  Qed.
  Lemma exec_all_view l : forall fs1 fs2, root_exists fs1 -> root_exists fs2 -> view root fs1 = view root fs2 ->
    (forall s, In s l -> (exists p q, s = Mkdir p /\ root = p ++ q) \/ exists q x, step_path s = root ++ q ++ [x]) ->
    snd (exec_all l fs1) = snd (exec_all l fs2) /\
    view root (fst (exec_all l fs1)) = view root (fst (exec_all l fs2)).
  Proof.
    induction l as [|s l IH]; intros fs1 fs2 R1 R2 E H; simpl; auto.
    pose proof (exec_view s fs1 fs2 R1 R2 E (H s (or_introl eq_refl))) as X.
    destruct (exec s fs1) as [f1|e1], (exec s fs2) as [f2|e2]; try tauto.
    - destruct X as (X1 & X2 & X3). apply IH; auto. intros. apply H. simpl. auto.
    - subst. auto.
  Qed.

  Lemma put_list_shape n v d s : valid_name n -> In s (put_list n v d) ->
    (exists p q, s = Mkdir p /\ root = p ++ q) \/ exists q x, step_path s = root ++ q ++ [x].
  Proof.
    intros V Hs. unfold put_list, mkdirs in Hs.
    rewrite dir_path_valid, file_path_valid, prefixes_app, map_app, !in_app_iff, in_map_iff in Hs by auto. simpl in Hs.
    destruct Hs as [[(p0 & <- & Hp)|[<-|[]]]|[<-|[<-|[]]]]; simpl.
    - apply prefixes_spec in Hp as [_ [q Hq]]. left. eauto.
    - right. exists [], (quote_plus n). reflexivity.
    - right. exists [quote_plus n], (file_name v). reflexivity.
    - right. exists [quote_plus n], (file_name v). reflexivity.
  Qed.

  Theorem op_confined c fs1 fs2 : root_exists fs1 -> root_exists fs2 -> view root fs1 = view root fs2 -> cop_ok c ->
    snd (run_cop root fs1 c) = snd (run_cop root fs2 c) /\
    view root (fst (run_cop root fs1 c)) = view root (fst (run_cop root fs2 c)).
  Proof.
    intros R1 R2 E OK.
    assert (D : forall n, valid_name n -> view (dir_path root n) fs1 = view (dir_path root n) fs2).
    { intros n V. eapply view_view; eauto. now apply root_dir. }
    destruct c as [[n t v|n v|n|n|]|n t v k]; unfold cop_ok in OK; simpl in *.
    - unfold put. rewrite (put_plan_view n t v fs1 fs2 OK (D n OK)).
      destruct (put_plan root fs2 n t v) as [[w l]|e] eqn:P; simpl; auto.
      assert (exists d, l = put_list n w d) as [d ->].
      { unfold put_plan in P. destruct (put_version root fs2 n v) as [w'|]; [|discriminate]. cbn [rbind] in P.
        destruct (to_dict true true t) as [d|]; [|discriminate]. cbn [rbind] in P. injection P as <- <-.
        exists d. reflexivity. }
      destruct (exec_all_view (put_list n w d) fs1 fs2 R1 R2 E) as [X1 X2].
      { intros s Hs. eapply put_list_shape; eauto. }
      destruct (exec_all (put_list n w d) fs1) as [f1 r1], (exec_all (put_list n w d) fs2) as [f2 r2]. simpl in *. subst r1.
      destruct r2; auto.
    - rewrite (get_view n v fs1 fs2 OK (D n OK)). auto.
    - rewrite (versions_view n fs1 fs2 OK (D n OK)). auto.
    - rewrite (latest_view n fs1 fs2 OK (D n OK)). auto.
    - rewrite (ls_view fs1 fs2 E). auto.
    - split; auto. unfold put_crash. rewrite (put_plan_view n t v fs1 fs2 OK (D n OK)).
      destruct (put_plan root fs2 n t v) as [[w l]|e] eqn:P; simpl; auto.
      assert (exists d, l = put_list n w d) as [d ->].
      { unfold put_plan in P. destruct (put_version root fs2 n v) as [w'|]; [|discriminate]. cbn [rbind] in P.
        destruct (to_dict true true t) as [d|]; [|discriminate]. cbn [rbind] in P. injection P as <- <-.
        exists d. reflexivity. }
      apply exec_all_view; auto. intros s Hs. apply in_firstn in Hs. eapply put_list_shape; eauto.
  Qed.

  Theorem op_outside c fs p : root_exists fs -> cop_ok c -> is_under root p = false ->
    fget p (fst (run_cop root fs c)) = fget p fs.
  Proof.
    intros R OK U. destruct c as [[n t v|n v|n|n|]|n t v k]; unfold cop_ok in OK; simpl in *; auto.
    - destruct (put root fs n t v) as [f r] eqn:P. simpl. destruct (put_is_crash fs n t v) as [k K].
      rewrite P in K. simpl in K. subst f. now apply crash_outside.
    - now apply crash_outside.
  Qed.

  (** *** Presence of other names *)
  Lemma ls_member fs m : root_exists fs -> exists l, ls root fs = Ok l /\
    (In m l <-> exists x, unquote_plus x = m /\ exists nd, fget (root ++ [x]) fs = Some nd).
  Proof.
    intros R. unfold ls, listdir. rewrite (R root []) by now rewrite app_nil_r. simpl. eexists. split; [reflexivity|].
    rewrite sorted_In, in_map_iff. split; intros (x & E & H); exists x; split; auto.
    - now apply child_names_In, fget_key in H.
    - now apply child_names_In, fget_key.
  Qed.

  Lemma crash_root k fs n t v : root_exists fs -> valid_name n -> root_exists (put_crash root k fs n t v).
  Proof.
    intros R V p q E. rewrite <- (R p q E). destruct p as [|a p]; [reflexivity|]. cbn [node_at].
    destruct q as [|b q].
    - rewrite app_nil_r in E. rewrite <- E. (* the root itself *)
      destruct (put_crash_steps k fs n t v) as [->|(w & d & _ & _ & ->)]; auto.
      assert (G : forall l f, root_exists f -> (forall s, In s l -> (exists p q, s = Mkdir p /\ root = p ++ q) \/ exists q x, step_path s = root ++ q ++ [x]) ->
        fget root (fst (exec_all l f)) = fget root f).
      { induction l as [|s l IH]; intros f RE H; simpl; auto.
        pose proof (exec_view s f f RE RE eq_refl (H s (or_introl eq_refl))) as X.
        destruct (exec s f) as [f1|e1] eqn:Ex; auto. destruct X as (_ & X & _).
        rewrite IH by (auto; intros; apply H; simpl; auto).
        destruct (H s (or_introl eq_refl)) as [(p0 & q0 & -> & Eq)|(q0 & x & Eq)].
        - simpl in Ex. rewrite (RE p0 q0 Eq) in Ex. congruence.
        - eapply exec_fget; eauto. rewrite Eq. intros Y. apply (f_equal (@length _)) in Y. rewrite !app_length in Y. simpl in Y. lia. }
      apply G; auto. intros s Hs. apply in_firstn in Hs. eapply put_list_shape; eauto.
    - apply crash_outside; auto. apply short_not_under. rewrite E, app_length. simpl. lia.
  Qed.

  Theorem crash_ls k fs n m t v : root_exists fs -> valid_name n -> n <> m ->
    exists l l', ls root fs = Ok l /\ ls root (put_crash root k fs n t v) = Ok l' /\ (In m l <-> In m l').
  Proof.
    intros R V NE. destruct (ls_member fs m R) as (l & E & HL).
    destruct (ls_member _ m (crash_root k fs n t v R V)) as (l' & E' & HL').
    exists l, l'. split; auto. split; auto. rewrite HL, HL'.
    assert (G : forall x, unquote_plus x = m -> fget (root ++ [x]) (put_crash root k fs n t v) = fget (root ++ [x]) fs).
    { intros x Hx. destruct (put_crash_steps k fs n t v) as [->|(w & d & _ & _ & ->)]; auto.
      assert (G : forall l f, root_exists f -> (forall s, In s l -> (exists p q, s = Mkdir p /\ root = p ++ q) \/ (exists q x, step_path s = root ++ q ++ [x]) /\ step_path s <> root ++ [x]) ->
        fget (root ++ [x]) (fst (exec_all l f)) = fget (root ++ [x]) f).
      { induction l0 as [|s l0 IH]; intros f RE H; simpl; auto.
        assert (SH : (exists p q, s = Mkdir p /\ root = p ++ q) \/ exists q x, step_path s = root ++ q ++ [x]).
        { destruct (H s (or_introl eq_refl)) as [?|[? _]]; auto. }
        pose proof (exec_view s f f RE RE eq_refl SH) as X.
        destruct (exec s f) as [f1|e1] eqn:Ex; auto. destruct X as (_ & X & _).
        rewrite IH by (auto; intros; apply H; simpl; auto).
        destruct (H s (or_introl eq_refl)) as [(p0 & q0 & -> & Eq)|(_ & Ne)].
        - simpl in Ex. rewrite (RE p0 q0 Eq) in Ex. congruence.
        - eapply exec_fget; eauto. }
      apply G; auto. intros s Hs. apply in_firstn in Hs.
      destruct (put_list_shape n w d s V Hs) as [?|Sh]; auto. right. split; auto.
      destruct (put_list_paths n w d s V Hs) as [[q Eq]|[->| ->]]; intros X.
      - rewrite X in Eq. apply (f_equal (@length _)) in Eq. rewrite !app_length in Eq. simpl in Eq. lia.
      - apply app_inv_head in X. injection X as X. subst x. rewrite unquote_quote in Hx. congruence.
      - apply app_inv_head in X. discriminate. }
    split; intros (x & Hx & nd & Hnd); exists x; split; auto; exists nd; [rewrite G|rewrite <- G]; auto.
  Qed.
End Reads.
