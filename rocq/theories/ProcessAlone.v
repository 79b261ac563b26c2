(** A process that has a name to itself gets the answers of the registry without other processes
    (proofs only). *)
From Coq Require Import String List ZArith Lia Bool Sorting.Sorted.
From Verif Require Import PyVal PyValFacts RType Registry FromDict ToDict Quote QuoteFacts Storage SpecStorage StorageFacts StorageMore
  Server ServerFacts CrashFacts Processes SpecProcesses ProcessFacts ProcessNames.
Import ListNotations.
Open Scope nat_scope.
Open Scope string_scope.
Open Scope list_scope.

Lemma plan_last pre s q j ps f d : pre ++ [s; Write q j] = map Mkdir ps ++ [OpenW f; Write f d] -> s = OpenW f /\ q = f /\ j = d.
Proof.
  intros E. change [s; Write q j] with ([s] ++ [Write q j]) in E. change [OpenW f; Write f d] with ([OpenW f] ++ [Write f d]) in E.
  rewrite !app_assoc in E. apply app_inj_tail in E as [E [= -> ->]]. apply app_inj_tail in E as [_ ->]. auto.
Qed.
Lemma plan_write pre q j r ps f d : pre ++ Write q j :: r = map Mkdir ps ++ [OpenW f; Write f d] -> r = [] /\ q = f /\ j = d.
Proof.
  intros E. change [OpenW f; Write f d] with ([OpenW f] ++ [Write f d]) in E. rewrite app_assoc in E.
  destruct r as [|x r] using rev_ind; [apply app_inj_tail in E as [_ [= -> ->]]; auto|clear IHr].
  rewrite app_comm_cons, app_assoc in E. apply app_inj_tail in E as [E _].
  destruct r as [|y r] using rev_ind; [apply app_inj_tail in E as [_ [=]]|clear IHr].
  rewrite app_comm_cons, app_assoc in E. apply app_inj_tail in E as [E _].
  assert (IN : In (Write q j) (map Mkdir ps)) by (rewrite <- E; apply in_or_app; simpl; auto).
  apply in_map_iff in IN as (? & [=] & _).
Qed.

Section Alone.
  Variable root : path.
  Hypothesis root_valid : Forall valid_name root.
  Variable size : pyval -> nat.

  (** How far a call is that began on the disk [fs]. *)
  Definition amid (o : op) (fs : fsys) (d : disk) (ph : phase) : Prop :=
    match o, ph with
    | _, Begin => fst d = fs
    | OPut n t v, Putting w l => exists pre, put_plan root fs n t v = Ok (w, pre ++ l) /\ exec_all pre fs = (fst d, Ok tt) /\
        match l with [Write q _] => text_len q (snd d) = 0 | _ => True end
    | OGet n None, Getting v => fst d = fs /\ get root fs n None = get_version root fs n v
    | _, _ => False
    end.

  Lemma advance_alone o fs d ph : amid o fs d ph ->
    match advance root size d o ph with
    | (d', inl ph') => amid o fs d' ph'
    | (d', inr a) => run_op root fs o = (fst d', a)
    end.
  Proof.
    intros A. destruct o as [n t v|n v|n|n|].
    - destruct ph as [|w [|s l]|u]; cbn [amid advance] in *; [| | |contradiction].
      + subst fs. destruct (put_plan root (fst d) n t v) as [[w l]|e] eqn:P.
        * cbn [amid]. exists []. split; auto. split; auto. apply plan_list in P as [d' ->]. unfold put_list.
          destruct (mkdirs (dir_path root n)) as [|x [|y l]]; simpl; auto; [destruct x|destruct x]; auto.
        * unfold run_op, put. now rewrite P.
      + destruct A as (pre & P & E & _). rewrite app_nil_r in P. unfold run_op, put. now rewrite P, E.
      + destruct A as (pre & P & E & TL). pose proof P as PL. apply plan_list in PL as [j PL]. unfold put_list, mkdirs in PL.
        assert (NX : match l with [Write q _] => s = OpenW q | _ => True end).
        { destruct l as [|[p|p|q j'] [|y l]]; auto. apply plan_last in PL as (-> & -> & _). auto. }
        assert (F : forall fs', exec s (fst d) = Ok fs' -> exec_all (pre ++ [s]) fs = (fs', Ok tt)).
        { intros fs' X. rewrite exec_all_app, E. simpl. now rewrite X. }
        assert (FE : forall e, exec s (fst d) = Err e -> run_op root fs (OPut n t v) = (fst d, APut (Err e))).
        { intros e X. unfold run_op, put. rewrite P, exec_all_app, E. simpl. now rewrite X. }
        assert (P' : put_plan root fs n t v = Ok (w, (pre ++ [s]) ++ l)) by now rewrite <- app_assoc.
        destruct d as [f L]. cbn [fst snd] in *. destruct s as [p|p|p d'].
        * cbn [access]. destruct (exec (Mkdir p) f) as [f'|e] eqn:X; cbn [rbind]; [|now apply FE].
          cbn [amid fst snd]. exists (pre ++ [Mkdir p]). split; auto. split; auto.
          destruct l as [|[| |] [|]]; auto; discriminate NX.
        * cbn [access]. destruct (exec (OpenW p) f) as [f'|e] eqn:X; cbn [rbind]; [|now apply FE].
          cbn [amid fst snd]. exists (pre ++ [OpenW p]). split; auto. split; auto.
          destruct l as [|[| |] [|]]; auto. injection NX as ->. simpl. now rewrite path_eqb_refl.
        * destruct (plan_write _ _ _ _ _ _ _ PL) as (-> & _). cbn [access]. rewrite TL. cbn [Nat.leb amid fst snd].
          exists (pre ++ [Write p d']). split; auto.
    - destruct ph, v; cbn [amid advance] in *; try contradiction.
      + subst fs. reflexivity.
      + subst fs. assert (G : get root (fst d) n None = get root (fst d) n None) by reflexivity. unfold get at 1 in G.
        destruct (versions root (fst d) n) as [[[|x l]|]|]; cbn [rbind] in G.
        * unfold run_op. now rewrite <- G.
        * destruct (max_list (x :: l)); [cbn [amid]; auto|unfold run_op; now rewrite <- G].
        * unfold run_op. now rewrite <- G.
        * unfold run_op. now rewrite <- G.
      + destruct A as [<- G]. unfold run_op. now rewrite G.
    - destruct ph; cbn [amid advance] in *; try contradiction. now subst fs.
    - destruct ph; cbn [amid advance] in *; try contradiction. now subst fs.
    - destruct ph; cbn [amid advance] in *; try contradiction. now subst fs.
  Qed.

  Lemma run_ops_snoc o : forall l fs, run_ops root fs (l ++ [o]) =
    (fst (run_op root (fst (run_ops root fs l)) o), snd (run_ops root fs l) ++ [snd (run_op root (fst (run_ops root fs l)) o)]).
  Proof.
    induction l as [|x l IH]; intros fs; cbn [run_ops app].
    - cbn [fst snd app]. destruct (run_op root fs o); reflexivity.
    - destruct (run_op root fs x) as [fs1 a]. rewrite IH. destruct (run_ops root fs1 l); reflexivity.
  Qed.
  Lemma run_ops_len : forall l fs, length (snd (run_ops root fs l)) = length l.
  Proof.
    induction l as [|x l IH]; intros fs; cbn [run_ops]; auto. destruct (run_op root fs x) as [fs1 a].
    specialize (IH fs1). destruct (run_ops root fs1 l). simpl in *. now rewrite IH.
  Qed.
  Lemma run_ops_app a b : forall fs, snd (run_ops root fs (a ++ b)) = snd (run_ops root fs a) ++ snd (run_ops root (fst (run_ops root fs a)) b).
  Proof.
    induction a as [|x a IH]; intros fs; cbn [run_ops app]; auto.
    destruct (run_op root fs x) as [fs1 y]. specialize (IH fs1). destruct (run_ops root fs1 (a ++ b)), (run_ops root fs1 a). simpl in *. now rewrite IH.
  Qed.

  (** The process [p] has made the calls [ops] up to where it stands, and nobody else any. *)
  Definition single (fs0 : fsys) (ops : list op) (d : disk) (p : process) : Prop :=
    ops = map fst (finished p) ++ todo p /\
    map snd (finished p) = snd (run_ops root fs0 (map fst (finished p))) /\
    let fs := fst (run_ops root fs0 (map fst (finished p))) in
    match todo p with o :: _ => amid o fs d (stands p) | [] => fst d = fs end.

  Lemma single_step fs0 ops d p : single fs0 ops d p -> single fs0 ops (fst (proceed root size d p)) (snd (proceed root size d p)).
  Proof.
    intros (E & A & M). unfold proceed. destruct (todo p) as [|o r] eqn:T.
    - cbn [fst snd]. unfold single. rewrite T. auto.
    - pose proof (advance_alone _ _ _ _ M) as X. destruct (advance root size d o (stands p)) as [d' [ph|a]]; cbn [fst snd].
      + split; [|split]; auto.
      + unfold single. cbn [finished todo stands]. rewrite !map_app. cbn [map fst snd]. rewrite run_ops_snoc, X. cbn [fst snd].
        split; [now rewrite <- app_assoc|]. split; [now rewrite A|]. destruct r as [|o' r]; [reflexivity|]. destruct o' as [? ? ?|? [|]| | |]; reflexivity.
  Qed.

  Lemma idle_run i sched : forall d l, (forall j q, j <> i -> nth_error l j = Some q -> todo q = []) ->
    forall fs0 ops p, nth_error l i = Some p -> single fs0 ops d p ->
    exists p', nth_error (snd (run root size sched (d, l))) i = Some p' /\ single fs0 ops (fst (run root size sched (d, l))) p'.
  Proof.
    induction sched as [|k sched IH]; intros d l F fs0 ops p N S; [exists p; auto|]. cbn [run fst snd].
    destruct (Nat.eq_dec k i) as [->|NE].
    - rewrite (proceed_nth_eq root size i d l p N). pose proof (single_step _ _ _ _ S) as S'. unfold proceed in S'.
      destruct (todo p) as [|o r] eqn:T; [eapply IH; eauto|].
      destruct (advance root size d o (stands p)) as [d' x] eqn:A. cbn [fst snd].
      eapply IH; [|eapply nth_replace_eq; eauto|destruct x; exact S'].
      intros j q NJ Hq. rewrite nth_replace_ne in Hq by auto. eapply F; eauto.
    - destruct (nth_error l k) as [q|] eqn:Q; [|rewrite proceed_nth_none by auto; eapply IH; eauto].
      rewrite (proceed_nth_eq root size k d l q Q), (F k q NE Q). eapply IH; eauto.
  Qed.

  Theorem own_name m fs calls sched i p ops : valid_name m -> root_exists root fs -> Forall (Forall op_ok) calls ->
    nth_error calls i = Some ops ->
    (forall j l o, j <> i -> nth_error calls j = Some l -> In o l -> about m o = false) ->
    let s := run root size sched (system_of fs calls) in
    nth_error (snd s) i = Some p ->
    let mine := filter (about m) ops in
    map snd (answers_about m p) = firstn (length (answers_about m p)) (snd (run_ops root fs mine)) /\
    (todo p = [] -> let fs' := fst (run_ops root fs mine) in
       length (answers_about m p) = length mine /\
       versions root (fst (fst s)) m = versions root fs' m /\ latest root (fst (fst s)) m = latest root fs' m /\
       forall v, get root (fst (fst s)) m v = get root fs' m v).
  Proof.
    intros V R OK N U s Hp mine.
    destruct (simulation root root_valid size m V sched (fs, []) (fs, []) (map begin calls)) as (sched' & A & E).
    { split; auto. }
    { apply Forall_forall. intros q Hq. apply in_map_iff in Hq as (l & <- & Hl). split; [exact (proj1 (Forall_forall _ _) OK l Hl)|].
      destruct l as [|o l]; [reflexivity|]. destruct o; exact Logic.I. }
    fold (system_of fs calls) in A, E. change (fs, [], map begin calls) with (system_of fs calls) in A, E. fold s in A, E.
    destruct (idle_run i sched' (fs, []) (map (erase m) (map begin calls))) with (fs0 := fs) (ops := mine) (p := begin mine) as (p' & N' & S').
    { intros j q NJ Hq. rewrite map_map, nth_error_map in Hq. destruct (nth_error calls j) as [l|] eqn:L; [|discriminate]. injection Hq as <-.
      cbn [erase todo begin]. specialize (U j l). clear - NJ L U. induction l as [|o l IH]; auto. simpl.
      assert (X : forall o', In o' (o :: l) -> about m o' = false) by (intros; now apply U). rewrite X by (simpl; auto).
      clear IH U L. induction l as [|o' l IH]; auto. simpl. rewrite X by (simpl; auto). apply IH. intros o1 [H|H]; apply X; simpl; auto. }
    { rewrite map_map, nth_error_map, N. cbn [option_map]. now rewrite erase_begin. }
    { split; [reflexivity|]. split; [reflexivity|]. cbn [begin finished map run_ops fst todo stands]. destruct mine as [|o l]; [reflexivity|]. destruct o as [? ? ?|? [|]| | |]; reflexivity. }
    cbn [fst snd] in *. assert (PE : p' = erase m p).
    { pose proof (f_equal (fun l => nth_error l i) E) as X. cbv beta in X. rewrite nth_error_map, Hp in X. cbn [option_map] in X.
      pose proof (eq_trans X N') as Y. congruence. }
    subst p'. destruct S' as (S1 & S2 & S3). cbn [erase finished todo] in S1, S2, S3. split.
    - rewrite S2. rewrite S1 at 1. rewrite run_ops_app. rewrite <- (map_length fst (answers_about m p)), <- (run_ops_len (map fst (answers_about m p)) fs).
      rewrite firstn_app, Nat.sub_diag, firstn_all. simpl. now rewrite app_nil_r.
    - intros T. set (fs' := fst (run_ops root fs mine)) in *. rewrite T in S1, S3. cbn [filter] in S1, S3. rewrite app_nil_r in S1. split; [now rewrite S1, map_length|].
      rewrite <- S1 in S3. fold fs' in S3. destruct A as (VW & _). cbn [fst snd] in VW, S3.
      assert (VW' : view (dir_path root m) (fst (fst s)) = view (dir_path root m) fs') by (rewrite VW; f_equal; exact S3).
      split; [now apply versions_view|]. split; [now apply latest_view|]. intros v. now apply get_view.
  Qed.
End Alone.
