(** Versions given out by put, and what a crash leaves readable (proofs only). *)
From Coq Require Import String List ZArith Lia Bool.
From Verif Require Import PyVal PyValFacts RType Registry FromDict ToDict Quote Storage SpecStorage StorageFacts StorageMore Server ServerFacts.
Import ListNotations.
Open Scope nat_scope.
Open Scope string_scope.
Open Scope list_scope.

Section Crash.
  Variable root : path.
  Hypothesis root_valid : Forall valid_name root.

  Lemma latest_unique h n v w : latest_present h n v -> latest_present h n w -> v = w.
  Proof. intros [A B] [C D]. apply B in C. apply D in A. lia. Qed.

  (** The answer to a read of the latest version depends only on the entries. *)
  Lemma get_entries fs h fs' h' n : Inv root fs h -> Inv root fs' h' -> valid_name n ->
    (forall v, entry h n v = entry h' n v) -> get root fs' n None = get root fs n None.
  Proof.
    intros I I' V E.
    assert (P : forall v, present h n v <-> present h' n v) by (intros v; unfold present; now rewrite E).
    destruct (get_latest_spec root root_valid fs h n I V) as [[H ->]|(v & L & ->)];
    destruct (get_latest_spec root root_valid fs' h' n I' V) as [[H' ->]|(v' & L' & ->)]; auto.
    - destruct L' as [L' _]. apply P in L'. now apply H in L'.
    - destruct L as [L _]. apply P in L. now apply H' in L.
    - assert (L2 : latest_present h n v').
      { destruct L' as [A B]. split; [now apply P|]. intros u Hu. apply B. now apply P. }
      rewrite (latest_unique h n v v' L L2). unfold answer_of. now rewrite E.
  Qed.

  Lemma get_stored fs h n w d : Inv root fs (Stored n w d :: h) -> valid_name n -> (forall u, present h n u -> (u <= w)%Z) ->
    get root fs n None = match snd (from_dict_new d) with Ok t => Ok (Some (t, w)) | Err e => Err e end.
  Proof.
    intros I V H.
    assert (L : latest_present (Stored n w d :: h) n w).
    { split; [apply present_stored|]. intros u Hu. unfold present in Hu. rewrite entry_stored in Hu.
      destruct (Z.eqb_spec u w); [lia|]. rewrite andb_false_r in Hu. now apply H. }
    destruct (get_latest_spec root root_valid fs _ n I V) as [[N _]|(v & L' & ->)].
    - elim (N w). apply present_stored.
    - rewrite (latest_unique _ _ _ _ L' L). unfold answer_of. rewrite entry_stored, String.eqb_refl, Z.eqb_refl. reflexivity.
  Qed.

  Theorem crash_latest k fs n t v : reachable root fs -> valid_name n ->
    get root (put_crash root k fs n t v) n None = get root fs n None \/
    get root (put_crash root k fs n t v) n None = get root (fst (put root fs n t v)) n None \/
    (k = length root + 2 /\ get root (put_crash root k fs n t v) n None = Err JSONDecodeError).
  Proof.
    intros R V. destruct (reachable_inv root fs root_valid R) as [h I].
    unfold put_crash, put, put_plan.
    destruct (put_version_spec root root_valid fs h n v I V) as (w & -> & T). cbn [rbind].
    destruct (to_dict true true t) as [d|e]; cbn [rbind]; [|auto].
    rewrite (put_steps root root_valid fs h n w d I V). cbn [fst].
    assert (ML : length (mkdirs (dir_path root n)) = length root + 1).
    { rewrite dir_path_valid by auto. unfold mkdirs. rewrite map_length.
      assert (G : forall p : path, length (prefixes p) = length p).
      { induction p; simpl; auto. rewrite map_length. f_equal. exact IHp. }
      rewrite G, app_length. reflexivity. }
    rewrite firstn_app.
    destruct (le_lt_dec k (length (mkdirs (dir_path root n)))) as [Hk|Hk].
    - replace (k - length (mkdirs (dir_path root n))) with 0 by lia. rewrite firstn_O, app_nil_r.
      left. destruct (firstn_mkdirs root root_valid k fs n h I V Hk) as [->| ->]; auto.
      apply (get_entries fs h (made_dir root n fs) (Created n :: h)); auto. now apply inv_made_dir.
    - rewrite (firstn_all2 (mkdirs _)) by lia.
      rewrite exec_all_app, (mkdirs_name root root_valid _ _ _ I V), file_path_valid by auto.
      destruct (k - length (mkdirs (dir_path root n))) as [|[|j]] eqn:Ek; [lia| |];
        cbn [firstn exec_all]; rewrite (exec_open root _ _ _ _ I).
      + assert (I' := inv_opened root fs h n w I). cbn [exec_all fst].
        assert (EN : entry (Damaged n w :: h) n w = Some None) by (simpl; now rewrite String.eqb_refl, Z.eqb_refl).
        assert (EO : forall u, u <> w -> entry (Damaged n w :: h) n u = entry h n u).
        { intros u Hu. simpl. destruct (Z.eqb_spec u w); [congruence|]. now rewrite andb_false_r. }
        destruct (get_latest_spec root root_valid _ _ n I' V) as [[N _]|(u & L & E)].
        { elim (N w). unfold present. rewrite EN. discriminate. }
        rewrite E. destruct (Z.eq_dec u w) as [->|NE].
        * right. right. split; [lia|]. unfold answer_of. now rewrite EN.
        * left. destruct L as [L1 L2]. unfold present in L1. rewrite EO in L1 by auto.
          assert (L : latest_present h n u).
          { split; auto. intros x Hx. apply L2. unfold present in *. destruct (Z.eq_dec x w) as [->|]; [rewrite EN; discriminate|now rewrite EO]. }
          destruct (get_latest_spec root root_valid fs h n I V) as [[N _]|(u' & L' & E')].
          { elim (N u). exact L1. }
          rewrite E'. rewrite (latest_unique _ _ _ _ L' L). unfold answer_of. now rewrite EO.
      + replace (firstn j [] : list step) with ([] : list step) by now destruct j. right. left. reflexivity.
  Qed.

  (** A later put without version makes the latest version readable again. *)
  Theorem put_recovers fs n t d : reachable root fs -> valid_name n -> to_dict true true t = Ok d ->
    exists fs' w, put root fs n t None = (fs', Ok w) /\
      get root fs' n None = match snd (from_dict_new d) with Ok t' => Ok (Some (t', w)) | Err e => Err e end.
  Proof.
    intros R V W. destruct (reachable_inv root fs root_valid R) as [h I].
    unfold put, put_plan. destruct (put_version_spec root root_valid fs h n None I V) as (w & -> & T). cbn [rbind].
    rewrite W. cbn [rbind]. rewrite (put_steps root root_valid fs h n w d I V). eexists. exists w. split; [reflexivity|].
    apply (get_stored _ h); auto; [now apply inv_written|].
    intros u Hu. inversion T as [N|m [_ L]]; subst.
    - now apply N in Hu.
    - apply L in Hu. lia.
  Qed.

  Lemma versions_get fs h n u : Inv root fs h -> valid_name n -> (get root fs n (Some u) <> Ok None <-> present h n u).
  Proof.
    intros I V. cbn [get]. rewrite (get_version_spec root root_valid _ _ _ _ I V). unfold answer_of, present.
    destruct (entry h n u) as [[d|]|]; split; try congruence. destruct (parse d); congruence.
  Qed.

  (** The version put assigns. *)
  Theorem put_assigns fs n t fs' v : reachable root fs -> valid_name n -> put root fs n t None = (fs', Ok v) ->
    (forall u, get root fs n (Some u) <> Ok None -> (u < v)%Z) /\
    ((v = 1%Z /\ (forall u, get root fs n (Some u) = Ok None)) \/ get root fs n (Some (v - 1)%Z) <> Ok None).
  Proof.
    intros R V P. destruct (reachable_inv root fs root_valid R) as [h I].
    destruct (put_inv root root_valid fs h n t None I V) as [[e E]|(w & d & f & E & T & _)]; rewrite P in E; [discriminate|].
    injection E as <- <-. simpl in T.
    assert (G : forall u, get root fs n (Some u) = Ok None <-> ~ present h n u).
    { intros u. rewrite <- (versions_get fs h n u I V). destruct (get root fs n (Some u)) as [[|]|]; split; try congruence; intros H; elim H; discriminate. }
    inversion T as [N E|m [L1 L2] E]; subst.
    - split; [intros u Hu; apply (versions_get fs h n u I V) in Hu; now apply N in Hu|].
      left. split; auto. intros u. apply G. auto.
    - split.
      + intros u Hu. apply (versions_get fs h n u I V) in Hu. apply L2 in Hu. lia.
      + right. apply (versions_get fs h n _ I V). now replace (m + 1 - 1)%Z with m by lia.
  Qed.

  Theorem put_sequence ts : forall fs n, reachable root fs -> valid_name n ->
    Forall (fun t => exists d, to_dict true true t = Ok d) ts -> versions root fs n = Ok None ->
    snd (run_ops root fs (map (fun t => OPut n t None) ts)) = map (fun i => APut (Ok (Z.of_nat i))) (seq 1 (length ts)).
  Proof.
    intros fs n R V F N. destruct (reachable_inv root fs root_valid R) as [h I].
    assert (G : forall ts fs h k, Inv root fs h -> Forall (fun t => exists d, to_dict true true t = Ok d) ts ->
      next_version h n (Z.of_nat k) -> snd (run_ops root fs (map (fun t => OPut n t None) ts)) =
        map (fun i => APut (Ok (Z.of_nat i))) (seq k (length ts))).
    { clear - root_valid V. induction ts as [|t ts IH]; intros fs h k I F NV; simpl; auto.
      inversion F as [|? ? [d D] F']; subst.
      assert (exists fs', put root fs n t None = (fs', Ok (Z.of_nat k)) /\ Inv root fs' (Stored n (Z.of_nat k) d :: h)) as (fs' & P & I').
      { unfold put, put_plan. destruct (put_version_spec root root_valid fs h n None I V) as (w & -> & T). cbn [rbind].
        rewrite D. cbn [rbind]. rewrite (put_steps root root_valid fs h n w d I V).
        assert (w = Z.of_nat k) as ->.
        { simpl in T. inversion T as [N E|m L E]; inversion NV as [N' E'|m' L' E']; subst; auto.
          - destruct L' as [L' _]. now apply N in L'.
          - destruct L as [L _]. now apply N' in L.
          - now rewrite (latest_unique _ _ _ _ L L'). }
        eexists. split; [reflexivity|]. now apply inv_written. }
      rewrite P. assert (NV' : next_version (Stored n (Z.of_nat k) d :: h) n (Z.of_nat (S k))).
      { rewrite Nat2Z.inj_succ. unfold Z.succ. constructor. split; [apply present_stored|].
        intros u Hu. unfold present in Hu. rewrite entry_stored in Hu. destruct (Z.eqb_spec u (Z.of_nat k)); [lia|].
        rewrite andb_false_r in Hu. inversion NV as [N E|m [_ L] E]; subst.
        - now apply N in Hu.
        - apply L in Hu. lia. }
      specialize (IH fs' _ (S k) I' F' NV'). destruct (run_ops root fs' (map (fun t0 => OPut n t0 None) ts)) as [f az].
      simpl in *. now rewrite IH. }
    apply (G ts fs h 1 I F). constructor. intros w Hw.
    destruct (versions_spec root root_valid fs h n I V) as [[NL _]|[_ (l & E & _)]]; [|congruence].
    apply NL. eapply present_listed; eauto.
  Qed.
End Crash.
