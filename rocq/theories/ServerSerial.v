(** The replies of overlapping requests (proofs only). *)
From Coq Require Import String List ZArith Lia Bool Sorting.Sorted.
From Verif Require Import PyVal PyValFacts RType Registry FromDict ToDict Quote Storage SpecStorage StorageFacts StorageMore Server ServerFacts SpecServer ServerTrip.
Import ListNotations.
Open Scope nat_scope.
Open Scope string_scope.
Open Scope list_scope.

Definition write_type := to_dict true true.

Lemma media_spec ct : content_type_ok ct = true <-> media_ok ct.
Proof.
  unfold media_ok. destruct ct as [s|]; cbn [content_type_ok]; [|tauto]. rewrite orb_true_iff, !String.eqb_eq. unfold media_type.
  split; [intros [-> | ->]; auto|]. intros [H|[H|H]]; [discriminate|injection H as ->; auto|injection H as ->; auto].
Qed.
Lemma failure_spec e : error_reply e (failure e).
Proof. unfold error_reply. destruct e; cbn; eauto. Qed.
Lemma later_refl h : later h h. Proof. now exists []. Qed.
Lemma later_trans a b c : later a b -> later b c -> later a c.
Proof. intros [p ->] [q ->]. exists (q ++ p). now rewrite app_assoc. Qed.
Lemma later_stored n v d h : later h (Stored n v d :: h).
Proof. now exists [Stored n v d]. Qed.

Section Serial.
  Variable root : path.
  Hypothesis root_valid : Forall valid_name root.
  Notation answers := (answers write_type parse).
  Notation shows := (shows write_type parse).
  Notation stores := (stores write_type parse).
  Notation serial := (serial write_type parse).

  Lemma shows_answer h n v r : r = answer_of parse h n v -> shows h n v (type_reply r).
  Proof.
    intros ->. unfold answer_of. destruct (entry h n v) as [[d|]|] eqn:E.
    - destruct (parse d) as [t|e] eqn:P; cbn [type_reply].
      + destruct (to_dict true true t) as [d'|e] eqn:W; [eapply shows_type; eauto|eapply shows_unwritable; eauto; apply failure_spec].
      + eapply shows_unreadable; eauto. apply failure_spec.
    - cbn [type_reply]. apply shows_damaged; auto. apply failure_spec.
    - now apply shows_none.
  Qed.

  Lemma finish_spec fs h n b v fs' l' : Inv root fs h -> valid_name n -> finish_put root fs n b v = (fs', l') ->
    exists h' r, l' = Done r /\ stores h n v b h' r /\ Inv root fs' h' /\ later h h'.
  Proof.
    intros I V. unfold finish_put.
    assert (BT : (doc_of b = None /\ body_type b = Err ValueError) \/ exists j, doc_of b = Some j /\
      body_type b = match parse j with Ok t => Ok t | Err _ => Err (HTTPError 400) end).
    { destruct b; cbn; [right|right|left]; eauto. }
    destruct BT as [[D ->]|(j & D & ->)].
    - intros [= <- <-]. exists h, (failure ValueError). split; auto. split; [apply stores_bytes; auto; apply failure_spec|]. auto using later_refl.
    - destruct (parse j) as [t|e] eqn:P.
      + unfold put, put_plan. destruct (put_version_spec root root_valid fs h n v I V) as (w & -> & T). cbn [rbind].
        destruct (to_dict true true t) as [d|e] eqn:W; cbn [rbind].
        * rewrite (put_steps root root_valid fs h n w d I V). intros [= <- <-]. exists (Stored n w d :: h), (RVersion w).
          split; auto. split; [eapply stores_ok; eauto|]. split; [now apply inv_written|]. apply later_stored.
        * intros [= <- <-]. exists h, (failure e). split; auto. split; [eapply stores_unwritable; eauto; apply failure_spec|]. auto using later_refl.
      + intros [= <- <-]. exists h, (RStatus 400). split; auto. split; [eapply stores_invalid; eauto|]. auto using later_refl.
  Qed.

  (** A handler that waits for the body. *)
  Definition started (h : list event) (q : request) : Prop :=
    match q with
    | QPost _ ct _ => media_ok ct
    | QPut n v ct _ => entry h n v = None /\ media_ok ct
    | _ => False
    end.

  Lemma start_spec fs h q fs' l' : Inv root fs h -> request_ok q -> resume root fs q Start = (fs', l') ->
    fs' = fs /\ ((l' = Reading /\ started h q) \/ exists r, l' = Done r /\ answers h h q h r).
  Proof.
    intros I OK. destruct q as [|n|n|n v|n ct b|n v ct b]; cbn [resume]; cbn in OK.
    - intros [= <- <-]. split; auto. right. destruct (ls_spec root fs h I) as (l & -> & S & L). eexists. split; [reflexivity|]. now constructor.
    - intros [= <- <-]. split; auto. right. eexists. split; [reflexivity|].
      destruct (get_latest_spec root root_valid fs h n I OK) as [[N E]|(v & L & E)]; cbn [get] in E |- *; rewrite E.
      + now apply an_latest_none.
      + apply an_latest with v; auto. now apply shows_answer.
    - intros [= <- <-]. split; auto. right. eexists. split; [reflexivity|].
      destruct (versions_spec root root_valid fs h n I OK) as [[N ->]|[N (l & -> & S & L)]].
      + apply an_versions_none. intros w P. apply N. eapply present_listed; eauto.
      + destruct l as [|v l].
        * apply an_versions_none. intros w P. apply L in P. destruct P.
        * apply an_versions; auto. discriminate.
    - intros [= <- <-]. split; auto. right. eexists. split; [reflexivity|]. apply an_version. apply shows_answer.
      cbn [get]. now apply get_version_spec.
    - destruct (content_type_ok ct) eqn:C; intros [= <- <-]; (split; [reflexivity|]).
      + left. split; auto. now apply media_spec.
      + right. eexists. split; [reflexivity|]. apply an_post_media. rewrite <- media_spec, C. discriminate.
    - cbn [get]. rewrite (get_version_spec root root_valid fs h n v I OK). unfold answer_of.
      destruct (entry h n v) as [[d|]|] eqn:E.
      + destruct (parse d) as [t|e] eqn:P; intros [= <- <-]; (split; [reflexivity|]); right; (eexists; split; [reflexivity|]).
        * eapply an_put_conflict; eauto.
        * eapply an_put_unreadable; eauto. apply failure_spec.
      + intros [= <- <-]; (split; [reflexivity|]); right; (eexists; split; [reflexivity|]). apply an_put_damaged; auto. apply failure_spec.
      + destruct (content_type_ok ct) eqn:C; intros [= <- <-]; (split; [reflexivity|]).
        * left. split; auto. split; auto. now apply media_spec.
        * right. eexists. split; [reflexivity|]. apply an_put_media; auto. rewrite <- media_spec, C. discriminate.
  Qed.

  Lemma reading_spec fs h h0 q fs' l' : Inv root fs h -> request_ok q -> started h0 q -> resume root fs q Reading = (fs', l') ->
    exists h' r, l' = Done r /\ answers h0 h q h' r /\ Inv root fs' h' /\ later h h'.
  Proof.
    intros I OK ST R. destruct q as [|n|n|n v|n ct b|n v ct b]; try contradiction; cbn [resume] in R; cbn in OK;
      destruct (finish_spec _ _ _ _ _ _ _ I OK R) as (h' & r & -> & S & I' & L); exists h', r; (split; [reflexivity|]); (split; [|auto]).
    - now apply an_post.
    - destruct ST. now apply an_put.
  Qed.

  Variable l : list request.
  Hypothesis l_ok : Forall request_ok l.
  Variable h0 : list event.

  Record ok (h : list event) (o : list (nat * reply)) (c : list (request * local)) : Prop := {
    ok_requests : map fst c = l;
    ok_serial : serial l h0 o h;
    ok_later : later h0 h;
    ok_done : forall i r, In (i, r) o <-> exists q, nth_error c i = Some (q, Done r);
    ok_reading : forall i q, nth_error c i = Some (q, Reading) -> exists h1, later h0 h1 /\ later h1 h /\ started h1 q }.

  Lemma nth_request (c : list (request * local)) i q s : map fst c = l -> nth_error c i = Some (q, s) -> nth_error l i = Some q.
  Proof. intros <- E. rewrite nth_error_map, E. reflexivity. Qed.

  Lemma ok_finish h o c i q s h' h1 r : ok h o c -> nth_error c i = Some (q, s) -> (forall r, s <> Done r) ->
    later h0 h1 -> later h1 h -> answers h1 h q h' r -> later h h' ->
    map fst (firstn i c ++ (q, Done r) :: skipn (S i) c) = l ->
    ok h' (o ++ [(i, r)]) (firstn i c ++ (q, Done r) :: skipn (S i) c).
  Proof.
    intros [A B C D E] N ND L1 L2 AN L3 MF. split.
    - exact MF.
    - apply (serial_step _ _ _ _ o h i q h1 h' r); auto; [exact (nth_request c i q s A N)|]. intros I. apply in_map_iff in I as ([i' r'] & X & I). cbn in X. subst i'.
      apply D in I as (q' & Hq). rewrite N in Hq. injection Hq as _ X. now apply (ND r').
    - exact (later_trans _ _ _ C L3).
    - intros j r'. rewrite in_app_iff, D. rewrite (nth_replace c i j (q, s)) by auto. destruct (Nat.eqb_spec j i) as [->|NE].
      + split.
        * intros [(q' & H)|[H|[]]]; [rewrite N in H; injection H as _ X; now apply ND in X|]. injection H as <-. eauto.
        * intros (q' & [= <- <-]). right. now left.
      + split; [intros [H|[H|[]]]; auto; congruence|auto].
    - intros j q' H. rewrite (nth_replace c i j (q, s)) in H by auto. destruct (Nat.eqb_spec j i); [discriminate|].
      destruct (E j q' H) as (h2 & L4 & L5 & ST). exists h2. repeat split; auto. eapply later_trans; eauto.
  Qed.

  Lemma ok_step fs h o c i : Inv root fs h -> ok h o c ->
    exists h' o', Inv root (fst (resume_nth root i fs c)) h' /\ ok h' o' (snd (resume_nth root i fs c)).
  Proof.
    intros I K. pose proof (resume_requests root i fs c) as MF. rewrite (ok_requests _ _ _ K) in MF.
    destruct (nth_error c i) as [[q s]|] eqn:E.
    2:{ rewrite resume_nth_none by auto. eauto. }
    rewrite (resume_nth_eq root i fs c q s E) in *. destruct (resume root fs q s) as [fs' s'] eqn:R. cbn [fst snd] in *.
    assert (OK : request_ok q).
    { pose proof l_ok as LO. rewrite Forall_forall in LO. apply LO. eapply nth_error_In. exact (nth_request c i q s (ok_requests _ _ _ K) E). }
    destruct s as [| |r].
    - destruct (start_spec _ _ _ _ _ I OK R) as [-> [[-> ST]|(r & -> & AN)]].
      + exists h, o. split; auto. destruct K as [A B C D F]. split; auto.
        * intros j r. rewrite D. rewrite (nth_replace c i j (q, Start)) by auto. destruct (Nat.eqb_spec j i) as [->|]; [|tauto].
          split; intros (q' & H); rewrite ?E in H; discriminate.
        * intros j q' H. rewrite (nth_replace c i j (q, Start)) in H by auto. destruct (Nat.eqb_spec j i) as [->|]; [|eauto].
          injection H as <-. exists h. auto using later_refl.
      + exists h, (o ++ [(i, r)]). split; auto. apply (ok_finish h o c i q Start h h r K E); auto using later_refl; [discriminate|exact (ok_later _ _ _ K)].
    - destruct (ok_reading _ _ _ K i q E) as (h1 & L1 & L2 & ST).
      destruct (reading_spec _ _ _ _ _ _ I OK ST R) as (h' & r & -> & AN & I' & L).
      exists h', (o ++ [(i, r)]). split; auto. apply (ok_finish h o c i q Reading h' h1 r K E); auto. discriminate.
    - cbn [resume] in R. injection R as <- <-. exists h, o. split; auto.
      destruct K as [A B C D F]. split; auto.
      + intros j r'. rewrite D. rewrite (nth_replace c i j (q, Done r)) by auto. destruct (Nat.eqb_spec j i) as [->|]; [|tauto].
        now rewrite E.
      + intros j q' H. rewrite (nth_replace c i j (q, Done r)) in H by auto. destruct (Nat.eqb_spec j i) as [->|]; [discriminate|eauto].
  Qed.

  Lemma ok_run sched : forall fs h o c, Inv root fs h -> ok h o c ->
    exists h' o', Inv root (fst (run_server root sched (fs, c))) h' /\ ok h' o' (snd (run_server root sched (fs, c))).
  Proof.
    induction sched as [|i sched IH]; intros fs h o c I K; cbn [run_server fst snd]; [eauto|].
    destruct (ok_step fs h o c i I K) as (h' & o' & I' & K').
    destruct (resume_nth root i fs c) as [fs' c']. cbn [fst snd] in *. eauto.
  Qed.

  Lemma ok_start : ok h0 [] (map (fun q => (q, Start)) l).
  Proof.
    split.
    - rewrite map_map. cbn. apply map_id.
    - constructor.
    - apply later_refl.
    - intros i r. split; [intros []|]. intros (q & H). rewrite nth_error_map in H. destruct (nth_error l i); discriminate.
    - intros i q H. rewrite nth_error_map in H. destruct (nth_error l i); discriminate.
  Qed.
End Serial.

Lemma serial_answers root fs0 os l sched : Forall valid_name root -> fresh_root root fs0 -> Forall cop_ok os -> Forall request_ok l ->
  exists az h o h', cspec_run write_type parse [] os az h /\
    snd (run_cops root (fst (init root fs0)) os) = az /\
    serial write_type parse l h o h' /\
    forall i r, In (i, r) o <-> exists q,
      nth_error (snd (run_server root sched (accept (fst (run_cops root (fst (init root fs0)) os)) l))) i = Some (q, Done r).
Proof.
  intros RV F OS L. destruct (init_inv root fs0 F) as (fs1 & E & I). rewrite E. cbn [fst].
  destruct (crefine_run root RV os fs1 [] I OS) as (h & I' & S).
  destruct (ok_run root RV l L h sched _ h [] _ I' (ok_start l h)) as (h' & o & _ & K).
  exists (snd (run_cops root fs1 os)), h, o, h'. split; auto. split; auto. split; [apply K|]. unfold accept. apply (ok_done _ _ _ _ _ K).
Qed.

Lemma serve_answers root fs0 os q : Forall valid_name root -> fresh_root root fs0 -> Forall cop_ok os -> request_ok q ->
  let fs := fst (run_cops root (fst (init root fs0)) os) in
  exists az h h' r, cspec_run write_type parse [] os az h /\ snd (serve root fs q) = Done r /\ answers write_type parse h h q h' r.
Proof.
  intros RV F OS Q. cbv zeta. destruct (init_inv root fs0 F) as (fs1 & E & I). rewrite E. cbn [fst].
  destruct (crefine_run root RV os fs1 [] I OS) as (h & I' & S). exists (snd (run_cops root fs1 os)), h.
  unfold serve. destruct (resume root (fst (run_cops root fs1 os)) q Start) as [fs' s'] eqn:R.
  destruct (start_spec root RV _ _ _ _ _ I' Q R) as [-> [[-> ST]|(r & -> & AN)]].
  - destruct (resume root (fst (run_cops root fs1 os)) q Reading) as [fs2 s2] eqn:R2.
    destruct (reading_spec root RV _ _ _ _ _ _ I' Q ST R2) as (h' & r & -> & AN & _). exists h', r. auto.
  - exists h, r. auto.
Qed.

