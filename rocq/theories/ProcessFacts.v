(** Facts about processes that share a registry directory (proofs only). *)
From Coq Require Import String List ZArith Lia Bool Sorting.Sorted.
From Verif Require Import PyVal PyValFacts RType Registry FromDict ToDict Quote QuoteFacts Storage SpecStorage StorageFacts StorageMore
  Server ServerFacts CrashFacts Processes SpecProcesses.
Import ListNotations.
Open Scope nat_scope.
Open Scope string_scope.
Open Scope list_scope.

Fixpoint replace {A} (i : nat) (x : A) (l : list A) : list A :=
  match l, i with
  | [], _ => []
  | _ :: r, 0 => x :: r
  | y :: r, S i => y :: replace i x r
  end.
Lemma nth_replace_eq {A} (l : list A) : forall i x y, nth_error l i = Some y -> nth_error (replace i x l) i = Some x.
Proof. induction l as [|z l IH]; intros [|i] x y; simpl; try discriminate; eauto. Qed.
Lemma nth_replace_ne {A} (l : list A) : forall i j x, i <> j -> nth_error (replace i x l) j = nth_error l j.
Proof. induction l as [|z l IH]; intros [|i] [|j] x; simpl; auto; try congruence. Qed.
Lemma nth_replace_inv {A} (l : list A) i j x y z : nth_error l i = Some z -> nth_error (replace i x l) j = Some y ->
  i = j /\ y = x \/ i <> j /\ nth_error l j = Some y.
Proof.
  intros N H. destruct (Nat.eq_dec i j) as [<-|NE].
  - rewrite (nth_replace_eq l i x z N) in H. left. split; congruence.
  - rewrite nth_replace_ne in H by auto. auto.
Qed.
Lemma map_replace {A B} (f : A -> B) (l : list A) : forall i x, map f (replace i x l) = replace i (f x) (map f l).
Proof. induction l as [|z l IH]; intros [|i] x; simpl; auto. now rewrite IH. Qed.
Lemma replace_same {A} (l : list A) : forall i x, nth_error l i = Some x -> replace i x l = l.
Proof. induction l as [|z l IH]; intros [|i] x; simpl; try discriminate; [congruence|]. intros H. now rewrite IH. Qed.

Section Facts.
  Variable root : path.
  Hypothesis root_valid : Forall valid_name root.
  Variable size : pyval -> nat.
  Notation file n w := (root ++ [quote_plus n; file_name w]).
  Notation dir n := (root ++ [quote_plus n]).
  Notation Inv := (Inv root).

  Definition after (p : process) (o : op) (r : list op) (x : phase + answer) : process :=
    match x with
    | inl ph => mkProc (o :: r) ph (finished p)
    | inr a => mkProc r Begin (finished p ++ [(o, a)])
    end.
  Lemma proceed_nth_eq i : forall d l p, nth_error l i = Some p ->
    proceed_nth root size i d l =
    match todo p with
    | [] => (d, l)
    | o :: r => (fst (advance root size d o (stands p)), replace i (after p o r (snd (advance root size d o (stands p)))) l)
    end.
  Proof.
    induction i as [|i IH]; intros d [|q l] p; simpl; try discriminate.
    - intros [= ->]. unfold proceed. destruct (todo p) as [|o r] eqn:T; auto.
      destruct (advance root size d o (stands p)) as [d' [ph|a]]; reflexivity.
    - intros N. rewrite (IH d l p N). destruct (todo p); reflexivity.
  Qed.
  Lemma proceed_nth_none i : forall d l, nth_error l i = None -> proceed_nth root size i d l = (d, l).
  Proof.
    induction i as [|i IH]; intros d [|q l]; simpl; auto; try discriminate. intros N. now rewrite IH.
  Qed.

  (** *** The accesses as events *)
  Inductive astep (h : list event) (L : list (path * nat)) : op -> phase -> list event -> list (path * nat) -> phase + answer -> Prop :=
  | a_put_fail n t v e : to_dict true true t = Err e -> astep h L (OPut n t v) Begin h L (inr (APut (Err e)))
  | a_put_begin n t v d w : to_dict true true t = Ok d -> target h n v w ->
      astep h L (OPut n t v) Begin h L (inl (Putting w (put_list root n w d)))
  | a_root n t v w p l : (exists q, root = p ++ q) -> astep h L (OPut n t v) (Putting w (Mkdir p :: l)) h L (inl (Putting w l))
  | a_dir n t v w l : astep h L (OPut n t v) (Putting w (Mkdir (dir n) :: l)) (Created n :: h) L (inl (Putting w l))
  | a_open n t v w l : astep h L (OPut n t v) (Putting w (OpenW (file n w) :: l)) (Damaged n w :: h) ((file n w, 0) :: L) (inl (Putting w l))
  | a_write n t v w d l : text_len (file n w) L <= size d ->
      astep h L (OPut n t v) (Putting w (Write (file n w) d :: l)) (Stored n w d :: h) ((file n w, size d) :: L) (inl (Putting w l))
  | a_mix n t v w d l : size d < text_len (file n w) L ->
      astep h L (OPut n t v) (Putting w (Write (file n w) d :: l)) (Damaged n w :: h) L (inl (Putting w l))
  | a_put_end n t v w : astep h L (OPut n t v) (Putting w []) h L (inr (APut (Ok w)))
  | a_get n v : astep h L (OGet n (Some v)) Begin h L (inr (AGet (answer_of parse h n v)))
  | a_get_none n : (forall w, ~ present h n w) -> astep h L (OGet n None) Begin h L (inr (AGet (Ok None)))
  | a_get_latest n v : latest_present h n v -> astep h L (OGet n None) Begin h L (inl (Getting v))
  | a_getting n v : astep h L (OGet n None) (Getting v) h L (inr (AGet (answer_of parse h n v)))
  | a_versions_none n : ~ listed h n -> astep h L (OVersions n) Begin h L (inr (AVersions (Ok None)))
  | a_versions n l : listed h n -> StronglySorted Z.lt l -> (forall v, In v l <-> present h n v) ->
      astep h L (OVersions n) Begin h L (inr (AVersions (Ok (Some l))))
  | a_latest_none n : (forall w, ~ present h n w) -> astep h L (OLatest n) Begin h L (inr (ALatest (Ok None)))
  | a_latest n v : latest_present h n v -> astep h L (OLatest n) Begin h L (inr (ALatest (Ok (Some v))))
  | a_ls l : StronglySorted str_lt l -> (forall n, In n l <-> listed h n) -> astep h L OLs Begin h L (inr (ALs (Ok l))).

  (** What is left of a put. *)
  Inductive early (n : string) (w : Z) (d : pyval) : list step -> Prop :=
  | early_root p l : (exists q, root = p ++ q) -> early n w d l -> early n w d (Mkdir p :: l)
  | early_dir : early n w d [Mkdir (dir n); OpenW (file n w); Write (file n w) d].
  Definition left_ok (h : list event) (n : string) (w : Z) (d : pyval) (l : list step) : Prop :=
    early n w d l \/ (l = [OpenW (file n w); Write (file n w) d] /\ listed h n) \/
    (l = [Write (file n w) d] /\ present h n w) \/ (l = [] /\ present h n w).
  Definition phase_ok (h : list event) (o : op) (ph : phase) : Prop :=
    match o, ph with
    | OPut n t v, Putting w l => exists d, to_dict true true t = Ok d /\ (v = None \/ v = Some w) /\ left_ok h n w d l
    | OGet n None, Getting v => present h n v
    | _, Begin => True
    | _, _ => False
    end.

  Lemma listed_cons e h n : listed h n -> listed (e :: h) n.
  Proof. unfold listed. simpl. auto. Qed.
  Lemma left_cons e h n w d l : left_ok h n w d l -> left_ok (e :: h) n w d l.
  Proof.
    intros [E|[[-> H]|[[-> H]|[-> H]]]]; [left; auto|right; left|right; right; left|right; right; right]; split; auto using listed_cons, present_cons.
  Qed.
  Lemma phase_cons e h o ph : phase_ok h o ph -> phase_ok (e :: h) o ph.
  Proof.
    destruct o as [n t v|n [v|]|n|n|], ph; simpl; auto using present_cons.
    intros (d & E & V & H). exists d. auto using left_cons.
  Qed.
  Lemma put_list_early n w d : valid_name n -> early n w d (put_list root n w d).
  Proof.
    intros V. unfold put_list, mkdirs. rewrite dir_path_valid, file_path_valid by auto. rewrite prefixes_app, map_app, <- app_assoc. simpl.
    assert (H : forall p, In p (prefixes root) -> exists q, root = p ++ q) by (intros p Hp; now apply prefixes_spec in Hp as [_ Hp]).
    induction (prefixes root) as [|p l IH]; simpl; [apply early_dir|]. apply early_root; [apply H; simpl; auto|].
    apply IH. intros q Hq. apply H. simpl. auto.
  Qed.
  Lemma early_list n w d l : early n w d l -> l <> [] /\ (forall s, In s l -> (exists p q, s = Mkdir p /\ root = p ++ q) \/
    s = Mkdir (dir n) \/ s = OpenW (file n w) \/ s = Write (file n w) d).
  Proof.
    induction 1 as [p l [q E] _ [_ IH]|]; (split; [discriminate|]).
    - intros s [<-|H]; [left; eauto|auto].
    - intros s [<-|[<-|[<-|[]]]]; auto.
  Qed.

  Lemma inv_created fs h n : Inv fs h -> listed h n -> Inv fs (Created n :: h).
  Proof.
    intros I H. destruct (inv_dir _ _ _ n I) as [[E _]|[_ E]]; [|tauto].
    pose proof (inv_made_dir root fs h n I) as M. unfold made_dir in M. now rewrite E in M.
  Qed.
  Lemma inv_file_set fs h n w c : Inv fs h -> listed h n ->
    Inv (fset (file n w) (file_of c) fs) (match c with Some d => Stored n w d | None => Damaged n w end :: h).
  Proof.
    intros I H. destruct (inv_dir _ _ _ n I) as [[E _]|[_ E]]; [|tauto].
    pose proof (inv_extend root fs h n (fset (file n w) (file_of c) fs) (Some (w, c)) I) as X. cbn in X. apply X.
    - apply fset_NoDup, (inv_nodup _ _ _ I).
    - intros p. rewrite fget_fset. destruct (path_eqb p (file n w)); auto.
      destruct (path_eqb_spec p (dir n)) as [->|]; auto.
  Qed.

  Lemma exec_open_at fs h n w : Inv fs h -> listed h n -> exec (OpenW (file n w)) fs = Ok (fset (file n w) (File Trunc) fs).
  Proof.
    intros I H. cbn [exec]. rewrite removelast_file, !node_at_app by discriminate.
    destruct (inv_dir _ _ _ n I) as [[E _]|[_ E]]; [|tauto]. rewrite E.
    rewrite (inv_file _ _ _ _ _ I). destruct (entry h n w) as [[d|]|]; reflexivity.
  Qed.

  Lemma present_damaged n v h : present (Damaged n v :: h) n v.
  Proof. unfold present. simpl. rewrite String.eqb_refl, Z.eqb_refl. discriminate. Qed.

  Lemma advance_event fs L h o ph d' x : Inv fs h -> op_ok o -> phase_ok h o ph -> advance root size (fs, L) o ph = (d', x) ->
    exists h', Inv (fst d') h' /\ astep h L o ph h' (snd d') x /\ match x with inl ph' => phase_ok h' o ph' | inr _ => True end.
  Proof.
    intros I OK PH A.
    destruct o as [n t v|n [v|]|n|n|]; destruct ph as [|w l|w]; simpl in PH; try contradiction; cbn [advance fst] in A; unfold op_ok in OK; simpl in OK.
    - unfold put_plan in A. destruct (put_version_spec root root_valid fs h n v I OK) as (w & PV & T). rewrite PV in A. cbn [rbind] in A.
      destruct (to_dict true true t) as [d|e] eqn:E; cbn [rbind] in A; injection A as <- <-; exists h; (split; [exact I|]).
      + split; [exact (a_put_begin _ _ _ _ _ _ _ E T)|]. exists d. split; auto. split.
        * destruct v; simpl in T; subst; auto.
        * left. now apply put_list_early.
      + split; [now constructor|exact Logic.I].
    - destruct PH as (d & E & V & LO). destruct l as [|s l].
      + injection A as <- <-. exists h. split; [exact I|]. split; [constructor|exact Logic.I].
      + destruct LO as [EA|[[[= -> ->] H]|[[[= -> ->] H]|[[=] _]]]].
        * inversion EA as [p l' Q EL|]; subst.
          -- destruct Q as [q Q]. cbn [access exec] in A. rewrite (inv_root _ _ _ I p q Q) in A. cbn [rbind] in A. injection A as <- <-.
             exists h. split; [exact I|]. split; [apply a_root; eauto|]. exists d. split; auto. split; auto. left. exact EL.
          -- cbn [access exec] in A. rewrite node_at_app in A by discriminate. destruct (inv_dir _ _ _ n I) as [[D DL]|[D DL]]; rewrite D in A; cbn [rbind] in A; injection A as <- <-;
               exists (Created n :: h); (split; [|split; [apply a_dir|exists d; split; auto; split; auto; right; left; split; auto; unfold listed; simpl; auto]]).
             ++ now apply inv_created.
             ++ pose proof (inv_made_dir root fs h n I) as M. unfold made_dir in M. rewrite D in M. exact M.
        * unfold access in A. rewrite (exec_open_at fs h n w I H) in A. cbn [rbind] in A. injection A as <- <-.
          exists (Damaged n w :: h). split; [exact (inv_file_set fs h n w None I H)|]. split; [apply a_open|].
          exists d. split; auto. split; auto. right. right. left. split; auto. apply present_damaged.
        * pose proof (present_listed h n w H) as LI. unfold access in A.
          destruct (Nat.leb (text_len (file n w) L) (size d)) eqn:LE; injection A as <- <-.
          -- exists (Stored n w d :: h). split; [exact (inv_file_set fs h n w (Some d) I LI)|]. split; [apply a_write; now apply Nat.leb_le|].
             exists d. split; auto. split; auto. right. right. right. split; auto. apply present_stored.
          -- exists (Damaged n w :: h). split; [exact (inv_file_set fs h n w None I LI)|]. split; [apply a_mix; now apply Nat.leb_gt|].
             exists d. split; auto. split; auto. right. right. right. split; auto. apply present_damaged.
    - injection A as <- <-. exists h. split; [exact I|]. split; [|exact Logic.I]. rewrite (get_version_spec root root_valid _ _ _ _ I OK). constructor.
    - destruct (versions_spec root root_valid _ _ _ I OK) as [[Hn E]|[Hn (l & E & Hs & HL)]]; rewrite E in A.
      + injection A as <- <-. exists h. split; [exact I|]. split; [|exact Logic.I]. constructor. intros w Hw. apply Hn. eapply present_listed; eauto.
      + destruct l as [|y l].
        * injection A as <- <-. exists h. split; [exact I|]. split; [|exact Logic.I]. constructor. intros w Hw. now apply HL in Hw.
        * destruct (max_list (y :: l)) as [m|] eqn:M; [|discriminate].
          assert (LP : latest_present h n m) by (eapply max_latest; eauto).
          injection A as <- <-. exists h. split; [exact I|]. split; [now constructor|]. apply LP.
    - injection A as <- <-. exists h. split; [exact I|]. split; [|exact Logic.I]. rewrite (get_version_spec root root_valid _ _ _ _ I OK). constructor.
    - injection A as <- <-. exists h. split; [exact I|]. split; [|exact Logic.I].
      destruct (versions_spec root root_valid _ _ _ I OK) as [[Hn ->]|[Hn (l & -> & Hs & HL)]]; constructor; auto.
    - injection A as <- <-. exists h. split; [exact I|]. split; [|exact Logic.I].
      destruct (latest_spec root root_valid _ _ _ I OK) as [[Hn ->]|(m & Hm & ->)]; constructor; auto.
    - injection A as <- <-. exists h. split; [exact I|]. split; [|exact Logic.I].
      destruct (ls_spec root _ _ I) as (l & -> & Hs & HL). constructor; auto.
  Qed.

  Definition proc_ok (h : list event) (p : process) : Prop :=
    Forall op_ok (todo p) /\ match todo p with [] => True | o :: _ => phase_ok h o (stands p) end.

  Lemma astep_events h L o ph h' L' x : astep h L o ph h' L' x -> h' = h \/ exists e, h' = e :: h.
  Proof. destruct 1; eauto. Qed.
  Lemma proc_later h h' p : h' = h \/ (exists e, h' = e :: h) -> proc_ok h p -> proc_ok h' p.
  Proof.
    intros [->|[e ->]] [A B]; (split; [exact A|]); auto. destruct (todo p); auto using phase_cons.
  Qed.

  (** Induction over executions. *)
  Section Run.
    Variable P : list event -> list (path * nat) -> list process -> Prop.
    Hypothesis P_step : forall h L l i p o r h' L' x, P h L l -> Forall (proc_ok h) l -> nth_error l i = Some p -> todo p = o :: r ->
      astep h L o (stands p) h' L' x -> P h' L' (replace i (after p o r x) l).
    Lemma run_ind sched : forall fs L h l, Inv fs h -> Forall (proc_ok h) l -> P h L l ->
      exists h', Inv (fst (fst (run root size sched ((fs, L), l)))) h' /\
        Forall (proc_ok h') (snd (run root size sched ((fs, L), l))) /\
        P h' (snd (fst (run root size sched ((fs, L), l)))) (snd (run root size sched ((fs, L), l))).
    Proof.
      induction sched as [|i sched IH]; intros fs L h l I OK HP; cbn [run fst snd]; [eauto|].
      destruct (nth_error l i) as [p|] eqn:N; [|rewrite proceed_nth_none by auto; eapply IH; eauto].
      rewrite (proceed_nth_eq i _ _ _ N). destruct (todo p) as [|o r] eqn:T; [eapply IH; eauto|].
      pose proof (proj1 (Forall_forall _ _) OK p (nth_error_In _ _ N)) as [OT PT]. rewrite T in OT, PT.
      inversion OT as [|? ? OO OR]; subst.
      destruct (advance root size (fs, L) o (stands p)) as [[fs' L'] x] eqn:A.
      destruct (advance_event fs L h o (stands p) _ _ I OO PT A) as (h' & I' & S & X). cbn [fst snd] in *.
      apply (IH fs' L' h'); auto.
      - assert (LT := astep_events _ _ _ _ _ _ _ S). apply Forall_forall. intros q Hq. apply In_nth_error in Hq as [j Hj].
        apply (nth_replace_inv _ _ _ _ _ _ N) in Hj as [[_ ->]|[_ Hj]].
        + destruct x as [ph|a]; simpl; split; simpl; auto. destruct r as [|o' r]; auto. destruct o' as [? ? ?|? [|]| | |]; exact Logic.I.
        + eapply proc_later; eauto. exact (proj1 (Forall_forall _ _) OK q (nth_error_In _ _ Hj)).
      - eapply P_step; eauto.
    Qed.
  End Run.

  Lemma begin_ok h calls : Forall (Forall op_ok) calls -> Forall (proc_ok h) (map begin calls).
  Proof.
    intros F. apply Forall_forall. intros p Hp. apply in_map_iff in Hp as (l & <- & Hl). split; simpl.
    - exact (proj1 (Forall_forall _ _) F l Hl).
    - destruct l as [|o l]; auto. destruct o as [? ? ?|? [|]| | |]; exact Logic.I.
  Qed.
End Facts.
