(** Facts about the storage model (proofs only). *)
From Coq Require Import String Ascii List ZArith NArith Bool Lia DecimalString DecimalZ Sorting.Sorted.
From Verif Require Import PyVal PyValFacts RType Registry FromDict ToDict Quote QuoteFacts Storage SpecStorage.
Import ListNotations.
Open Scope nat_scope.
Open Scope string_scope.
Open Scope list_scope.

(** ** Paths *)
Lemma path_eqb_spec p q : reflect (p = q) (path_eqb p q).
Proof.
  revert q. induction p as [|x p IH]; intros [|y q]; simpl; try (constructor; congruence).
  destruct (String.eqb_spec x y); simpl; [|constructor; congruence].
  destruct (IH q); constructor; congruence.
Qed.
Lemma path_eqb_refl p : path_eqb p p = true.
Proof. destruct (path_eqb_spec p p); congruence. Qed.

Lemma fget_fset p q n fs : fget p (fset q n fs) = if path_eqb p q then Some n else fget p fs.
Proof.
  induction fs as [|[r m] fs IH]; simpl.
  - reflexivity.
  - destruct (path_eqb_spec q r); simpl.
    + subst. destruct (path_eqb p r); auto.
    + rewrite IH. destruct (path_eqb_spec p r), (path_eqb_spec p q); auto; congruence.
Qed.

Lemma fget_In p n fs : fget p fs = Some n -> In (p, n) fs.
Proof.
  induction fs as [|[q m] fs IH]; simpl; [discriminate|].
  destruct (path_eqb_spec p q); [intros [= ->]; subst; auto|auto].
Qed.
Lemma fget_key p fs : In p (map fst fs) <-> exists n, fget p fs = Some n.
Proof.
  induction fs as [|[q m] fs IH]; simpl.
  - split; [tauto|intros [n H]; discriminate].
  - destruct (path_eqb_spec p q).
    + subst. split; eauto.
    + rewrite <- IH. intuition congruence.
Qed.
Lemma fset_keys p n fs q : In q (map fst (fset p n fs)) <-> In q (map fst fs) \/ q = p.
Proof.
  rewrite !fget_key. setoid_rewrite fget_fset. destruct (path_eqb_spec q p).
  - subst. split; eauto.
  - split; [intros H; left; auto|intros [H|H]; [auto|congruence]].
Qed.
Lemma fset_NoDup p n fs : NoDup (map fst fs) -> NoDup (map fst (fset p n fs)).
Proof.
  induction fs as [|[q m] fs IH]; simpl; intros H.
  - constructor; [auto|constructor].
  - inversion H as [|? ? Hn Hd]; subst. destruct (path_eqb_spec p q); simpl; [constructor; auto|].
    constructor; auto. intros Hq. apply fset_keys in Hq as [Hq|Hq]; congruence.
Qed.

Lemma norm_acc_plain p : forall acc, Forall valid_name p -> norm_acc acc p = rev acc ++ p.
Proof.
  induction p as [|x p IH]; intros acc H; simpl.
  - now rewrite app_nil_r.
  - inversion H as [|? ? [H1 [H2 H3]] H4]; subst.
    rewrite (proj2 (String.eqb_neq x "")), (proj2 (String.eqb_neq x ".")), (proj2 (String.eqb_neq x "..")) by auto.
    simpl. rewrite IH by auto. simpl. now rewrite <- app_assoc.
Qed.
Lemma norm_plain p : Forall valid_name p -> norm p = p.
Proof. intros H. unfold norm. now rewrite norm_acc_plain. Qed.

(** ** File names *)
Lemma python_int_dec v : python_int (dec v) = Ok v.
Proof.
  unfold python_int, dec. rewrite NilZero.isi.
  - now rewrite of_to.
  - intros E. apply (f_equal Z.of_int) in E as E'. rewrite of_to in E'. simpl in E'. subst v. discriminate.
  - intros E. apply (f_equal Z.of_int) in E as E'. rewrite of_to in E'. simpl in E'. subst v. discriminate.
Qed.
Lemma dec_nonempty v : dec v <> "".
Proof. intros E. pose proof (python_int_dec v) as H. rewrite E in H. discriminate. Qed.

Lemma rfind_app s : forall p f, rfind_dot (s ++ ".json") p f = Some (p + String.length s).
Proof.
  induction s as [|c s IH]; intros p f.
  - simpl. f_equal. lia.
  - simpl. rewrite IH. f_equal. lia.
Qed.
Lemma length_app_s a b : String.length (a ++ b) = String.length a + String.length b.
Proof. induction a; simpl; congruence. Qed.
Lemma substring_app a b : String.substring 0 (String.length a) (a ++ b) = a.
Proof. induction a as [|c a IH]; simpl; [destruct b; auto|congruence]. Qed.
Lemma stem_file v : stem (file_name v) = dec v.
Proof.
  unfold stem, file_name. rewrite rfind_app. simpl plus.
  assert (L : 0 < String.length (dec v)).
  { pose proof (dec_nonempty v). destruct (dec v); [congruence|simpl; lia]. }
  rewrite length_app_s. simpl (String.length ".json").
  rewrite (proj2 (Nat.ltb_lt 0 _)) by lia. rewrite (proj2 (Nat.ltb_lt _ _)) by lia. simpl.
  apply substring_app.
Qed.
Lemma file_name_inj v w : file_name v = file_name w -> v = w.
Proof.
  intros H. apply (f_equal stem) in H. rewrite !stem_file in H.
  apply (f_equal python_int) in H. rewrite !python_int_dec in H. congruence.
Qed.
Lemma file_name_plain v : valid_name (file_name v).
Proof.
  unfold valid_name, file_name. assert (L : 5 <= String.length (dec v ++ ".json")).
  { rewrite length_app_s. simpl. lia. }
  repeat split; intros E; rewrite E in L; simpl in L; lia.
Qed.
Lemma quote_plain n : valid_name n -> valid_name (quote_plus n).
Proof. intros (H1 & H2 & H3). now apply quote_component. Qed.

(** ** sorted and max *)
Section SortFacts.
  Context {A : Type} (leb : A -> A -> bool) (lt : A -> A -> Prop).
  Hypothesis leb_true : forall x y, leb x y = true -> x = y \/ lt x y.
  Hypothesis leb_false : forall x y, leb x y = false -> lt y x.
  Hypothesis lt_trans : forall x y z, lt x y -> lt y z -> lt x z.

  Lemma insert_In x l y : In y (insert leb x l) <-> y = x \/ In y l.
  Proof.
    induction l as [|z l IH]; simpl; [intuition|].
    destruct (leb x z); simpl; rewrite ?IH; intuition.
  Qed.
  Lemma sorted_In l y : In y (sorted leb l) <-> In y l.
  Proof. induction l as [|x l IH]; simpl; [tauto|]. rewrite insert_In, IH. intuition. Qed.
  Lemma insert_sorted x l : ~ In x l -> StronglySorted lt l -> StronglySorted lt (insert leb x l).
  Proof.
    induction l as [|z l IH]; simpl; intros Hn Hs.
    - constructor; [constructor|constructor].
    - inversion Hs as [|? ? Hs' Hf]; subst.
      destruct (leb x z) eqn:E.
      + apply leb_true in E as [->|E]; [now elim Hn; left|].
        constructor; auto. constructor; auto.
        rewrite Forall_forall in *. eauto.
      + constructor; [apply IH; auto|].
        rewrite Forall_forall in *. intros y Hy. apply insert_In in Hy as [->|Hy]; auto.
  Qed.
  Lemma sorted_sorted l : NoDup l -> StronglySorted lt (sorted leb l).
  Proof.
    induction 1 as [|x l Hn Hd IH]; simpl; [constructor|].
    apply insert_sorted; auto. now rewrite sorted_In.
  Qed.
End SortFacts.

Lemma N_of_ascii_inj a b : N_of_ascii a = N_of_ascii b -> a = b.
Proof. intros H. rewrite <- (ascii_N_embedding a), <- (ascii_N_embedding b). now rewrite H. Qed.

Lemma str_leb_true a : forall b, str_leb a b = true -> a = b \/ str_lt a b.
Proof.
  induction a as [|x a IH]; intros [|y b]; simpl; auto; try discriminate.
  - intros _. right. constructor.
  - destruct (Ascii.eqb_spec x y).
    + subst. intros H. apply IH in H as [->|H]; auto. right. now constructor.
    + intros H. apply N.ltb_lt in H. right. now constructor.
Qed.
Lemma str_leb_false a : forall b, str_leb a b = false -> str_lt b a.
Proof.
  induction a as [|x a IH]; intros [|y b]; simpl; try discriminate.
  - intros _. constructor.
  - destruct (Ascii.eqb_spec x y).
    + subst. intros H. apply lt_tail. auto.
    + intros H. apply N.ltb_ge in H. apply lt_head.
      assert (N_of_ascii x <> N_of_ascii y) by (intros E; apply N_of_ascii_inj in E; congruence). lia.
Qed.
Lemma str_lt_trans a b c : str_lt a b -> str_lt b c -> str_lt a c.
Proof.
  intros H. revert c. induction H; intros u Hu; inversion Hu; subst; (now constructor) || (constructor; lia) || (apply lt_tail; auto).
Qed.

Lemma fold_max l : forall x m, fold_left Z.max l x = m -> (x <= m)%Z /\ (forall y, In y l -> (y <= m)%Z) /\ (m = x \/ In m l).
Proof.
  induction l as [|y l IH]; simpl; intros x m H.
  - subst. repeat split; auto; try lia; tauto.
  - apply IH in H as (H1 & H2 & H3). repeat split; try lia.
    + intros z [<-|Hz]; [lia|auto].
    + destruct H3 as [->|H3]; auto. destruct (Z.max_spec x y) as [[_ ->]|[_ ->]]; auto.
Qed.
Lemma max_list_spec l m : max_list l = Some m -> In m l /\ forall y, In y l -> (y <= m)%Z.
Proof.
  destruct l as [|x l]; simpl; [discriminate|]. intros [= H]. apply fold_max in H as (H1 & H2 & H3).
  split; [intuition|]. intros y [<-|Hy]; auto.
Qed.

(** ** Histories *)
Lemma entry_stored n v d h n' v' : entry (Stored n v d :: h) n' v' =
  if (String.eqb n' n && Z.eqb v' v)%bool then Some (Some d) else entry h n' v'.
Proof. reflexivity. Qed.

Lemma present_listed h n v : present h n v -> listed h n.
Proof.
  unfold present, listed. induction h as [|[n' v' d|n' v'|n'] h IH]; simpl; [congruence| | |auto];
    (destruct (String.eqb_spec n n'); [auto|]; simpl; auto).
Qed.

(** ** Refinement *)
Section Refine.
  Variable root : path.
  Hypothesis root_plain : Forall valid_name root.

  Lemma dir_path_valid n : valid_name n -> dir_path root n = root ++ [quote_plus n].
  Proof.
    intros H. apply norm_plain. apply Forall_app. split; auto. constructor; auto. now apply quote_plain.
  Qed.
  Lemma file_path_valid n v : valid_name n -> file_path root n v = root ++ [quote_plus n; file_name v].
  Proof.
    intros H. apply norm_plain. apply Forall_app. split; auto.
    constructor; [now apply quote_plain|]. constructor; auto. apply file_name_plain.
  Qed.

  Definition file_of (e : option pyval) : node :=
    match e with Some d => File (Full d) | None => File Trunc end.

  (** What the directory tree below the root looks like after the events [h]. *)
  Definition below (h : list event) (q : path) (nd : node) : Prop :=
    (exists n, listed h n /\ q = [quote_plus n] /\ nd = Dir) \/
    (exists n v e, entry h n v = Some e /\ q = [quote_plus n; file_name v] /\ nd = file_of e).

  Record Inv (fs : fsys) (h : list event) : Prop := {
    inv_nodup : NoDup (map fst fs);
    inv_root : forall p q, root = p ++ q -> node_at p fs = Some Dir;
    inv_below : forall q nd, q <> [] -> (fget (root ++ q) fs = Some nd <-> below h q nd)
  }.

  Lemma node_at_app fs q : q <> [] -> node_at (root ++ q) fs = fget (root ++ q) fs.
  Proof. clear root_plain. intros H. destruct root; simpl; [destruct q; simpl; congruence|reflexivity]. Qed.

  Lemma inv_dir fs h n : Inv fs h ->
    fget (root ++ [quote_plus n]) fs = Some Dir /\ listed h n \/
    fget (root ++ [quote_plus n]) fs = None /\ ~ listed h n.
  Proof.
    intros I. destruct (fget (root ++ [quote_plus n]) fs) as [nd|] eqn:E.
    - left. apply (inv_below _ _ I) in E; [|discriminate].
      destruct E as [(m & Hm & E & ->)|(m & v & d & _ & E & _)]; [|discriminate].
      injection E as E. apply quote_inj in E. subst. auto.
    - right. split; auto. intros H.
      assert (B : below h [quote_plus n] Dir) by (left; exists n; auto).
      apply (inv_below _ _ I) in B; congruence.
  Qed.

  Lemma inv_file fs h n v : Inv fs h ->
    fget (root ++ [quote_plus n; file_name v]) fs = option_map file_of (entry h n v).
  Proof.
    intros I. destruct (entry h n v) as [d|] eqn:Es.
    - apply (inv_below _ _ I); [discriminate|]. right. exists n, v, d. auto.
    - destruct (fget _ fs) as [nd|] eqn:E; auto.
      apply (inv_below _ _ I) in E; [|discriminate].
      destruct E as [(m & _ & E & _)|(m & w & d & Hd & E & _)]; [discriminate|].
      injection E as E1 E2. apply quote_inj in E1. apply file_name_inj in E2. subst. congruence.
  Qed.

  Lemma strip_app p q r : strip p q = Some r <-> q = p ++ r.
  Proof.
    revert q. induction p as [|x p IH]; intros q; simpl.
    - split; congruence.
    - destruct q as [|y q]; [split; discriminate|].
      destruct (String.eqb_spec x y).
      + subst. rewrite IH. split; congruence.
      + split; congruence.
  Qed.

  Lemma child_names_In p fs x : In x (child_names p fs) <-> In (p ++ [x]) (map fst fs).
  Proof.
    unfold child_names. rewrite in_flat_map, in_map_iff. split.
    - intros ([q n] & Hin & Hx). simpl in Hx. destruct (strip p q) as [[|y [|]]|] eqn:E; simpl in Hx; try tauto.
      destruct Hx as [<-|[]]. apply strip_app in E. subst. exists (p ++ [y], n). auto.
    - intros ([q n] & E & Hin). simpl in E. subst q. exists (p ++ [x], n). split; auto. simpl.
      rewrite (proj2 (strip_app p (p ++ [x]) [x]) eq_refl). simpl. auto.
  Qed.
  Lemma child_names_NoDup p fs : NoDup (map fst fs) -> NoDup (child_names p fs).
  Proof.
    induction fs as [|[q n] fs IH]; intros H; [constructor|].
    inversion H as [|? ? Hn Hd]; subst. unfold child_names. simpl. fold (child_names p fs).
    destruct (strip p q) as [[|y [|]]|] eqn:E; simpl; auto.
    constructor; auto. rewrite child_names_In. apply strip_app in E. subst. auto.
  Qed.

  Lemma inv_root_dir fs h : Inv fs h -> node_at root fs = Some Dir.
  Proof. intros I. apply (inv_root _ _ I root []). now rewrite app_nil_r. Qed.

  Lemma listdir_name fs h n : Inv fs h -> valid_name n ->
    (~ listed h n /\ listdir (dir_path root n) fs = Err FileNotFoundError) \/
    (listed h n /\ exists l, listdir (dir_path root n) fs = Ok l /\ NoDup l /\
       forall x, In x l <-> exists v, present h n v /\ x = file_name v).
  Proof.
    intros I V. rewrite dir_path_valid by auto. unfold listdir. rewrite node_at_app by discriminate.
    destruct (inv_dir _ _ n I) as [[E H]|[E H]]; rewrite E; [right|left; auto].
    split; auto. eexists. split; [reflexivity|]. split; [apply child_names_NoDup, (inv_nodup _ _ I)|].
    intros x. rewrite child_names_In, fget_key.
    assert (EQ : (root ++ [quote_plus n]) ++ [x] = root ++ [quote_plus n; x]) by now rewrite <- app_assoc.
    rewrite EQ. split.
    - intros [nd Hnd]. apply (inv_below _ _ I) in Hnd; [|discriminate].
      destruct Hnd as [(m & _ & X & _)|(m & w & d & Hd & X & _)]; [discriminate|].
      injection X as X1 X2. apply quote_inj in X1. subst. exists w. split; auto. unfold present. congruence.
    - intros (v & Hd & ->). rewrite (inv_file _ _ _ _ I). unfold present in Hd.
      destruct (entry h n v); [simpl; eauto|congruence].
  Qed.

  Lemma rmap_versions l : (forall x, In x l -> exists v, x = file_name v) ->
    exists vs, rmap (fun x => python_int (stem x)) l = Ok vs /\ l = map file_name vs.
  Proof.
    induction l as [|x l IH]; intros H; simpl.
    - exists []. auto.
    - destruct (H x (or_introl eq_refl)) as [v ->]. rewrite stem_file, python_int_dec.
      destruct IH as (vs & E & ->); [intros y Hy; apply H; simpl; auto|]. rewrite E.
      exists (v :: vs). auto.
  Qed.

  Lemma Zleb_true x y : Z.leb x y = true -> x = y \/ (x < y)%Z.
  Proof. intros H. apply Z.leb_le in H. lia. Qed.
  Lemma Zleb_false x y : Z.leb x y = false -> (y < x)%Z.
  Proof. intros H. now apply Z.leb_gt in H. Qed.

  Lemma versions_spec fs h n : Inv fs h -> valid_name n ->
    (~ listed h n /\ versions root fs n = Ok None) \/
    (listed h n /\ exists l, versions root fs n = Ok (Some l) /\
       StronglySorted Z.lt l /\ forall v, In v l <-> present h n v).
  Proof.
    intros I V. unfold versions. destruct (listdir_name _ _ _ I V) as [[H E]|[H (l & E & ND & HL)]]; rewrite E; [auto|].
    right. split; auto.
    destruct (rmap_versions l) as (vs & E' & ->).
    { intros x Hx. apply HL in Hx as (v & _ & ->). eauto. }
    rewrite E'. simpl. eexists. split; [reflexivity|].
    split.
    - apply sorted_sorted; eauto using Zleb_true, Zleb_false, Z.lt_trans.
      apply NoDup_map_inv in ND. exact ND.
    - intros v. rewrite sorted_In. split.
      + intros Hv. destruct (proj1 (HL (file_name v)) (in_map _ _ _ Hv)) as (w & Hw & E2).
        apply file_name_inj in E2. now subst.
      + intros Hv. assert (In (file_name v) (map file_name vs)) as X by (apply HL; eauto).
        apply in_map_iff in X as (w & E2 & Hw). apply file_name_inj in E2. now subst.
  Qed.

  Lemma max_latest h n l m : (forall v, In v l <-> present h n v) -> max_list l = Some m -> latest_present h n m.
  Proof.
    intros HL E. apply max_list_spec in E as [E1 E2]. split; [now apply HL|].
    intros w Hw. apply E2. now apply HL.
  Qed.

  Lemma latest_spec fs h n : Inv fs h -> valid_name n ->
    ((forall w, ~ present h n w) /\ latest root fs n = Ok None) \/
    (exists v, latest_present h n v /\ latest root fs n = Ok (Some v)).
  Proof.
    intros I V. unfold latest. destruct (versions_spec _ _ _ I V) as [[H ->]|[H (l & -> & _ & HL)]].
    - left. split; auto. intros w Hw. now apply H, (present_listed h n w).
    - cbn [rbind]. destruct l as [|x l].
      + left. split; auto. intros w Hw. now apply HL in Hw.
      + right. destruct (max_list (x :: l)) as [m|] eqn:E; [|discriminate].
        exists m. split; auto. eapply max_latest; eauto.
  Qed.

  Definition parse (d : pyval) : res rtype := snd (from_dict_new d).

  Lemma get_version_spec fs h n v : Inv fs h -> valid_name n -> get_version root fs n v = answer_of parse h n v.
  Proof.
    intros I V. unfold get_version, read, answer_of. rewrite file_path_valid by auto.
    rewrite node_at_app by discriminate. rewrite (inv_file _ _ _ _ I).
    destruct (entry h n v) as [[d|]|]; simpl; auto.
  Qed.

  Lemma get_latest_spec fs h n : Inv fs h -> valid_name n ->
    ((forall w, ~ present h n w) /\ get root fs n None = Ok None) \/
    (exists v, latest_present h n v /\ get root fs n None = answer_of parse h n v).
  Proof.
    intros I V. unfold get. destruct (versions_spec _ _ _ I V) as [[H ->]|[H (l & -> & _ & HL)]].
    - left. split; auto. intros w Hw. now apply H, (present_listed h n w).
    - cbn [rbind]. destruct l as [|x l].
      + left. split; auto. intros w Hw. now apply HL in Hw.
      + right. destruct (max_list (x :: l)) as [m|] eqn:E; [|discriminate].
        exists m. split; [eapply max_latest; eauto|]. now apply get_version_spec.
  Qed.

  Lemma ls_spec fs h : Inv fs h ->
    exists l, ls root fs = Ok l /\ StronglySorted str_lt l /\ forall n, In n l <-> listed h n.
  Proof.
    intros I. unfold ls, listdir. rewrite (inv_root_dir _ _ I). simpl. eexists. split; [reflexivity|].
    assert (IC : forall x, In x (child_names root fs) <-> exists n, listed h n /\ x = quote_plus n).
    { intros x. rewrite child_names_In, fget_key. split.
      - intros [nd Hnd]. apply (inv_below _ _ I) in Hnd; [|discriminate].
        destruct Hnd as [(m & Hm & X & _)|(m & w & d & _ & X & _)]; [|discriminate].
        injection X as ->. eauto.
      - intros (n & Hn & ->). exists Dir. apply (inv_below _ _ I); [discriminate|]. left. eauto. }
    split.
    - apply sorted_sorted; eauto using str_leb_true, str_leb_false, str_lt_trans.
      assert (G : forall l, NoDup l -> (forall x, In x l -> exists n, x = quote_plus n) -> NoDup (map unquote_plus l)).
      { induction 1 as [|x l Hn Hd IH]; simpl; intros HQ; constructor; auto.
        intros Hx. apply in_map_iff in Hx as (y & E & Hy).
        destruct (HQ x (or_introl eq_refl)) as [n ->]. destruct (HQ y (or_intror Hy)) as [m ->].
        rewrite !unquote_quote in E. subst. auto. }
      apply G; [apply child_names_NoDup, (inv_nodup _ _ I)|].
      intros x Hx. apply IC in Hx as (n & _ & ->). eauto.
    - intros n. rewrite sorted_In, in_map_iff. split.
      + intros (x & E & Hx). apply IC in Hx as (m & Hm & ->). rewrite unquote_quote in E. now subst.
      + intros Hn. exists (quote_plus n). rewrite unquote_quote. split; auto. apply IC. eauto.
  Qed.

  (** *** put *)
  Lemma exec_all_app a b fs : exec_all (a ++ b) fs =
    match exec_all a fs with (fs', Ok _) => exec_all b fs' | (fs', Err e) => (fs', Err e) end.
  Proof.
    revert fs. induction a as [|s a IH]; intros fs; simpl; auto.
    destruct (exec s fs); auto.
  Qed.

  Lemma prefixes_spec p x : In x (prefixes p) <-> x <> [] /\ exists q, p = x ++ q.
  Proof.
    revert x. induction p as [|a p IH]; intros x; simpl.
    - split; [tauto|]. intros [H [q E]]. destruct x; [congruence|discriminate].
    - rewrite in_map_iff. split.
      + intros [<-|(y & <- & Hy)].
        * split; [discriminate|]. exists p. auto.
        * apply IH in Hy as [_ [q ->]]. split; [discriminate|]. exists q. auto.
      + intros [H [q E]]. destruct x as [|b x]; [congruence|]. simpl in E. injection E as -> ->.
        destruct x; [left; auto|right]. eexists. split; [reflexivity|]. apply IH. split; [discriminate|eauto].
  Qed.

  Lemma prefixes_app p x : prefixes (p ++ [x]) = prefixes p ++ [p ++ [x]].
  Proof.
    induction p as [|a p IH]; simpl; auto. rewrite IH, map_app. reflexivity.
  Qed.

  Lemma mkdirs_existing l fs : (forall p, In p l -> node_at p fs = Some Dir) -> exec_all (map Mkdir l) fs = (fs, Ok tt).
  Proof.
    induction l as [|p l IH]; intros H; simpl; auto.
    rewrite (H p (or_introl eq_refl)). apply IH. intros q Hq. apply H. simpl. auto.
  Qed.

  Lemma removelast_file n v : removelast (root ++ [quote_plus n; file_name v]) = root ++ [quote_plus n].
  Proof. rewrite removelast_app by discriminate. reflexivity. Qed.

  Lemma app_eq_root q : root ++ q = root -> q = [].
  Proof. intros H. rewrite <- (app_nil_r root) in H at 2. now apply app_inv_head in H. Qed.

  Lemma node_at_fset p q n fs : q <> [] -> node_at p (fset q n fs) = if path_eqb p q then Some n else node_at p fs.
  Proof.
    intros H. destruct p; simpl.
    - destruct q; [congruence|reflexivity].
    - apply fget_fset.
  Qed.

  Lemma root_not_below p q r : root = p ++ q -> r <> [] -> path_eqb p (root ++ r) = false.
  Proof.
    intros E H. destruct (path_eqb_spec p (root ++ r)) as [->|]; auto.
    apply (f_equal (@length _)) in E. rewrite !app_length in E. destruct r; [congruence|]. simpl in E. lia.
  Qed.


  (** The three effects a put has on the tree. *)
  Definition made_dir (n : string) (fs : fsys) : fsys :=
    match fget (root ++ [quote_plus n]) fs with Some _ => fs | None => fset (root ++ [quote_plus n]) Dir fs end.
  Definition opened (n : string) (v : Z) (fs : fsys) : fsys :=
    fset (root ++ [quote_plus n; file_name v]) (File Trunc) (made_dir n fs).
  Definition written (n : string) (v : Z) (d : pyval) (fs : fsys) : fsys :=
    fset (root ++ [quote_plus n; file_name v]) (File (Full d)) (opened n v fs).

  Lemma made_dir_get fs h n p : Inv fs h ->
    fget p (made_dir n fs) = if path_eqb p (root ++ [quote_plus n]) then Some Dir else fget p fs.
  Proof.
    intros I. unfold made_dir. destruct (inv_dir _ _ n I) as [[E _]|[E _]]; rewrite E.
    - destruct (path_eqb_spec p (root ++ [quote_plus n])); subst; auto.
    - apply fget_fset.
  Qed.
  Lemma made_dir_nodup fs n : NoDup (map fst fs) -> NoDup (map fst (made_dir n fs)).
  Proof. intros H. unfold made_dir. destruct (fget _ _); auto. now apply fset_NoDup. Qed.

  (** A state that differs from one in the invariant by a directory and possibly a file. *)
  Lemma inv_extend fs h n fs' (e : option (Z * option pyval)) : Inv fs h -> NoDup (map fst fs') ->
    (forall p, fget p fs' =
       match e with
       | Some (v, c) => if path_eqb p (root ++ [quote_plus n; file_name v]) then Some (file_of c)
                        else if path_eqb p (root ++ [quote_plus n]) then Some Dir else fget p fs
       | None => if path_eqb p (root ++ [quote_plus n]) then Some Dir else fget p fs
       end) ->
    Inv fs' (match e with Some (v, Some d) => Stored n v d | Some (v, None) => Damaged n v | None => Created n end :: h).
  Proof.
    intros I ND F. set (ev := match e with Some (v, Some d) => Stored n v d | Some (v, None) => Damaged n v | None => Created n end).
    assert (EN : event_name ev = n) by (destruct e as [[v [d|]]|]; reflexivity).
    assert (LI : forall m, listed (ev :: h) m <-> m = n \/ listed h m).
    { intros m. unfold listed. simpl. rewrite EN. intuition. }
    assert (EE : forall m w, entry (ev :: h) m w =
      match e with Some (v, c) => if (String.eqb m n && Z.eqb w v)%bool then Some c else entry h m w | None => entry h m w end).
    { intros m w. destruct e as [[v [d|]]|]; reflexivity. }
    clearbody ev. split; auto.
    - intros p q E. destruct p as [|a p]; [reflexivity|]. cbn [node_at]. rewrite F.
      pose proof (inv_root _ _ I (a :: p) q E) as R. cbn [node_at] in R.
      destruct e as [[v c]|]; rewrite ?(root_not_below (a :: p) q) by (auto || discriminate); auto.
    - intros q nd NE. rewrite F.
      assert (B1 : forall p, below (ev :: h) p nd <->
                match e with
                | Some (v, c) => (p = [quote_plus n; file_name v] /\ nd = file_of c) \/
                                 (p <> [quote_plus n; file_name v] /\ (p = [quote_plus n] /\ nd = Dir \/ below h p nd))
                | None => p = [quote_plus n] /\ nd = Dir \/ below h p nd
                end).
      { intros p. unfold below. setoid_rewrite LI. setoid_rewrite EE. destruct e as [[v c]|].
        - split.
          + intros [(m & [->|Hm] & -> & ->)|(m & w & d & Hd & -> & ->)].
            * right. split; [discriminate|auto].
            * right. split; [discriminate|]. right. left. eauto.
            * destruct (String.eqb_spec m n), (Z.eqb_spec w v); simpl in Hd; subst;
                try (injection Hd as ->; left; auto);
                (right; split; [intros X; injection X; intros;
                  repeat match goal with
                         | H : quote_plus _ = quote_plus _ |- _ => apply quote_inj in H
                         | H : file_name _ = file_name _ |- _ => apply file_name_inj in H
                         end; congruence|]);
                right; right; eauto 6.
          + intros [[-> ->]|[Hne [[-> ->]|[(m & Hm & -> & ->)|(m & w & d & Hd & -> & ->)]]]].
            * right. exists n, v, c. rewrite String.eqb_refl, Z.eqb_refl. auto.
            * left. eauto.
            * left. eauto.
            * right. exists m, w, d. destruct (String.eqb_spec m n), (Z.eqb_spec w v); simpl; auto. subst. congruence.
        - split.
          + intros [(m & [->|Hm] & -> & ->)|(m & w & d & Hd & -> & ->)]; [auto|right; left; eauto|right; right; eauto 6].
          + intros [[-> ->]|[(m & Hm & -> & ->)|(m & w & d & Hd & -> & ->)]]; [left; eauto|left; eauto|right; eauto 6]. }
      rewrite B1. clear B1.
      assert (D : (if path_eqb (root ++ q) (root ++ [quote_plus n]) then Some Dir else fget (root ++ q) fs) = Some nd <->
                  q = [quote_plus n] /\ nd = Dir \/ below h q nd).
      { destruct (path_eqb_spec (root ++ q) (root ++ [quote_plus n])) as [E|E].
        - apply app_inv_head in E. subst q. split; [intros [= <-]; auto|].
          intros [[_ ->]|[(m & _ & _ & ->)|(m & w & d & _ & X & _)]]; auto. discriminate.
        - rewrite (inv_below _ _ I q nd NE). split; [auto|]. intros [[-> _]|H]; [congruence|auto]. }
      destruct e as [[v c]|]; auto.
      destruct (path_eqb_spec (root ++ q) (root ++ [quote_plus n; file_name v])) as [E|E].
      + apply app_inv_head in E. subst q. split; [intros [= <-]; auto|]. intros [[_ ->]|[H _]]; congruence.
      + rewrite D. split.
        * intros H. right. split; auto. congruence.
        * intros [[-> _]|[_ H]]; [congruence|auto].
  Qed.

  Lemma inv_made_dir fs h n : Inv fs h -> Inv (made_dir n fs) (Created n :: h).
  Proof.
    intros I. apply (inv_extend fs h n _ None I); [apply made_dir_nodup, (inv_nodup _ _ I)|].
    intros p. eapply made_dir_get; eauto.
  Qed.
  Lemma inv_opened fs h n v : Inv fs h -> Inv (opened n v fs) (Damaged n v :: h).
  Proof.
    intros I. apply (inv_extend fs h n _ (Some (v, None)) I).
    - apply fset_NoDup, made_dir_nodup, (inv_nodup _ _ I).
    - intros p. unfold opened. rewrite fget_fset, (made_dir_get _ _ _ _ I). reflexivity.
  Qed.
  Lemma inv_written fs h n v d : Inv fs h -> Inv (written n v d fs) (Stored n v d :: h).
  Proof.
    intros I. apply (inv_extend fs h n _ (Some (v, Some d)) I).
    - apply fset_NoDup, fset_NoDup, made_dir_nodup, (inv_nodup _ _ I).
    - intros p. unfold written, opened. rewrite !fget_fset, (made_dir_get _ _ _ _ I).
      destruct (path_eqb p (root ++ [quote_plus n; file_name v])); reflexivity.
  Qed.

  Lemma mkdirs_name fs h n : Inv fs h -> valid_name n ->
    exec_all (mkdirs (dir_path root n)) fs = (made_dir n fs, Ok tt).
  Proof.
    intros I V. rewrite dir_path_valid by auto. unfold mkdirs. rewrite prefixes_app, map_app, exec_all_app.
    rewrite mkdirs_existing.
    2:{ intros p Hp. apply prefixes_spec in Hp as [_ [q E]]. eapply (inv_root _ _ I); eauto. }
    simpl. rewrite node_at_app by discriminate. unfold made_dir.
    destruct (inv_dir _ _ n I) as [[E _]|[E _]]; rewrite E; reflexivity.
  Qed.

  Lemma exec_open fs h n v : Inv fs h -> exec (OpenW (root ++ [quote_plus n; file_name v])) (made_dir n fs) = Ok (opened n v fs).
  Proof.
    intros I. cbn [exec]. rewrite removelast_file. rewrite !node_at_app by discriminate.
    rewrite !(made_dir_get _ _ _ _ I), path_eqb_refl.
    destruct (path_eqb_spec (root ++ [quote_plus n; file_name v]) (root ++ [quote_plus n])) as [E|E].
    { apply app_inv_head in E. discriminate. }
    rewrite (inv_file _ _ _ _ I). destruct (entry h n v) as [[d|]|]; reflexivity.
  Qed.

  Lemma put_steps fs h n v d : Inv fs h -> valid_name n ->
    exec_all (mkdirs (dir_path root n) ++ [OpenW (file_path root n v); Write (file_path root n v) d]) fs
      = (written n v d fs, Ok tt).
  Proof.
    intros I V. rewrite exec_all_app, (mkdirs_name _ _ _ I V), file_path_valid by auto.
    cbn [exec_all]. rewrite (exec_open _ _ _ _ I). reflexivity.
  Qed.

  Lemma firstn_mkdirs k fs n h : Inv fs h -> valid_name n -> k <= length (mkdirs (dir_path root n)) ->
    fst (exec_all (firstn k (mkdirs (dir_path root n))) fs) = fs \/
    fst (exec_all (firstn k (mkdirs (dir_path root n))) fs) = made_dir n fs.
  Proof.
    intros I V Hk.
    pose proof (mkdirs_name _ _ _ I V) as M. revert M Hk. rewrite dir_path_valid by auto. unfold mkdirs.
    rewrite prefixes_app, map_app, app_length, firstn_app. simpl length. intros M Hk.
    assert (X : forall j, exec_all (firstn j (map Mkdir (prefixes root))) fs = (fs, Ok tt)).
    { intros j. rewrite firstn_map. apply mkdirs_existing. intros p Hp.
      assert (In p (prefixes root)) as Hp'.
      { rewrite <- (firstn_skipn j (prefixes root)). apply in_or_app. auto. }
      apply prefixes_spec in Hp' as [_ [q E]]. eapply (inv_root _ _ I); eauto. }
    rewrite exec_all_app, X.
    destruct (k - length (map Mkdir (prefixes root))) as [|[|j]] eqn:Ek.
    - left. reflexivity.
    - right. rewrite exec_all_app, mkdirs_existing in M.
      + simpl in M |- *. rewrite M. reflexivity.
      + intros p Hp. apply prefixes_spec in Hp as [_ [q E]]. eapply (inv_root _ _ I); eauto.
    - simpl in Hk. lia.
  Qed.

  (** The states a put can be caught in. *)
  Lemma crash_states k fs h n v d : Inv fs h -> valid_name n ->
    exists h', Inv (fst (exec_all (firstn k (mkdirs (dir_path root n) ++ [OpenW (file_path root n v); Write (file_path root n v) d])) fs)) h' /\
               crash_effect h n v d h'.
  Proof.
    intros I V. rewrite firstn_app.
    destruct (le_lt_dec k (length (mkdirs (dir_path root n)))) as [Hk|Hk].
    - replace (k - length (mkdirs (dir_path root n))) with 0 by lia. rewrite firstn_O, app_nil_r.
      destruct (firstn_mkdirs k fs n h I V Hk) as [->| ->].
      + exists h. split; auto. constructor.
      + exists (Created n :: h). split; [now apply inv_made_dir|constructor].
    - rewrite (firstn_all2 (mkdirs _)) by lia. rewrite exec_all_app, (mkdirs_name _ _ _ I V), file_path_valid by auto.
      destruct (k - length (mkdirs (dir_path root n))) as [|[|j]] eqn:Ek; [lia| |];
        cbn [firstn exec_all]; rewrite (exec_open _ _ _ _ I).
      + exists (Damaged n v :: h). split; [now apply inv_opened|constructor].
      + replace (firstn j [] : list step) with ([] : list step) by now destruct j.
        exists (Stored n v d :: h). split; [now apply inv_written|constructor].
  Qed.

  Lemma put_version_spec fs h n v : Inv fs h -> valid_name n -> exists w, put_version root fs n v = Ok w /\ target h n v w.
  Proof.
    intros I V. destruct v as [v|]; simpl; [eauto|].
    destruct (latest_spec _ _ _ I V) as [[Hn ->]|(m & Hm & ->)]; simpl.
    - exists 1%Z. split; auto. now constructor.
    - exists (m + 1)%Z. split; auto. now constructor.
  Qed.

  Definition run_op (fs : fsys) (o : op) : fsys * answer :=
    match o with
    | OPut n t v => let (fs', r) := put root fs n t v in (fs', APut r)
    | OGet n v => (fs, AGet (get root fs n v))
    | OVersions n => (fs, AVersions (versions root fs n))
    | OLatest n => (fs, ALatest (latest root fs n))
    | OLs => (fs, ALs (ls root fs))
    end.

  Fixpoint run_ops (fs : fsys) (l : list op) : fsys * list answer :=
    match l with
    | [] => (fs, [])
    | o :: r => let (fs1, a) := run_op fs o in let (fs2, az) := run_ops fs1 r in (fs2, a :: az)
    end.

  Definition op_ok (o : op) : Prop := match op_name o with Some n => valid_name n | None => True end.


  (** A put cut off by a crash gives no answer. *)
  Definition run_cop (fs : fsys) (c : cop) : fsys * option answer :=
    match c with
    | Run o => let (fs', a) := run_op fs o in (fs', Some a)
    | Crash n t v k => (put_crash root k fs n t v, None)
    end.
  Fixpoint run_cops (fs : fsys) (l : list cop) : fsys * list (option answer) :=
    match l with
    | [] => (fs, [])
    | o :: r => let (fs1, a) := run_cop fs o in let (fs2, az) := run_cops fs1 r in (fs2, a :: az)
    end.
  Definition cop_ok (c : cop) : Prop := match cop_name c with Some n => valid_name n | None => True end.

  Theorem crefine_step fs h c : Inv fs h -> cop_ok c ->
    exists h', Inv (fst (run_cop fs c)) h' /\ cspec_step (to_dict true true) parse h c h' (snd (run_cop fs c)).
  Proof.
    intros I OK. destruct c as [o|n t v k]; unfold cop_ok in OK; simpl in OK.
    - destruct o as [n t v|n [v|]|n|n|]; simpl in *.
      + unfold put, put_plan. destruct (put_version_spec fs h n v I OK) as (w & -> & T). cbn [rbind].
        destruct (to_dict true true t) as [d|e] eqn:E; cbn [rbind].
        * rewrite (put_steps fs h n w d I OK). exists (Stored n w d :: h). simpl. split; [now apply inv_written|].
          now constructor.
        * exists h. simpl. split; auto. now constructor.
      + exists h. split; auto. rewrite (get_version_spec _ _ _ _ I OK). constructor.
      + exists h. split; auto. destruct (get_latest_spec _ _ _ I OK) as [[Hn E]|(m & Hm & E)]; cbn [get] in E; rewrite E; now constructor.
      + exists h. split; auto.
        destruct (versions_spec _ _ _ I OK) as [[Hn ->]|[Hn (l & -> & Hs & HL)]]; constructor; auto.
      + exists h. split; auto.
        destruct (latest_spec _ _ _ I OK) as [[Hn ->]|(m & Hm & ->)]; constructor; auto.
      + exists h. split; auto.
        destruct (ls_spec _ _ I) as (l & -> & Hs & HL). constructor; auto.
    - simpl. unfold put_crash, put_plan.
      destruct (put_version_spec fs h n v I OK) as (w & -> & T). cbn [rbind].
      destruct (to_dict true true t) as [d|e] eqn:E; cbn [rbind].
      + destruct (crash_states k fs h n w d I OK) as (h' & I' & CE). exists h'. split; auto. econstructor; eauto.
      + exists h. split; auto. econstructor; eauto.
  Qed.

  Theorem crefine_run os : forall fs h, Inv fs h -> Forall cop_ok os ->
    exists h', Inv (fst (run_cops fs os)) h' /\
               cspec_run (to_dict true true) parse h os (snd (run_cops fs os)) h'.
  Proof.
    induction os as [|o os IH]; intros fs h I F; simpl.
    - exists h. split; auto. constructor.
    - inversion F as [|? ? Fo Fos]; subst.
      destruct (crefine_step fs h o I Fo) as (h1 & I1 & S1).
      destruct (run_cop fs o) as [fs1 a]. simpl in *.
      destruct (IH fs1 h1 I1 Fos) as (h2 & I2 & S2).
      destruct (run_cops fs1 os) as [fs2 az]. simpl in *.
      exists h2. split; auto. econstructor; eauto.
  Qed.

  (** Without crashes the events are those of a plain history. *)
  Definition events (h : history) : list event := map (fun e => match e with (n, v, d) => Stored n v d end) h.

  Lemma entry_events h n v : entry (events h) n v = option_map Some (stored_doc h n v).
  Proof.
    induction h as [|[[m w] d] h IH]; simpl; auto. rewrite IH.
    destruct (String.eqb n m && Z.eqb v w)%bool; reflexivity.
  Qed.
  Lemma present_events h n v : present (events h) n v <-> has_version h n v.
  Proof.
    unfold present, has_version. rewrite entry_events. destruct (stored_doc h n v); simpl; split; eauto; try congruence.
    intros [d Hd]. discriminate.
  Qed.
  Lemma listed_events h n : listed (events h) n <-> has_name h n.
  Proof.
    unfold has_name. setoid_rewrite <- present_events. split.
    - unfold listed, present. induction h as [|[[m w] d] h IH]; simpl; [tauto|].
      intros [<-|H].
      + exists w. rewrite String.eqb_refl, Z.eqb_refl. simpl. congruence.
      + destruct (IH H) as [v Hv]. exists v. destruct (String.eqb n m && Z.eqb v w)%bool; congruence.
    - intros [v Hv]. eapply present_listed; eauto.
  Qed.
  Lemma latest_events h n v : latest_present (events h) n v <-> is_latest h n v.
  Proof. unfold latest_present, is_latest. setoid_rewrite present_events. tauto. Qed.
  Lemma none_events h n : (forall w, ~ present (events h) n w) -> ~ has_name h n.
  Proof. intros H [w Hw]. apply (H w). now apply present_events. Qed.

  Lemma plain_step wr pa h o h' a : cspec_step wr pa (events h) (Run o) h' (Some a) ->
    exists h0, h' = events h0 /\ spec_step wr pa h o h0 a.
  Proof.
    assert (R : forall n v, read_back pa h n v (answer_of pa (events h) n v)).
    { intros n v. unfold read_back, answer_of. rewrite entry_events. destruct (stored_doc h n v) as [d|]; simpl; auto.
      destruct (pa d); auto. }
    intros H. inversion H; subst.
    - exists h. split; auto. econstructor; eauto.
    - match goal with T : target _ _ _ _ |- _ => rename T into TT end.
      eexists ((n, w, d) :: h). split; [reflexivity|]. destruct v as [v|]; simpl in TT.
      + subst w. now constructor.
      + inversion TT; subst; constructor; auto; [now apply none_events|now apply latest_events].
    - exists h. split; auto. now constructor.
    - exists h. split; auto. constructor. now apply none_events.
    - exists h. split; auto. eapply s_get_latest; eauto. now apply latest_events.
    - exists h. split; auto. constructor. now rewrite <- listed_events.
    - exists h. split; auto. constructor; auto; [now apply listed_events|].
      intros v. rewrite <- present_events. auto.
    - exists h. split; auto. constructor. now apply none_events.
    - exists h. split; auto. constructor. now apply latest_events.
    - exists h. split; auto. constructor; auto. intros n. rewrite <- listed_events. auto.
  Qed.

  Theorem refine_step fs h o : Inv fs (events h) -> op_ok o ->
    exists h', Inv (fst (run_op fs o)) (events h') /\ spec_step (to_dict true true) parse h o h' (snd (run_op fs o)).
  Proof.
    intros I OK. destruct (crefine_step fs (events h) (Run o) I OK) as (h' & I' & S').
    simpl in *. destruct (run_op fs o) as [fs' a]. simpl in *.
    apply plain_step in S' as (h0 & -> & S0). eauto.
  Qed.

  Theorem refine_run os : forall fs h, Inv fs (events h) -> Forall op_ok os ->
    exists h', Inv (fst (run_ops fs os)) (events h') /\
               spec_run (to_dict true true) parse h os (snd (run_ops fs os)) h'.
  Proof.
    induction os as [|o os IH]; intros fs h I F; simpl.
    - exists h. split; auto. constructor.
    - inversion F as [|? ? Fo Fos]; subst.
      destruct (refine_step fs h o I Fo) as (h1 & I1 & S1).
      destruct (run_op fs o) as [fs1 a]. simpl in *.
      destruct (IH fs1 h1 I1 Fos) as (h2 & I2 & S2).
      destruct (run_ops fs1 os) as [fs2 az]. simpl in *.
      exists h2. split; auto. econstructor; eauto.
  Qed.

  (** A new registry: whatever else is on the disk, nothing is below the root and no
      ancestor of the root is a file. *)
  Definition fresh_root (fs : fsys) : Prop :=
    NoDup (map fst fs) /\ (forall q, q <> [] -> fget (root ++ q) fs = None) /\
    (forall p q c, root = p ++ q -> node_at p fs <> Some (File c)).

  Lemma mkdirs_fresh l : forall fs,
    (forall p, In p l -> p <> []) -> (forall p c, In p l -> node_at p fs <> Some (File c)) ->
    exists fs', exec_all (map Mkdir l) fs = (fs', Ok tt) /\
      (forall p, fget p fs' = match fget p fs with Some n => Some n | None => if existsb (path_eqb p) l then Some Dir else None end) /\
      (NoDup (map fst fs) -> NoDup (map fst fs')).
  Proof.
    induction l as [|p l IH]; intros fs NE NF.
    - exists fs. repeat split; auto. intros p. destruct (fget p fs); auto.
    - cbn [map exec_all exec].
      assert (EN : node_at p fs = fget p fs).
      { specialize (NE p (or_introl eq_refl)). destruct p; [congruence|reflexivity]. }
      rewrite EN. destruct (fget p fs) as [[|c]|] eqn:E.
      + destruct (IH fs) as (fs' & E1 & E2 & E3); [intros; apply NE; simpl; auto|intros; apply NF; simpl; auto|].
        exists fs'. repeat split; auto. intros q. rewrite E2. simpl.
        destruct (path_eqb_spec q p); [subst; now rewrite E|reflexivity].
      + elim (NF p c (or_introl eq_refl)). congruence.
      + destruct (IH (fset p Dir fs)) as (fs' & E1 & E2 & E3); [intros; apply NE; simpl; auto| |].
        { intros q c Hq. rewrite node_at_fset by (apply NE; simpl; auto).
          destruct (path_eqb q p); [discriminate|]. apply NF. simpl. auto. }
        exists fs'. split; auto. split.
        * intros q. rewrite E2, fget_fset. simpl. destruct (path_eqb_spec q p); [subst; now rewrite E|reflexivity].
        * intros. apply E3. now apply fset_NoDup.
  Qed.

  Theorem init_inv fs : fresh_root fs -> exists fs', init root fs = (fs', Ok tt) /\ Inv fs' [].
  Proof.
    intros (ND & NB & NF). unfold init, mkdirs.
    destruct (mkdirs_fresh (prefixes root) fs) as (fs' & E1 & E2 & E3).
    { intros p Hp. now apply prefixes_spec in Hp. }
    { intros p c Hp. apply prefixes_spec in Hp as [_ [q E]]. eauto. }
    exists fs'. split; auto. split; auto.
    - intros p q E. destruct p as [|a p]; [reflexivity|]. cbn [node_at]. rewrite E2.
      assert (X : existsb (path_eqb (a :: p)) (prefixes root) = true).
      { apply existsb_exists. exists (a :: p). split; [|apply path_eqb_refl].
        apply prefixes_spec. split; [discriminate|eauto]. }
      specialize (NF (a :: p) q). cbn [node_at] in NF. rewrite X.
      destruct (fget (a :: p) fs) as [[|c]|]; auto. elim (NF c E); auto.
    - intros q nd NE. rewrite E2, NB by auto.
      assert (X : existsb (path_eqb (root ++ q)) (prefixes root) = false).
      { destruct existsb eqn:X; auto. apply existsb_exists in X as (p & Hp & Ep).
        apply prefixes_spec in Hp as [_ [r E]].
        destruct (path_eqb_spec (root ++ q) p) as [<-|]; [|discriminate].
        apply (f_equal (@length _)) in E. rewrite !app_length in E. destruct q; [congruence|]. simpl in E. lia. }
      rewrite X. split; [discriminate|].
      intros [(m & [] & _)|(m & w & d & Hd & _)]; discriminate.
  Qed.
End Refine.
