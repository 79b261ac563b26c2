(** Termination of from_dict, well-formedness of its results, its effect on the
    registry, and the verbose round trip (proofs only). *)
From Coq Require Import String Ascii List ZArith QArith Bool Lia.
From Verif Require Import PyVal PyValFacts RType Registry FromDict ToDict FromDictFacts.
Import ListNotations.
Open Scope nat_scope.
Open Scope string_scope.
Open Scope list_scope.

(** ** Termination *)
Definition nof {A} (r : res A) : Prop := r <> Err OutOfFuel.

Lemma nof_mbind {A B} (m : M A) (f : A -> M B) R :
  nof (snd (m R)) -> (forall a R', nof (snd (f a R'))) -> nof (snd (mbind m f R)).
Proof.
  unfold mbind, nof. destruct (m R) as [R1 [a|e]]; simpl; auto. congruence.
Qed.
Lemma nof_lift {A} (r : res A) R : nof r -> nof (snd (lift r R)).
Proof. auto. Qed.
Lemma nof_rbind {A B} (x : res A) (f : A -> res B) : nof x -> (forall a, nof (f a)) -> nof (rbind x f).
Proof. unfold nof. destruct x; simpl; auto; congruence. Qed.
Lemma nof_mmap {A B} (f : A -> M B) l R :
  (forall x R, In x l -> nof (snd (f x R))) -> nof (snd (mmap f l R)).
Proof.
  revert R. induction l as [|x l IH]; intros R H; simpl.
  - discriminate.
  - apply nof_mbind; [apply H; now left|]. intros a R'.
    apply nof_mbind; [apply IH; intros; apply H; now right|]. discriminate.
Qed.
Lemma nof_bind_common k d : nof (bind_common k d).
Proof. unfold bind_common, nof. destruct existsb; discriminate. Qed.
Lemma nof_py_iter v : nof (py_iter v).
Proof. destruct v; discriminate. Qed.
Lemma nof_desugar d : nof (desugar d).
Proof.
  unfold desugar. destruct negb; [discriminate|]. destruct dget; [|discriminate].
  apply nof_rbind; [destruct p; discriminate|]. intros a.
  apply nof_rbind; [|discriminate]. destruct a; [discriminate|]. destruct p; discriminate.
Qed.
Lemma nof_validate_bits b : nof (validate_bits b).
Proof.
  unfold validate_bits, py_lt_z, py_gt_z. destruct num_of; simpl; try discriminate.
  destruct negb; try discriminate. destruct negb; discriminate.
Qed.
Lemma nof_validate_len l v : nof (validate_len l v).
Proof.
  unfold validate_len, py_lt_z, py_gt_z. destruct (_ && _); try discriminate.
  destruct is_none; try discriminate. destruct num_of; simpl; try discriminate.
  destruct negb; try discriminate. destruct negb; discriminate.
Qed.
Lemma nof_validate t : nof (validate t).
Proof.
  induction t using rtype_ind'; simpl; try discriminate;
    auto using nof_validate_bits, nof_validate_len.
  - apply nof_rbind; auto using nof_validate_len.
  - apply nof_rbind; auto.
  - induction H; [discriminate|]. apply nof_rbind; auto.
Qed.
Lemma nof_register t R : nof (snd (register_alias t R)).
Proof.
  unfold register_alias. destruct (c_alias (get_c t)); try discriminate.
  destruct dmem; try discriminate. destruct Regex.re_match; discriminate.
Qed.
Lemma nof_finish t R : nof (snd (finish t R)).
Proof.
  unfold finish. apply nof_mbind; [apply nof_lift, nof_validate|]. intros _ R'.
  destruct (_ && _); [|discriminate]. apply nof_mbind; [apply nof_register|discriminate].
Qed.

Lemma nof_mbind_lift {A B} (r : res A) (f : A -> M B) R :
  nof r -> (forall a, r = Ok a -> nof (snd (f a R))) -> nof (snd (mbind (lift r) f R)).
Proof. unfold mbind, lift, nof. destruct r; simpl; auto; congruence. Qed.

Lemma nof_build rec d R :
  kids_ok (fun x => forall R, nof (snd (rec x R))) d -> nof (snd (build rec d R)).
Proof.
  intros (HT & HL & HK & HV & HF & HU). unfold build, tn in *.
  destruct (dget "type" d) as [[| | | |nm|l|]|] eqn:ET; try discriminate.
  - repeat match goal with
      | |- nof (snd ((if String.eqb ?a ?b then _ else _) _)) =>
          destruct (String.eqb_spec a b); [subst|]
      end; rewrite ?dget_ddel; simpl;
      repeat match goal with
      | |- nof (snd ((match dget ?k d with _ => _ end) _)) => destruct (dget k d) eqn:?; try discriminate
      | |- nof (snd (mbind (lift _) _ _)) => apply nof_mbind_lift; [|intros ? ?]
      | |- nof (snd (mbind _ _ _)) => apply nof_mbind; [|intros ? ?]
      | |- nof (bind_common _ _) => apply nof_bind_common
      | |- nof (py_iter _) => apply nof_py_iter
      | |- nof (snd (ret _ _)) => discriminate
      end; auto.
    + apply nof_mmap. intros x R' Hx. unfold kwarg in H. rewrite dget_ddel in H. simpl in H.
      destruct (dget "fields" d) eqn:E.
      * eapply HF; eauto.
      * simpl in H. injection H as <-. destruct Hx.
    + apply nof_mmap. intros x R' Hx. eapply HU; eauto.
  - apply nof_mbind; [|intros; apply nof_mbind; [apply nof_lift, nof_bind_common|discriminate]].
    apply nof_mmap. intros x R' Hx. apply filter_In in Hx as [Hx _]. eapply HT; eauto.
Qed.

Lemma from_dict_f_total : forall n j R, psize j <= n -> nof (snd (from_dict_f n j R)).
Proof.
  induction n as [|n IH]; intros j R Hn; [pose proof (psize_pos j); lia|].
  simpl. apply nof_mbind_lift; [destruct j; discriminate|]. intros d Ed.
  destruct (is_none (kwarg "type" PNone d)); [discriminate|].
  apply nof_mbind_lift; [apply nof_desugar|]. intros d' Ed'.
  apply nof_mbind; [|intros; apply nof_finish].
  apply nof_build. eapply kids_ok_impl; [|eapply doc_kids; eauto].
  intros x Hx R'. simpl in Hx. apply IH. lia.
Qed.

Lemma from_dict_total j R : nof (snd (from_dict j R)).
Proof. apply from_dict_f_total. auto. Qed.

(** ** Inversion of from_dict *)
Inductive parsed (j : pyval) (R R' : registry) (t : rtype) : Prop :=
| Parsed d d' R1 :
    to_type_dict j = Ok d -> kwarg "type" PNone d <> PNone -> desugar d = Ok d' ->
    built from_dict d' R R1 t -> validate t = Ok tt ->
    (if negb (is_none (c_alias (get_c t))) && negb (is_proxy t)
     then register_alias t R1 = (R', Ok tt) else R' = R1) ->
    parsed j R R' t.

Lemma finish_inv t t' R R' :
  finish t R = (R', Ok t') <->
  t' = t /\ validate t = Ok tt /\ (if negb (is_none (c_alias (get_c t))) && negb (is_proxy t)
   then register_alias t R = (R', Ok tt) else R' = R).
Proof.
  unfold finish. unfold mbind, lift. destruct (validate t) as [[]|]; split.
  - destruct (_ && _).
    + destruct (register_alias t R) as [R2 [[]|]]; [|discriminate]. intros [= <- <-]. auto.
    + intros [= <- <-]. auto.
  - intros (-> & _ & H). destruct (_ && _).
    + rewrite H. auto.
    + subst. auto.
  - discriminate.
  - intros (_ & H & _). discriminate.
Qed.

Lemma from_dict_inv j R R' t : from_dict j R = (R', Ok t) <-> parsed j R R' t.
Proof.
  rewrite from_dict_unfold. split.
  - intros H. apply mbind_Ok in H as (? & d & H1 & H). apply lift_Ok in H1 as [-> H1].
    destruct (is_none (kwarg "type" PNone d)) eqn:EN; [discriminate|].
    apply is_none_false in EN.
    apply mbind_Ok in H as (? & d' & H2 & H). apply lift_Ok in H2 as [-> H2].
    apply mbind_Ok in H as (R1 & t1 & H3 & H). apply build_inv in H3.
    apply finish_inv in H as (-> & V & H). econstructor; eauto.
  - intros [d d' R1 H1 EN H2 H3 V H]. apply is_none_false in EN.
    apply mbind_Ok. exists R, d. split; [now apply lift_Ok|]. rewrite EN.
    apply mbind_Ok. exists R, d'. split; [now apply lift_Ok|].
    apply mbind_Ok. exists R1, t. split; [now apply build_inv|].
    now apply finish_inv.
Qed.

(** ** Well-formed type objects *)
Definition reserved (t : rtype) : list string :=
  match t with
  | TInt _ _ _ => ["bits"; "signed"]
  | TFloat _ _ => ["bits"]
  | TString _ _ _ | TBytes _ _ _ => ["bytes"; "bytes_"; "variable"]
  | TList _ _ _ _ => ["values"; "length"; "variable"]
  | TMap _ _ _ => ["keys"; "values"]
  | TStruct _ _ => ["fields"]
  | TEnum _ _ => ["symbols"]
  | TUnion _ _ => ["types"]
  | TProxy _ _ => ["registry"]
  | _ => []
  end.

Definition std_keys : list string :=
  ["type"; "optional"; "alias"; "logical"; "doc"; "self"; "type_"].

Definition attrs_of (t : rtype) : list pyval :=
  match t with
  | TInt _ a b => [a; b]
  | TFloat _ a => [a]
  | TString _ a b | TBytes _ a b => [a; b]
  | TList _ _ a b => [a; b]
  | TEnum _ a => [a]
  | _ => []
  end.

(** Conditions on one node. *)
Definition node_ok (t : rtype) : Prop :=
  let c := get_c t in
  NoDup (dkeys (c_extra c)) /\ (forall k, In k (dkeys (c_extra c)) -> ~ In k (std_keys ++ reserved t)) /\
  Forall (fun kv => pwf (snd kv)) (c_extra c) /\
  pwf (c_logical c) /\ pwf (c_alias c) /\ pwf (c_doc c) /\
  Forall pwf (attrs_of t) /\
  validate t = Ok tt /\
  match t with
  | TProxy c r => r = None /\ exists a, c_alias c = PStr a /\ ~ In a type_words
  | _ => True
  end.

(** A property of every node of a type tree. *)
Fixpoint nodes (P : rtype -> Prop) (t : rtype) : Prop :=
  P t /\ match t with
  | TList _ v _ _ => nodes P v
  | TMap _ k v => nodes P k /\ nodes P v
  | TStruct _ fs => (fix go l := match l with [] => True | x :: r => nodes P x /\ go r end) fs
  | TUnion _ ts => (fix go l := match l with [] => True | x :: r => nodes P x /\ go r end) ts
  | _ => True
  end.

Lemma nodes_list P (l : list rtype) :
  (fix go l := match l with [] => True | x :: r => nodes P x /\ go r end) l <-> Forall (nodes P) l.
Proof.
  induction l as [|x l IHl]; split; intros H; auto.
  - destruct H as [H1 H2]. constructor; auto. now apply IHl.
  - inversion H; subst. split; auto. now apply IHl.
Qed.

Lemma nodes_here P t : nodes P t -> P t.
Proof. destruct t; simpl; tauto. Qed.

Definition twf : rtype -> Prop := nodes node_ok.

(** ** What from_dict registers *)
Definition reg_node (t : rtype) : M unit :=
  if negb (is_none (c_alias (get_c t))) && negb (is_proxy t) then register_alias t else ret tt.

Fixpoint reg_tree (t : rtype) : M unit :=
  (_ <- match t with
        | TList _ v _ _ => reg_tree v
        | TMap _ k v => (_ <- reg_tree k ;; reg_tree v)
        | TStruct _ fs =>
            (fix go l := match l with [] => ret tt | x :: r => (_ <- reg_tree x ;; go r) end) fs
        | TUnion _ ts =>
            (fix go l := match l with [] => ret tt | x :: r => (_ <- reg_tree x ;; go r) end) ts
        | _ => ret tt
        end ;;
   reg_node t)%mon.

Fixpoint reg_list (l : list rtype) : M unit :=
  match l with [] => ret tt | x :: r => (_ <- reg_tree x ;; reg_list r)%mon end.
Lemma reg_list_eq l :
  (fix go l := match l with [] => ret tt | x :: r => (_ <- reg_tree x ;; go r)%mon end) l = reg_list l.
Proof. reflexivity. Qed.

(** ** Keyword binding *)
Lemma bind_common_inv taken d c : bind_common taken d = Ok c ->
  (forall k, In k ("self" :: "type_" :: taken) -> ~ In k (dkeys d)) /\ c = mkC (kwarg "logical" PNone d) (kwarg "alias" PNone d) (kwarg "doc" PNone d)
          (ddel "doc" (ddel "alias" (ddel "logical" d))).
Proof.
  unfold bind_common. destruct existsb eqn:E; [discriminate|]. intros [= <-]. split; auto.
  intros k Hk. rewrite <- dmem_false. destruct (dmem k d) eqn:Ed; auto.
  assert (existsb (fun k => dmem k d) ("self" :: "type_" :: taken) = true); [|congruence].
  apply existsb_exists. eauto.
Qed.

Definition dwf (d : list (string * pyval)) : Prop :=
  NoDup (dkeys d) /\ Forall (fun kv => pwf (snd kv)) d.

Lemma dwf_ddel k d : dwf d -> dwf (ddel k d).
Proof. intros [H1 H2]. split; [now apply ddel_NoDup|now apply Forall_ddel]. Qed.
Lemma dwf_dset k v d : pwf v -> dwf d -> dwf (dset k v d).
Proof. intros Hv [H1 H2]. split; [now apply dset_NoDup|apply Forall_dset; auto]. Qed.
Lemma dwf_kwarg k dv d : pwf dv -> dwf d -> pwf (kwarg k dv d).
Proof.
  intros Hv [_ H]. unfold kwarg. destruct dget eqn:E; auto.
  apply (Forall_dget _ _ _ _ H E).
Qed.
Lemma dwf_dget k v d : dwf d -> dget k d = Some v -> pwf v.
Proof. intros [_ H] E. apply (Forall_dget _ _ _ _ H E). Qed.
Lemma dwf_pwf d : dwf d <-> pwf (PDict d).
Proof. split; [intros []; now constructor|intros H; inversion H; now split]. Qed.

Lemma dwf_rename d : dwf d -> dwf (rename_bytes d).
Proof.
  intros H. unfold rename_bytes. destruct dget eqn:E; auto.
  apply dwf_dset; [eapply dwf_dget; eauto|now apply dwf_ddel].
Qed.

Lemma desugar_dwf d d' : dwf d -> desugar d = Ok d' ->
  dwf d' /\ ~ In "optional" (dkeys d').
Proof.
  intros W H. apply desugar_inv in H as [[_ ->]|(v & nm & df & e & EO & ET & -> & -> & H)].
  - split; [now apply dwf_ddel|]. rewrite ddel_keys. tauto.
  - simpl in H. destruct H as [-> H].
    assert (W2 : dwf (ddel "default" (ddel "name" (ddel "optional" d)))) by auto using dwf_ddel.
    assert (N2 : ~ In "optional" (dkeys (ddel "default" (ddel "name" (ddel "optional" d)))))
      by (rewrite !ddel_keys; tauto).
    set (d2 := ddel "default" (ddel "name" (ddel "optional" d))) in *.
    assert (We : dwf e /\ ~ In "optional" (dkeys e)).
    { destruct H as [[_ ->]|(_ & tys & Etys & [[_ ->]|(l & -> & _ & ->)])].
      - split; [split|].
        + simpl. repeat constructor; simpl; intuition discriminate.
        + repeat constructor. now destruct W2. now destruct W2.
        + simpl. intuition discriminate.
      - auto.
      - split.
        + apply dwf_dset; auto. constructor. constructor; [constructor|].
          pose proof (dwf_dget _ _ _ W Etys) as Wl. now inversion Wl.
        + rewrite dset_keys. intuition discriminate. }
    destruct We as [We Ne].
    assert (Wd : pwf (kwarg "default" PNone d)) by (apply dwf_kwarg; auto; constructor).
    assert (Wn : pwf (kwarg "name" PNone d)) by (apply dwf_kwarg; auto; constructor).
    destruct (is_none (kwarg "name" PNone d)).
    + split; [now apply dwf_dset|]. rewrite dset_keys. intuition discriminate.
    + split; [now apply dwf_dset; [|apply dwf_dset]|]. rewrite !dset_keys. intuition discriminate.
Qed.

(** The [reserved] part of [node_ok] only depends on the class. *)
Lemma node_ok_intro t taken d c :
  get_c t = c -> bind_common taken d = Ok c -> dwf d ->
  (forall k, In k (dkeys d) -> ~ In k ("type" :: "optional" :: reserved t)) ->
  Forall pwf (attrs_of t) -> validate t = Ok tt -> is_proxy t = false -> node_ok t.
Proof.
  intros Ec Eb W Hk Ha V Hp. apply bind_common_inv in Eb as [Hn Eb].
  unfold node_ok. rewrite Ec. rewrite Eb. simpl.
  assert (W' : dwf (ddel "doc" (ddel "alias" (ddel "logical" d)))) by auto using dwf_ddel.
  destruct W' as [ND FW].
  repeat (split; [first [assumption | apply dwf_kwarg; [constructor|assumption] | idtac]|]).
  - intros k Hk1. rewrite !ddel_keys in Hk1. destruct Hk1 as [[[Hk1 n1] n2] n3].
    specialize (Hk k Hk1). simpl in Hk, Hn.
    intros HIn. repeat destruct HIn as [<-|HIn]; try tauto.
    + apply (Hn "self"); auto.
    + apply (Hn "type_"); auto.
  - destruct t; auto. discriminate.
Qed.

(** ** Lemma A: results are well formed and the registry effect is [reg_tree] *)
Lemma to_type_dict_dwf j d : pwf j -> to_type_dict j = Ok d -> dwf d.
Proof.
  intros W H. destruct j; simpl in H; try discriminate; injection H as <-.
  - split; simpl; repeat constructor; auto.
  - split; simpl.
    + constructor; [simpl; intuition discriminate|]. constructor; [auto|constructor].
    + repeat constructor. now inversion W.
  - now apply dwf_pwf.
Qed.

Lemma py_iter_pwf v l x : pwf v -> py_iter v = Ok l -> In x l -> pwf x.
Proof.
  intros W H Hin. destruct v; simpl in H; try discriminate; injection H as <-.
  - apply in_map_iff in Hin as (? & <- & _). constructor.
  - inversion W as [ | | | | |? Hf|]; subst. rewrite Forall_forall in Hf. auto.
  - apply in_map_iff in Hin as (? & <- & _). constructor.
Qed.

Lemma kids_pwf d : dwf d -> kids_ok pwf d.
Proof.
  intros W. repeat split; intros; eauto using dwf_dget, py_iter_pwf.
  pose proof (dwf_dget _ _ _ W H) as Wl. inversion Wl as [ | | | | |? Hf|]; subst.
  rewrite Forall_forall in Hf. auto.
Qed.

Lemma kids_and P Q d : kids_ok P d -> kids_ok Q d -> kids_ok (fun x => P x /\ Q x) d.
Proof.
  intros (A1 & A2 & A3 & A4 & A5 & A6) (B1 & B2 & B3 & B4 & B5 & B6).
  repeat split; eauto.
Qed.

Definition okA (j : pyval) : Prop :=
  forall R R' t, from_dict j R = (R', Ok t) -> twf t /\ reg_tree t R = (R', Ok tt).

Lemma mmap_okA l : forall R R' ts,
  (forall x, In x l -> okA x) -> mmap from_dict l R = (R', Ok ts) ->
  Forall twf ts /\ reg_list ts R = (R', Ok tt).
Proof.
  induction l as [|x l IH]; intros R R' ts H E.
  - apply mmap_nil_Ok in E as [-> ->]. split; [constructor|reflexivity].
  - apply mmap_Ok_cons in E as (R1 & y & ys & E1 & E2 & ->).
    destruct (H x (or_introl eq_refl) _ _ _ E1) as [W1 G1].
    destruct (IH R1 R' ys (fun z Hz => H z (or_intror Hz)) E2) as [W2 G2].
    split; [constructor; auto|]. simpl. unfold mbind. now rewrite G1.
Qed.

Lemma reg_node_eq t R R' :
  (if negb (is_none (c_alias (get_c t))) && negb (is_proxy t)
   then register_alias t R = (R', Ok tt) else R' = R) <-> reg_node t R = (R', Ok tt).
Proof.
  unfold reg_node. destruct (_ && _); [tauto|]. unfold ret. split; [now intros ->|congruence].
Qed.

Lemma ddel_dkeys_notin k k' (d : list (string * pyval)) :
  In k (dkeys (ddel k' d)) -> k <> k' /\ In k (dkeys d).
Proof. rewrite ddel_keys. tauto. Qed.

Lemma rename_keys d k : In k (dkeys (rename_bytes d)) -> k <> "bytes" /\ (In k (dkeys d) \/ k = "bytes_").
Proof.
  unfold rename_bytes. destruct (dget "bytes" d) eqn:E.
  - rewrite dset_keys, ddel_keys. intros [[H n]| ->]; split; auto; discriminate.
  - intros H. split; auto. intros ->. now apply dget_None in E.
Qed.

Ltac keys_tac :=
  match goal with
  | H : In _ (dkeys _) |- _ =>
      repeat match goal with
        | H : In _ (dkeys (ddel _ _)) |- _ => apply ddel_dkeys_notin in H as [? H]
        | H : In _ (dkeys (rename_bytes _)) |- _ => apply rename_keys in H as [? [H|H]]
        end
  end.

Lemma okA_all : forall n j, psize j <= n -> pwf j -> okA j.
Proof.
  induction n as [|n IH]; intros j Hn Wj; [pose proof (psize_pos j); lia|].
  intros R R' t H. apply from_dict_inv in H as [d d' R1 E1 EN E2 B V G].
  assert (Wd : dwf d) by eauto using to_type_dict_dwf.
  destruct (desugar_dwf _ _ Wd E2) as [Wd' No].
  assert (K : kids_ok okA d').
  { eapply kids_ok_impl; [|apply kids_and; [apply (doc_kids _ _ _ E1 E2)|apply (kids_pwf _ Wd')]].
    simpl. intros x [Hs Hw]. apply IH; [lia|auto]. }
  apply reg_node_eq in G.
  destruct K as (HT & HL & HK & HV & HF & HU).
  assert (W1 : dwf (ddel "type" d')) by auto using dwf_ddel.
  assert (Hbase : forall k, In k (dkeys (ddel "type" d')) -> ~ In k ["type"; "optional"]).
  { intros k Hk. apply ddel_dkeys_notin in Hk as [n1 Hk]. simpl. intuition (subst; auto). }
  inversion B; subst; clear B;
    repeat match goal with
    | H : dget _ (ddel "type" d') = _ |- _ => rewrite dget_ddel in H; simpl in H
    end.
  - (* type list *)
    destruct (mmap_okA _ _ _ _ (fun x Hx => HT _ x H (proj1 (proj1 (filter_In _ _ _) Hx))) H0)
      as [Wts Gts].
    split.
    + split; [|now apply nodes_list].
      eapply node_ok_intro; eauto; [|constructor].
      intros k Hk. apply bind_common_inv in H1 as [Hn1 _].
      specialize (Hbase k Hk). specialize (Hn1 k). simpl in *. tauto.
    + simpl. rewrite reg_list_eq. unfold mbind. now rewrite Gts.
  - split; [split; auto; eapply node_ok_intro; eauto; constructor|].
    simpl. exact G.
  - split; [split; auto; eapply node_ok_intro; eauto; constructor|].
    simpl. exact G.
  - split; [split; auto; eapply node_ok_intro; eauto using dwf_ddel|simpl; exact G].
    + intros k Hk. do 2 apply ddel_dkeys_notin in Hk as [? Hk].
      specialize (Hbase k Hk). simpl in *. intuition congruence.
    + repeat constructor; [apply (dwf_dget _ _ _ Wd' H0)|apply dwf_kwarg; auto; constructor].
  - split; [split; auto; eapply node_ok_intro; eauto using dwf_ddel|simpl; exact G].
    + intros k Hk. apply ddel_dkeys_notin in Hk as [? Hk].
      specialize (Hbase k Hk). simpl in *. intuition congruence.
    + repeat constructor; [apply (dwf_dget _ _ _ Wd' H0)].
  - split; [split; auto; eapply node_ok_intro; eauto using dwf_ddel, dwf_rename|simpl; exact G].
    + intros k Hk. do 2 apply ddel_dkeys_notin in Hk as [? Hk].
      apply rename_keys in Hk as [? [Hk| ->]]; [|congruence].
      specialize (Hbase k Hk). simpl in *. intuition congruence.
    + repeat constructor; apply dwf_kwarg; auto using dwf_rename; constructor.
  - split; [split; auto; eapply node_ok_intro; eauto using dwf_ddel, dwf_rename|simpl; exact G].
    + intros k Hk. do 2 apply ddel_dkeys_notin in Hk as [? Hk].
      apply rename_keys in Hk as [? [Hk| ->]]; [|congruence].
      specialize (Hbase k Hk). simpl in *. intuition congruence.
    + repeat constructor; apply dwf_kwarg; auto using dwf_rename; constructor.
  - destruct (HL H _ H0 _ _ _ H1) as [Wt Gt].
    split; [split; auto; eapply node_ok_intro; eauto using dwf_ddel|].
    + intros k Hk. do 3 apply ddel_dkeys_notin in Hk as [? Hk].
      specialize (Hbase k Hk). simpl in *. intuition congruence.
    + repeat constructor; apply dwf_kwarg; auto using dwf_ddel; constructor.
    + simpl. unfold mbind. now rewrite Gt.
  - destruct (HK H _ H0 _ _ _ H2) as [Wt Gt]. destruct (HV H _ H1 _ _ _ H3) as [Wt' Gt'].
    split; [split; auto; eapply node_ok_intro; eauto using dwf_ddel|].
    + intros k' Hk. do 2 apply ddel_dkeys_notin in Hk as [? Hk].
      specialize (Hbase k' Hk). simpl in *. intuition congruence.
    + constructor.
    + simpl. unfold mbind. now rewrite Gt, Gt'.
  - assert (Hl : forall x, In x l -> okA x).
    { intros x Hx. unfold kwarg in H0. rewrite dget_ddel in H0. simpl in H0.
      destruct (dget "fields" d') eqn:Ef; [eapply HF; eauto|].
      simpl in H0. injection H0 as <-. destruct Hx. }
    destruct (mmap_okA _ _ _ _ Hl H1) as [Wts Gts].
    split; [split; [|now apply nodes_list]; eapply node_ok_intro; eauto using dwf_ddel|].
    + intros k' Hk. apply ddel_dkeys_notin in Hk as [? Hk].
      specialize (Hbase k' Hk). simpl in *. intuition congruence.
    + constructor.
    + simpl. rewrite reg_list_eq. unfold mbind. now rewrite Gts.
  - split; [split; auto; eapply node_ok_intro; eauto using dwf_ddel|simpl; exact G].
    + intros k' Hk. apply ddel_dkeys_notin in Hk as [? Hk].
      specialize (Hbase k' Hk). simpl in *. intuition congruence.
    + repeat constructor; apply (dwf_dget _ _ _ Wd' H0).
  - assert (Hl : forall x, In x l -> okA x) by (intros x Hx; eapply HU; eauto).
    destruct (mmap_okA _ _ _ _ Hl H2) as [Wts Gts].
    split; [split; [|now apply nodes_list]; eapply node_ok_intro; eauto using dwf_ddel|].
    + intros k' Hk. apply ddel_dkeys_notin in Hk as [? Hk].
      specialize (Hbase k' Hk). simpl in *. intuition congruence.
    + constructor.
    + simpl. rewrite reg_list_eq. unfold mbind. now rewrite Gts.
  - split; [|exact G]. split; auto.
    apply bind_common_inv in H1 as [Hn1 ->]. unfold node_ok. simpl.
    assert (W' : dwf (ddel "doc" (ddel "alias" (ddel "logical" (ddel "type" d'))))) by auto using dwf_ddel.
    destruct W' as [ND FW].
    repeat (split; [first [assumption | apply dwf_kwarg; [constructor|assumption] | idtac]|]);
      try constructor; eauto.
    intros k Hk. do 3 apply ddel_dkeys_notin in Hk as [? Hk].
    specialize (Hbase k Hk). pose proof (Hn1 k) as Hn2. simpl in *.
    intros HH. repeat destruct HH as [<-|HH]; tauto.
Qed.

Theorem from_dict_okA j R R' t :
  pwf j -> from_dict j R = (R', Ok t) -> twf t /\ reg_tree t R = (R', Ok tt).
Proof. intros W. apply (okA_all (psize j)); auto. Qed.

(** ** Lemma B: the verbose document parses back *)
Lemma ddel_mid {V} k (a e b : list (string * V)) :
  ~ In k (dkeys e) -> ddel k (a ++ e ++ b) = ddel k a ++ e ++ ddel k b.
Proof. intros H. now rewrite !ddel_app, (ddel_notin k e H). Qed.

Lemma dget_mid {V} k (a e b : list (string * V)) :
  ~ In k (dkeys e) -> dget k (a ++ e ++ b) = match dget k a with Some v => Some v | None => dget k b end.
Proof.
  intros H. rewrite !dget_app. apply dget_None in H. rewrite H. now destruct dget.
Qed.

Definition base4 (t : rtype) : list (string * pyval) :=
  [("type", PStr (type_name t)); ("alias", c_alias (get_c t));
   ("logical", c_logical (get_c t)); ("doc", c_doc (get_c t))].

Lemma base_dict_eq t : node_ok t -> base_dict t = base4 t ++ c_extra (get_c t).
Proof.
  intros (ND & HK & _). unfold base_dict. apply dupd_app; auto.
  intros k Hk HIn. apply (HK k Hk). simpl in *. tauto.
Qed.

(** The class-specific entries of the verbose document. *)
Definition spec_dict (t : rtype) (kids : list pyval) : list (string * pyval) :=
  match t, kids with
  | TInt _ bits sg, _ => [("bits", bits); ("signed", sg)]
  | TFloat _ bits, _ => [("bits", bits)]
  | TString _ by_ va, _ => [("bytes", by_); ("variable", va)]
  | TBytes _ by_ va, _ => [("bytes", by_); ("variable", va)]
  | TList _ _ le va, v :: _ => [("values", v); ("length", le); ("variable", va)]
  | TMap _ _ _, k :: v :: _ => [("keys", k); ("values", v)]
  | TStruct _ _, _ => [("fields", PList kids)]
  | TEnum _ s, _ => [("symbols", s)]
  | TUnion _ _, _ => [("types", PList kids)]
  | _, _ => []
  end.

Lemma node_dict_eq t kids : node_ok t -> is_proxy t = false ->
  node_dict t kids = base4 t ++ c_extra (get_c t) ++ spec_dict t kids.
Proof.
  intros N P. unfold node_dict. rewrite base_dict_eq by auto.
  destruct N as (ND & HK & _). unfold dkeys in *.
  assert (X : forall k, In k (reserved t) -> ~ In k (map fst (base4 t ++ c_extra (get_c t)))).
  { intros k Hk. rewrite map_app, in_app_iff. intros [H|H].
    - destruct t; simpl in *; intuition (subst; discriminate).
    - apply (HK k H). apply in_or_app. now right. }
  destruct t; try discriminate; simpl in X;
    try (destruct kids as [|v1 kids]); try (destruct kids as [|v2 kids]);
    try (rewrite app_assoc, ?app_nil_r; reflexivity);
    try (rewrite dset_new by (apply X; tauto); rewrite <- app_assoc; reflexivity);
    try (rewrite dupd_app; [rewrite <- app_assoc; reflexivity
           | repeat constructor; simpl; intuition discriminate
           | simpl; intros k Hk; apply X; tauto]).
Qed.

Lemma bind_raw taken a l dc e :
  NoDup (dkeys e) -> (forall k, In k (dkeys e) -> ~ In k (std_keys ++ taken)) ->
  (forall k, In k taken -> ~ In k ["alias"; "logical"; "doc"]) ->
  bind_common taken ([("alias", a); ("logical", l); ("doc", dc)] ++ e) = Ok (mkC l a dc e).
Proof.
  intros ND HK HT. unfold bind_common.
  assert (X : forall k, In k ("self" :: "type_" :: taken) ->
            dmem k ([("alias", a); ("logical", l); ("doc", dc)] ++ e) = false).
  { intros k Hk. apply dmem_false. rewrite dkeys_app, in_app_iff. intros [H|H].
    - destruct Hk as [<-|[<-|Hk]]; [simpl in H; intuition discriminate|simpl in H; intuition discriminate|].
      apply (HT k Hk). exact H.
    - apply (HK k H). apply in_or_app. simpl in Hk. simpl. tauto. }
  destruct existsb eqn:E.
  - apply existsb_exists in E as (k & Hk & Hm). rewrite X in Hm; auto. discriminate.
  - simpl. rewrite (ddel_notin "logical" e), (ddel_notin "alias" e), (ddel_notin "doc" e); auto;
      intros H; apply (HK _ H); simpl; tauto.
Qed.

Lemma bind_raw_proxy l dc e :
  NoDup (dkeys e) -> (forall k, In k (dkeys e) -> ~ In k (std_keys ++ ["registry"])) ->
  bind_common ["alias"; "registry"] ([("logical", l); ("doc", dc)] ++ e) = Ok (mkC l PNone dc e).
Proof.
  intros ND HK. unfold bind_common.
  assert (X : forall k, In k ["self"; "type_"; "alias"; "registry"] ->
            dmem k ([("logical", l); ("doc", dc)] ++ e) = false).
  { intros k Hk. apply dmem_false. rewrite dkeys_app, in_app_iff. intros [H|H].
    - simpl in *. intuition (subst; discriminate).
    - apply (HK k H). simpl in *. tauto. }
  destruct existsb eqn:E.
  - apply existsb_exists in E as (k & Hk & Hm). rewrite X in Hm; auto. discriminate.
  - simpl. assert (Ea : dget "alias" e = None).
    { apply dget_None. intros H. apply (HK _ H). simpl. tauto. }
    rewrite Ea. rewrite (ddel_notin "logical" e), (ddel_notin "alias" e), (ddel_notin "doc" e); auto;
      intros H; apply (HK _ H); simpl; tauto.
Qed.

Lemma mkC_eta c : mkC (c_logical c) (c_alias c) (c_doc c) (c_extra c) = c.
Proof. now destruct c. Qed.

Definition okB (t : rtype) : Prop :=
  twf t -> forall R R', reg_tree t R = (R', Ok tt) -> from_dict (raw_dict t) R = (R', Ok t).

Lemma okB_intro t D : node_ok t -> raw_dict t = PDict D ->
  dget "type" D <> None -> dget "type" D <> Some PNone -> dget "optional" D = None ->
  (forall R R', reg_tree t R = (R', Ok tt) ->
     exists R1, built from_dict D R R1 t /\ reg_node t R1 = (R', Ok tt)) ->
  forall R R', reg_tree t R = (R', Ok tt) -> from_dict (raw_dict t) R = (R', Ok t).
Proof.
  intros N -> T1 T2 O H R R' G. destruct (H _ _ G) as (R1 & B & G1).
  apply from_dict_inv. apply (Parsed (PDict D) R R' t D D R1); auto.
  - unfold kwarg. destruct (dget "type" D); congruence.
  - now apply desugar_noopt.
  - now destruct N as (_ & _ & _ & _ & _ & _ & _ & V & _).
  - now apply reg_node_eq.
Qed.

Lemma nodekey t k : node_ok t -> In k (std_keys ++ reserved t) -> ~ In k (dkeys (c_extra (get_c t))).
Proof. intros (_ & HK & _) H1 H2. exact (HK k H2 H1). Qed.

Lemma mmap_okB ts : Forall okB ts -> Forall twf ts -> forall R R',
  reg_list ts R = (R', Ok tt) -> mmap from_dict (map raw_dict ts) R = (R', Ok ts).
Proof.
  induction 1 as [|t ts Ht Hts IH]; intros W R R' G.
  - simpl in *. apply ret_Ok in G as [-> _]. reflexivity.
  - inversion W; subst. simpl in G. apply mbind_Ok in G as (R1 & [] & G1 & G2).
    simpl map. apply mmap_Ok_cons. exists R1, t, ts. auto.
Qed.

Lemma raw_dict_doc t : exists D, raw_dict t = PDict D.
Proof. destruct t; eexists; reflexivity. Qed.

Ltac kside N := apply (nodekey _ _ N); simpl; tauto.

Ltac okB_start N :=
  eapply okB_intro; [exact N
    | cbn [raw_dict]; rewrite node_dict_eq by (auto || exact N); reflexivity
    | rewrite dget_mid by kside N; discriminate
    | rewrite dget_mid by kside N; discriminate
    | rewrite dget_mid by kside N; reflexivity
    | ].

(** [l] normalises to the three standard entries followed by the extras. *)
Ltac dnorm N :=
  repeat (rewrite ddel_mid by kside N; cbn [ddel filter fst negb String.eqb Ascii.eqb Bool.eqb base4 spec_dict]);
  rewrite ?app_nil_r.

Ltac bindtac N HK ND :=
  match goal with
  | |- bind_common [] ?x = Ok ?c =>
      replace x with ([("alias", c_alias c); ("logical", c_logical c); ("doc", c_doc c)] ++ c_extra c)
        by (repeat (rewrite ddel_mid by kside N); cbn; rewrite ?app_nil_r; reflexivity)
  end;
  rewrite (bind_raw []);
  [now rewrite mkC_eta | exact ND
   | intros ? Hk; intros HH; apply (HK _ Hk); apply in_or_app; left; rewrite app_nil_r in HH; exact HH
   | simpl; tauto].

Ltac tntac N := unfold tn; rewrite dget_mid by kside N; reflexivity.

Lemma b_int' rec d R c b s : tn d "int" -> dget "bits" (ddel "type" d) = Some b ->
  bind_common [] (ddel "signed" (ddel "bits" (ddel "type" d))) = Ok c ->
  kwarg "signed" (PBool true) (ddel "type" d) = s -> built rec d R R (TInt c b s).
Proof. intros; subst; now apply b_int. Qed.
Lemma b_string' rec d R c b v : tn d "string" ->
  bind_common [] (ddel "variable" (ddel "bytes_" (rename_bytes (ddel "type" d)))) = Ok c ->
  kwarg "bytes_" PNone (rename_bytes (ddel "type" d)) = b ->
  kwarg "variable" (PBool true) (rename_bytes (ddel "type" d)) = v ->
  built rec d R R (TString c b v).
Proof. intros; subst; now apply b_string. Qed.
Lemma b_bytes' rec d R c b v : tn d "bytes" ->
  bind_common [] (ddel "variable" (ddel "bytes_" (rename_bytes (ddel "type" d)))) = Ok c ->
  kwarg "bytes_" PNone (rename_bytes (ddel "type" d)) = b ->
  kwarg "variable" (PBool true) (rename_bytes (ddel "type" d)) = v ->
  built rec d R R (TBytes c b v).
Proof. intros; subst; now apply b_bytes. Qed.
Lemma b_list' rec d R R' c v t l r : tn d "list" -> dget "values" (ddel "type" d) = Some v ->
  rec v R = (R', Ok t) ->
  bind_common [] (ddel "variable" (ddel "length" (ddel "values" (ddel "type" d)))) = Ok c ->
  kwarg "length" PNone (ddel "values" (ddel "type" d)) = l ->
  kwarg "variable" (PBool true) (ddel "values" (ddel "type" d)) = r ->
  built rec d R R' (TList c t l r).
Proof. intros; subst; eapply b_list; eauto. Qed.

Lemma rename_raw t (N : node_ok t) a l dc by_ va :
  In "bytes" (reserved t) -> In "bytes_" (reserved t) ->
  rename_bytes ([("alias", a); ("logical", l); ("doc", dc)] ++ c_extra (get_c t)
                ++ [("bytes", by_); ("variable", va)])
  = [("alias", a); ("logical", l); ("doc", dc)] ++ c_extra (get_c t)
    ++ [("variable", va); ("bytes_", by_)].
Proof.
  intros H1 H2. unfold rename_bytes.
  assert (K1 : ~ In "bytes" (dkeys (c_extra (get_c t)))) by (apply nodekey; auto; apply in_or_app; auto).
  assert (K2 : ~ In "bytes_" (dkeys (c_extra (get_c t)))) by (apply nodekey; auto; apply in_or_app; auto).
  rewrite dget_mid by auto. cbn [dget String.eqb Ascii.eqb Bool.eqb].
  rewrite ddel_mid by auto. cbn [ddel filter fst negb String.eqb Ascii.eqb Bool.eqb].
  rewrite dset_app_r; [|simpl; intuition discriminate].
  rewrite dset_app_r by auto. reflexivity.
Qed.

Ltac kwtac N := unfold kwarg; rewrite ?dget_ddel, dget_mid by kside N; reflexivity.

Lemma okB_all t : okB t.
Proof.
  induction t using rtype_ind'; intros W;
  match goal with |- context [raw_dict ?t] => pose proof (nodes_here _ _ W) as N end;
  pose proof N as (ND & HK & _); cbn [get_c] in *.
  - okB_start N. intros R R' G. exists R. split; [|exact G].
    apply b_null; [tntac N|]. bindtac N HK ND.
  - okB_start N. intros R R' G. exists R. split; [|exact G].
    apply b_bool; [tntac N|]. bindtac N HK ND.
  - okB_start N. intros R R' G. exists R. split; [|exact G].
    apply b_int'; [tntac N| |bindtac N HK ND|kwtac N].
    rewrite dget_ddel, dget_mid by kside N; reflexivity.
  - okB_start N. intros R R' G. exists R. split; [|exact G].
    apply b_float; [tntac N| |bindtac N HK ND].
    rewrite dget_ddel, dget_mid by kside N; reflexivity.
  - okB_start N. intros R R' G. exists R. split; [|exact G].
    match goal with |- built _ ?D _ _ _ =>
      assert (E : rename_bytes (ddel "type" D) =
        [("alias", c_alias c); ("logical", c_logical c); ("doc", c_doc c)] ++ c_extra c
        ++ [("variable", v); ("bytes_", b)]) end.
    { rewrite ddel_mid by kside N. exact (rename_raw _ N _ _ _ b v (or_introl eq_refl) (or_intror (or_introl eq_refl))). }
    apply b_string'; [tntac N| | |]; rewrite E.
    + bindtac N HK ND.
    + kwtac N.
    + kwtac N.
  - okB_start N. intros R R' G. exists R. split; [|exact G].
    match goal with |- built _ ?D _ _ _ =>
      assert (E : rename_bytes (ddel "type" D) =
        [("alias", c_alias c); ("logical", c_logical c); ("doc", c_doc c)] ++ c_extra c
        ++ [("variable", v); ("bytes_", b)]) end.
    { rewrite ddel_mid by kside N. exact (rename_raw _ N _ _ _ b v (or_introl eq_refl) (or_intror (or_introl eq_refl))). }
    apply b_bytes'; [tntac N| | |]; rewrite E.
    + bindtac N HK ND.
    + kwtac N.
    + kwtac N.
  - okB_start N. intros R R' G. simpl in G. apply mbind_Ok in G as (R1 & [] & G1 & G2).
    exists R1. split; [|exact G2].
    eapply b_list'; [tntac N|rewrite dget_ddel, dget_mid by kside N; reflexivity| |bindtac N HK ND|kwtac N|kwtac N].
    apply IHt; [now destruct W|exact G1].
  - okB_start N. intros R R' G. simpl in G. apply mbind_Ok in G as (R2 & [] & G1 & G2).
    apply mbind_Ok in G1 as (R1 & [] & G1 & G1').
    exists R2. split; [|exact G2].
    eapply b_map; [tntac N|rewrite dget_ddel, dget_mid by kside N; reflexivity
                          |rewrite dget_ddel, dget_mid by kside N; reflexivity| | |bindtac N HK ND].
    + apply IHt1; [now destruct W|exact G1].
    + apply IHt2; [now destruct W|exact G1'].
  - okB_start N. intros R R' G. simpl in G. apply mbind_Ok in G as (R1 & [] & G1 & G2).
    exists R1. split; [|exact G2].
    eapply b_struct; [tntac N| | |bindtac N HK ND].
    + unfold kwarg. rewrite dget_ddel, dget_mid by kside N. reflexivity.
    + apply mmap_okB; auto. apply nodes_list. now destruct W.
  - okB_start N. intros R R' G. exists R. split; [|exact G].
    apply b_enum; [tntac N|rewrite dget_ddel, dget_mid by kside N; reflexivity|bindtac N HK ND].
  - okB_start N. intros R R' G. simpl in G. apply mbind_Ok in G as (R1 & [] & G1 & G2).
    exists R1. split; [|exact G2].
    eapply b_union; [tntac N|rewrite dget_ddel, dget_mid by kside N; reflexivity|reflexivity| |bindtac N HK ND].
    apply mmap_okB; auto. apply nodes_list. now destruct W.
  - destruct N as (N1 & N2 & N3 & N4 & N5 & N6 & N7 & N8 & -> & a & Ea & Hw) eqn:EN.
    pose proof N as N0.
    assert (ED : node_dict (TProxy c None) [] =
       [("type", PStr a); ("logical", c_logical c); ("doc", c_doc c)] ++ c_extra c ++ []).
    { unfold node_dict. rewrite base_dict_eq by auto. unfold base4. cbn [get_c type_name].
      unfold kwarg. rewrite app_nil_r.
      rewrite ddel_app, (ddel_notin "alias" (c_extra c)) by kside N0.
      rewrite Ea. reflexivity. }
    eapply okB_intro; [exact N0 | cbn [raw_dict]; rewrite ED; reflexivity
      | rewrite dget_mid by kside N0; discriminate
      | rewrite dget_mid by kside N0; discriminate
      | rewrite dget_mid by kside N0; reflexivity | ].
    intros R R' G. exists R. split; [|exact G].
    replace c with (mkC (c_logical c) (PStr a) (c_doc c) (c_extra c)) at 4
      by (rewrite <- Ea; apply mkC_eta).
    refine (b_proxy _ _ R (mkC (c_logical c) PNone (c_doc c) (c_extra c)) a _ Hw _).
    + tntac N0.
    + rewrite ddel_mid by kside N0. cbn [ddel filter fst negb String.eqb Ascii.eqb Bool.eqb].
      rewrite app_nil_r. apply bind_raw_proxy; auto.
Qed.

Theorem raw_roundtrip_okB t R R' :
  twf t -> reg_tree t R = (R', Ok tt) -> from_dict (raw_dict t) R = (R', Ok t).
Proof. intros W G. now apply okB_all. Qed.

Lemma to_dict_raw t : to_dict false false t = Ok (raw_dict t).
Proof.
  induction t using rtype_ind'; cbn [to_dict raw_dict]; auto.
  - rewrite IHt. reflexivity.
  - rewrite IHt1, IHt2. reflexivity.
  - replace ((fix go (l : list rtype) : res (list pyval) :=
       match l with
       | [] => Ok []
       | x :: xs => (y <- to_dict false false x;; ys <- go xs;; Ok (y :: ys))%res
       end) fs) with (Ok (map raw_dict fs)); [reflexivity|].
    induction H as [|x l Hx Hl IH]; auto. simpl map. rewrite Hx, <- IH. reflexivity.
  - replace ((fix go (l : list rtype) : res (list pyval) :=
       match l with
       | [] => Ok []
       | x :: xs => (y <- to_dict false false x;; ys <- go xs;; Ok (y :: ys))%res
       end) ts) with (Ok (map raw_dict ts)); [reflexivity|].
    induction H as [|x l Hx Hl IH]; auto. simpl map. rewrite Hx, <- IH. reflexivity.
Qed.

Theorem verbose_roundtrip j R R' t :
  pwf j -> from_dict j R = (R', Ok t) ->
  exists d, to_dict false false t = Ok d /\ from_dict d R = (R', Ok t).
Proof.
  intros W H. destruct (from_dict_okA _ _ _ _ W H) as [Wt G].
  exists (raw_dict t). split; [apply to_dict_raw|]. now apply raw_roundtrip_okB.
Qed.
