(** Reading a file with a converter that has read other files before. *)
From Coq Require Import String Ascii List NArith ZArith QArith Bool Lia.
From Verif Require Import PyVal PyValFacts RType Registry RegistryFacts Regex FromDict RoundTrip Url Avro SpecAvro AvroProps JsonSchema SpecTypes SpecJson JsonProps DbapiFacts Proto SpecProto ProtoRead.
Import ListNotations.
Open Scope nat_scope.
Open Scope string_scope.
Open Scope list_scope.

(** [ext t t']: the same type, but the copies of registries in [t'] may hold more. *)
Inductive ext : rtype -> rtype -> Prop :=
| ext_leaf t : children t = [] -> is_proxy t = false -> ext t t
| ext_list c v v' l va : ext v v' -> ext (TList c v l va) (TList c v' l va)
| ext_map c k k' v v' : ext k k' -> ext v v' -> ext (TMap c k v) (TMap c k' v')
| ext_struct c fs fs' : exts fs fs' -> ext (TStruct c fs) (TStruct c fs')
| ext_union c ts ts' : exts ts ts' -> ext (TUnion c ts) (TUnion c ts')
| ext_live c : ext (TProxy c None) (TProxy c None)
| ext_ref c R R' : NoDup (dkeys R) -> (forall a t, dget a R = Some t -> dget a R' <> None) ->
    (forall a t t', dget a R = Some t -> dget a R' = Some t' -> ext t t') ->
    ext (TProxy c (Some R)) (TProxy c (Some R'))
with exts : list rtype -> list rtype -> Prop :=
| exts_nil : exts [] []
| exts_cons t t' l l' : ext t t' -> exts l l' -> exts (t :: l) (t' :: l').
Scheme ext_mut := Induction for ext Sort Prop with exts_mut := Induction for exts Sort Prop.
Combined Scheme ext_both from ext_mut, exts_mut.

Definition extR (R R' : registry) : Prop :=
  NoDup (dkeys R) /\
  (forall a t, dget a R = Some t -> dget a R' <> None) /\
  (forall a t t', dget a R = Some t -> dget a R' = Some t' -> ext t t').
Lemma extR_get R R' a t : extR R R' -> dget a R = Some t -> exists t', dget a R' = Some t' /\ ext t t'.
Proof. intros (_ & N & E) H. specialize (N _ _ H). destruct (dget a R') as [t'|] eqn:G; [|congruence]. eauto. Qed.

Lemma ext_common t t' : ext t t' -> get_c t = get_c t'.
Proof. now destruct 1. Qed.
Lemma ext_set_c t t' c : ext t t' -> ext (set_c t c) (set_c t' c).
Proof. destruct 1; cbn; try (constructor; auto; fail). destruct t; cbn in *; try discriminate; constructor; cbn; auto. Qed.
Lemma ext_by_name t t' : ext t t' -> by_name t = by_name t'.
Proof.
  revert t t'. apply (ext_mut (fun t t' _ => by_name t = by_name t') (fun l l' _ => map by_name l = map by_name l'));
    intros; cbn; f_equal; auto; try congruence.
Qed.
Lemma ext_freeze R R' : extR R R' -> forall t t', ext t t' -> ext (freeze R t) (freeze R' t').
Proof.
  intros (ND & N & E). apply (ext_mut (fun t t' _ => ext (freeze R t) (freeze R' t')) (fun l l' _ => exts (map (freeze R) l) (map (freeze R') l')));
    intros; cbn [freeze map]; try (constructor; auto; fail).
  destruct t as [| | | | | | | |c l| |c l|]; try discriminate; try (now constructor);
    (destruct l; [|discriminate]); constructor; constructor.
Qed.
Lemma ext_stored R R' t t' : extR R R' -> ext t t' -> ext (stored R t) (stored R' t').
Proof.
  intros X E. unfold stored. pose proof (ext_freeze _ _ X _ _ E) as F. rewrite (ext_common _ _ F). now apply ext_set_c.
Qed.
Lemma ext_attr t t' k v u : ext t t' -> set_attr t k v = Ok u -> exists u', set_attr t' k v = Ok u' /\ ext u u'.
Proof.
  intros E H. assert (OP : opaque_attr t k = opaque_attr t' k) by (destruct E; reflexivity).
  unfold set_attr in *. rewrite <- OP. destruct (opaque_attr t k); [discriminate|]. rewrite <- (ext_common _ _ E).
  destruct (String.eqb k "logical"); [injection H as <-; eexists; split; [reflexivity|now apply ext_set_c]|].
  destruct (String.eqb k "alias"); [injection H as <-; eexists; split; [reflexivity|now apply ext_set_c]|].
  destruct (String.eqb k "doc"); [injection H as <-; eexists; split; [reflexivity|now apply ext_set_c]|].
  destruct (String.eqb k "extra_attrs").
  { destruct v; try discriminate. injection H as <-; eexists; split; [reflexivity|now apply ext_set_c]. }
  destruct E as [t C P|c x x' l va E|c x x' y y' E E'|c fs fs' E|c ts ts' E|c|c R R' ND N E].
  - exists u. split; auto. destruct t; try discriminate C; try discriminate P; cbn in H;
      repeat (match type of H with (if ?b then _ else _) = _ => destruct b end); injection H as <-; now constructor.
  - repeat (match type of H with (if ?b then _ else _) = _ => destruct b end); injection H as <-; eexists; (split; [reflexivity|now constructor]).
  - injection H as <-; eexists; (split; [reflexivity|now constructor]).
  - injection H as <-; eexists; (split; [reflexivity|now constructor]).
  - injection H as <-; eexists; (split; [reflexivity|now constructor]).
  - injection H as <-; eexists; (split; [reflexivity|now constructor]).
  - injection H as <-; eexists; (split; [reflexivity|now constructor]).
Qed.
Lemma ext_attrs kvs : forall t t' u, ext t t' -> set_attrs t kvs = Ok u -> exists u', set_attrs t' kvs = Ok u' /\ ext u u'.
Proof.
  induction kvs as [|[k v] r IH]; intros t t' u E H; cbn [set_attrs] in *; [injection H as <-; eauto|].
  apply rbind_Ok in H as (w & A & H). destruct (ext_attr _ _ _ _ _ E A) as (w' & -> & E'). cbn [rbind]. eauto.
Qed.
Lemma ext_resolve R R' t t' u : extR R R' -> ext t t' -> resolve R t = Ok u -> exists u', resolve R' t' = Ok u' /\ ext u u'.
Proof.
  intros X E H. destruct E as [t C P|c x x' l va E|c x x' y y' E E'|c fs fs' E|c ts ts' E|c|c Q Q' ND N E]; try discriminate.
  - destruct t; discriminate.
  - cbn [resolve proxy_reg] in *. destruct (c_alias c); try discriminate. apply rbind_Ok in H as (t0 & A & H).
    unfold from_alias in *. destruct (dget s R) as [w|] eqn:G; [|discriminate]. injection A as <-.
    destruct (extR_get _ _ _ _ X G) as (w' & -> & E). cbn [rbind]. eapply ext_attrs; eauto. now apply ext_freeze.
  - cbn [resolve proxy_reg] in *. destruct (c_alias c); try discriminate. apply rbind_Ok in H as (t0 & A & H).
    unfold from_alias in *. destruct (dget s Q) as [w|] eqn:G; [|discriminate]. injection A as <-.
    destruct (extR_get Q Q' _ _ (conj ND (conj N E)) G) as (w' & -> & E'). cbn [rbind]. eapply ext_attrs; eauto. apply ext_freeze; [split; [|split]|]; auto.
Qed.

(** ** Resolving *)
Definition px_step (kids prox : marks -> rtype -> res (rtype * marks)) (R : registry) (s : marks) (t : rtype) : res (rtype * marks) :=
  match t with
  | TProxy c _ =>
      match c_alias c with
      | PStr a =>
          if str_in a (fst s) || str_in a (snd s) then Ok (t, s)
          else
            (t0 <- resolve R t ;;
             let k := get_c t0 in
             prox (a :: fst s, snd s) (set_c t0 (mkC (c_logical k) (PStr a) (c_doc k) (dupd (c_extra k) (c_extra c)))))%res
      | _ => Err Unmodelled
      end
  | _ => (s' <- see t s ;; kids s' t)%res
  end.
Lemma px_enter_eq kids prox R s t : px_enter kids prox R s t = (r <- px_step kids prox R s t ;; Ok (fst r, after s (snd r)))%res.
Proof. reflexivity. Qed.
Section Sim.
  Variables (prox prox' : marks -> rtype -> res (rtype * marks)) (R R' : registry).
  Hypothesis X : extR R R'.
  Definition sim (f f' : marks -> rtype -> res (rtype * marks)) : Prop :=
    forall s t t' r, ext t t' -> f s t = Ok r -> exists u', f' s t' = Ok (u', snd r) /\ ext (fst r) u'.
  Lemma sim_enter kids kids' s t t' r : sim prox prox' ->
    (forall s r, kids s t = Ok r -> exists u', kids' s t' = Ok (u', snd r) /\ ext (fst r) u') ->
    ext t t' -> px_enter kids prox R s t = Ok r -> exists u', px_enter kids' prox' R' s t' = Ok (u', snd r) /\ ext (fst r) u'.
  Proof.
    intros SP SK E H. rewrite px_enter_eq in *. apply rbind_Ok in H as (q & H & Hr). injection Hr as <-. cbn [fst snd].
    assert (G : exists u', px_step kids' prox' R' s t' = Ok (u', snd q) /\ ext (fst q) u').
    { destruct (is_proxy t) eqn:P.
      - assert (Q : exists c o o', t = TProxy c o /\ t' = TProxy c o').
        { destruct E; cbn in P; try discriminate; eauto. congruence. }
        destruct Q as (c & o & o' & -> & ->). unfold px_step in *. destruct (c_alias c) as [| | | |a| |] eqn:A; try discriminate.
        destruct (str_in a (fst s) || str_in a (snd s)); [injection H as <-; eexists; split; [reflexivity|exact E]|].
        apply rbind_Ok in H as (u & RS & H). destruct (ext_resolve _ _ _ _ _ X E RS) as (u' & RS' & E'). rewrite RS'. cbn [rbind].
        cbv zeta in *. rewrite <- (ext_common _ _ E'). eapply SP; eauto. now apply ext_set_c.
      - assert (SE : see t s = see t' s) by (unfold see; now rewrite (ext_common _ _ E)).
        assert (K : (s' <- see t s ;; kids s' t)%res = Ok q) by (unfold px_step in H; destruct t; try exact H; discriminate).
        apply rbind_Ok in K as (s' & S & K). destruct (SK _ _ K) as (u' & K' & E'). exists u'. split; auto.
        assert (P' : is_proxy t' = false) by (destruct E; try discriminate; auto).
        unfold px_step. destruct t'; try discriminate; now rewrite <- SE, S. }
    destruct G as (u' & G & E'). exists u'. rewrite G. cbn [rbind fst snd]. auto.
  Qed.
  Lemma sim_all enter enter' l l' : 
    exts l l' -> (forall x x', In x l -> ext x x' -> forall s r, enter s x = Ok r -> exists u', enter' s x' = Ok (u', snd r) /\ ext (fst r) u') ->
    forall s r, px_all enter l s = Ok r -> exists us, px_all enter' l' s = Ok (us, snd r) /\ exts (fst r) us.
  Proof.
    induction 1 as [|t t' l l' E E2 IH]; intros H s r K; [injection K as <-; eexists; split; [reflexivity|constructor]|].
    rewrite px_all_cons in *. apply rbind_Ok in K as (q & K1 & K). apply rbind_Ok in K as (q2 & K2 & K). injection K as <-.
    destruct (H t t' (or_introl eq_refl) E _ _ K1) as (u' & -> & U). cbn [rbind fst snd].
    destruct (IH (fun x x' I => H x x' (or_intror I)) _ _ K2) as (us & -> & Us). cbn [rbind fst snd].
    eexists. split; [reflexivity|]. now constructor.
  Qed.
  Lemma sim_kids : sim prox prox' -> sim (px_kids prox R) (px_kids prox' R').
  Proof.
    intros SP s t. revert s. induction t as [t IH] using parts_ind. intros s t' r E H. rewrite px_kids_eq in *. cbv zeta in *.
    assert (EN : forall x x', In x (children t) -> ext x x' -> forall s r, px_enter (px_kids prox R) prox R s x = Ok r ->
      exists u', px_enter (px_kids prox' R') prox' R' s x' = Ok (u', snd r) /\ ext (fst r) u').
    { intros x x' I EX s0 r0 H0. eapply sim_enter; eauto. }
    destruct E as [t C P|c x x' l va E|c x x' y y' E E'|c fs fs' E|c ts ts' E|c|c Q Q' ND N E]; cbn [children] in *.
    - assert (K : forall en, px_all en [] s = Ok ([], s)) by reflexivity.
      assert (Z : exists w, r = (w, s) /\ ext w w /\ w = t).
      { destruct t as [| | | | | |c v l va|c k v|c l| |c l|]; try discriminate C; try discriminate P; cbn [children] in C; subst;
          try rewrite K in H; cbn [rbind fst snd] in H; inversion H; eexists; (split; [reflexivity|split; [now constructor|reflexivity]]). }
      destruct Z as (w & -> & Ew & ->). exists t. split; auto. destruct t as [| | | | | |c v l va|c k v|c l| |c l|]; try discriminate C; try discriminate P;
        cbn [children] in C; subst; reflexivity.
    - apply rbind_Ok in H as (q & K & H). injection H as <-. destruct (EN x x' (or_introl eq_refl) E _ _ K) as (u' & -> & U). cbn [rbind fst snd].
      eexists; (split; [reflexivity|now constructor]).
    - apply rbind_Ok in H as (q & K & H). apply rbind_Ok in H as (q2 & K2 & H). injection H as <-.
      destruct (EN x x' (or_introl eq_refl) E _ _ K) as (u' & -> & U). cbn [rbind fst snd].
      destruct (EN y y' (or_intror (or_introl eq_refl)) E' _ _ K2) as (u2 & -> & U2). cbn [rbind fst snd].
      eexists; (split; [reflexivity|now constructor]).
    - apply rbind_Ok in H as (q & K & H). injection H as <-. destruct (sim_all _ _ _ _ E EN _ _ K) as (u' & -> & U). cbn [rbind fst snd].
      eexists; (split; [reflexivity|now constructor]).
    - apply rbind_Ok in H as (q & K & H). injection H as <-. destruct (sim_all _ _ _ _ E EN _ _ K) as (u' & -> & U). cbn [rbind fst snd].
      eexists; (split; [reflexivity|now constructor]).
    - injection H as <-. eexists; (split; [reflexivity|now constructor]).
    - injection H as <-. eexists; (split; [reflexivity|now constructor]).
  Qed.
End Sim.
Lemma sim_px R R' : extR R R' -> forall n m, n <= m -> sim (px_f n R) (px_f m R').
Proof.
  intros X. induction n as [|n IH]; intros m L; destruct m as [|m]; try lia; intros s t t' r E H; cbn [px_f] in *.
  - revert H. apply sim_kids; auto. intros ? ? ? ? ? Q. discriminate.
  - revert H. apply sim_kids; auto. intros ? ? ? ? ? Q. discriminate.
  - revert H. apply sim_kids; auto. apply IH. lia.
Qed.

(** ** Depths *)
Lemma ext_depth t t' : ext t t' -> rdepth t <= rdepth t'.
Proof.
  revert t t'. apply (ext_mut (fun t t' _ => rdepth t <= rdepth t')
    (fun l l' _ => fold_right (fun x m => Nat.max (rdepth x) m) 0 l <= fold_right (fun x m => Nat.max (rdepth x) m) 0 l'));
    intros; cbn [rdepth fold_right]; try lia.
  change (rdepth (TProxy c (Some R)) <= rdepth (TProxy c (Some R'))). rewrite !rdepth_ref. apply le_n_S.
  assert (K : forall x, In x R -> rdepth (snd x) <= reg_depth R').
  { intros [a x] I. cbn. apply In_dget in I; auto. specialize (n0 _ _ I). destruct (dget a R') as [x'|] eqn:G; [|congruence].
    specialize (H _ _ _ I G). apply dget_In, reg_depth_In in G. lia. }
  clear - K. revert K. generalize (reg_depth R'). intros m K. induction R as [|x R IH]; cbn; [lia|]. 
  pose proof (K x (or_introl eq_refl)). assert (reg_depth R <= m) by (apply IH; intros; apply K; now right). unfold reg_depth in *. lia.
Qed.
Lemma extR_depth R R' : extR R R' -> reg_depth R <= reg_depth R'.
Proof.
  intros (ND & N & E). assert (X : ext (TProxy c0 (Some R)) (TProxy c0 (Some R'))) by (now constructor).
  apply ext_depth in X. rewrite !rdepth_ref in X. lia.
Qed.
Lemma sim_resolve R R' t t' u : extR R R' -> ext t t' -> pr_resolve R t = Ok u -> exists u', pr_resolve R' t' = Ok u' /\ ext u u'.
Proof.
  intros X E H. unfold pr_resolve in *. cbv zeta in *. apply rbind_Ok in H as (r & H & Q). injection Q as <-.
  set (n := S (Nat.max (rdepth t) (reg_depth R))) in *. set (m := S (Nat.max (rdepth t') (reg_depth R'))).
  assert (L : n <= m) by (pose proof (ext_depth _ _ E); pose proof (extR_depth _ _ X); unfold n, m; lia).
  assert (S : sim (px_f n R) (px_f m R')) by (now apply sim_px).
  destruct (sim_enter _ _ _ _ X _ (px_f m R') _ _ _ _ S (fun s r => S s t t' r E) E H) as (u' & -> & U). cbn [rbind fst]. eauto.
Qed.

(** ** Parsing *)
Definition tight (N : list string) (R R' : registry) : Prop :=
  extR R R' /\ forall a, In a N -> dget a R = None -> dget a R' = None.
Definition simM N {A} (m : M A) : Prop :=
  forall R R' R1 x, tight N R R' -> m R = (R1, Ok x) -> exists R1', m R' = (R1', Ok x) /\ tight N R1 R1'.
Lemma simM_ret N {A} (a : A) : simM N (ret a).
Proof. intros R R' R1 x T [= <- <-]. exists R'. split; auto. Qed.
Lemma simM_fail N {A} e : simM N (@fail A e).
Proof. intros R R' R1 x T H. discriminate. Qed.
Lemma simM_lift N {A} (r : res A) : simM N (lift r).
Proof. intros R R' R1 x T [= <- ->]. exists R'. split; auto. Qed.
Lemma simM_bind N {A B} (m : M A) (f : A -> M B) : simM N m -> (forall a, simM N (f a)) -> simM N (mbind m f).
Proof.
  intros Hm Hf R R' R1 x T H. unfold mbind in *. destruct (m R) as [R2 [a|e]] eqn:E; [|discriminate].
  destruct (Hm _ _ _ _ T E) as (R2' & -> & T2). eapply Hf; eauto.
Qed.
Lemma ext_refl_fresh t : fresh_refs t -> ext t t.
Proof.
  unfold fresh_refs. induction t as [t IH] using parts_ind. intros F.
  destruct t as [c|c|c b s|c b|c b v|c b v|c v l va|c k v|c fs|c s|c ts|c r]; cbn [looks_in children] in *; try (now constructor).
  - apply ext_list, IH; cbn; auto.
  - destruct F. apply ext_map; apply IH; cbn; auto.
  - apply ext_struct. rewrite fold_and in F. induction F; constructor; [apply IH; cbn; auto|]. apply IHF. intros; apply IH; cbn; auto.
  - apply ext_union. rewrite fold_and in F. induction F; constructor; [apply IH; cbn; auto|]. apply IHF. intros; apply IH; cbn; auto.
  - destruct r; [destruct F|apply ext_live].
Qed.
Lemma simM_register N t a : fresh_refs t -> c_alias (get_c t) = PStr a -> In a N -> simM N (register_alias t).
Proof.
  intros F A I R R' R1 x [X T] H. unfold register_alias in *. rewrite A in *. unfold dmem in *.
  destruct (dget a R) eqn:G; [discriminate|]. rewrite (T _ I G). destruct (re_match alias_regex a); [|discriminate]. injection H as <- <-.
  eexists. split; [reflexivity|]. pose proof (T _ I G) as G'. pose proof X as (ND & N1 & N2). split; [split; [|split]|].
  - rewrite dkeys_app. apply NoDup_app'; auto; [repeat constructor; auto|]. cbn. apply dget_None in G. intros y [<-|[]]. exact G.
  - intros b u. rewrite !dget_app. destruct (dget b R) eqn:GB; intros HB.
    + injection HB as ->. specialize (N1 _ _ GB). destruct (dget b R'); congruence.
    + cbn in HB. cbn. destruct (dget b R'); [discriminate|]. destruct (String.eqb b a); discriminate.
  - intros b u u'. rewrite !dget_app. destruct (dget b R) eqn:GB; intros HB HB'.
    + injection HB as ->. pose proof (N1 _ _ GB). destruct (dget b R') eqn:GB'; [|congruence]. injection HB' as ->. eauto.
    + cbn in HB, HB'. destruct (String.eqb_spec b a) as [->|]; [|discriminate]. rewrite G' in HB'. injection HB as <-. injection HB' as <-.
      apply ext_stored; auto. now apply ext_refl_fresh.
  - intros b Ib. rewrite !dget_app. destruct (dget b R) eqn:GB; [discriminate|]. rewrite (T _ Ib GB). cbn. destruct (String.eqb b a); [discriminate|auto].
Qed.
Definition named (top : option string) (N : list string) (n : string) : Prop := forall p, top = Some p -> In (p ++ "." ++ n)%string N.
Lemma simM_qualified N top n {A} (f : string -> M A) : named top N n -> (forall a, In a N -> simM N (f a)) ->
  simM N (a <- lift (qualify top n) ;; f a)%mon.
Proof.
  intros H F R R' R1 x T E. unfold qualify in *. destruct top as [p|]; [|discriminate]. cbn [mbind lift] in *. unfold mbind, lift in *.
  eapply F; eauto.
Qed.
Lemma simM_enum N top n vs : named top N n -> simM N (pr_enum top n vs).
Proof.
  intros H. unfold pr_enum. apply simM_qualified; auto. intros a I. cbv zeta. apply simM_bind; [|intros; apply simM_ret].
  apply (simM_register N _ a); [exact Logic.I|reflexivity|exact I].
Qed.
Lemma mbind_lift {A B} (r : res A) (f : A -> M B) R R1 x : mbind (lift r) f R = (R1, Ok x) -> exists a, r = Ok a /\ f a R = (R1, Ok x).
Proof. unfold mbind, lift. destruct r; [eauto|discriminate]. Qed.
Lemma simM_bind_if N {A B} (Q : A -> Prop) (m : M A) (f : A -> M B) : simM N m -> (forall R R1 a, m R = (R1, Ok a) -> Q a) ->
  (forall a, Q a -> simM N (f a)) -> simM N (mbind m f).
Proof.
  intros Hm HQ Hf R R' R1 x T H. unfold mbind in *. destruct (m R) as [R2 [a|e]] eqn:E; [|discriminate].
  destruct (Hm _ _ _ _ T E) as (R2' & -> & T2). eapply Hf; eauto.
Qed.
Definition yields {A} (Q : A -> Prop) (m : M A) : Prop := forall R R1 a, m R = (R1, Ok a) -> Q a.
Lemma yields_bind {A B} (P : A -> Prop) (Q : B -> Prop) (m : M A) f : yields P m -> (forall a, P a -> yields Q (f a)) -> yields Q (mbind m f).
Proof. intros Hm Hf R R1 b H. unfold mbind in H. destruct (m R) as [R2 [a|e]] eqn:E; [|discriminate]. eapply Hf; eauto. Qed.
Lemma yields_ret {A} (Q : A -> Prop) a : Q a -> yields Q (ret a).
Proof. intros q R R1 b [= _ <-]. exact q. Qed.
Lemma yields_lift {A} (Q : A -> Prop) r : (forall a, r = Ok a -> Q a) -> yields Q (lift r).
Proof. intros q R R1 b [= _ E]. auto. Qed.
Lemma yields_any {A} (m : M A) : yields (fun _ => True) m.
Proof. intros R R1 b _. exact Logic.I. Qed.
Lemma yields_element top x : yields (Forall fresh_refs) (read_element top x).
Proof.
  destruct x; cbn [read_element].
  - eapply yields_bind; [apply yields_lift; apply field_fresh|]. intros t F. apply yields_ret. auto.
  - eapply yields_bind; [apply yields_lift; apply map_fresh|]. intros t F. apply yields_ret. auto.
  - eapply yields_bind; [apply yields_lift; apply oneof_fresh|]. intros t F. apply yields_ret. auto.
  - eapply yields_bind; [apply yields_any|intros; apply yields_ret; constructor].
  - eapply yields_bind; [apply yields_any|intros; apply yields_ret; constructor].
  - apply yields_ret; constructor.
Qed.
Lemma yields_elements top l : yields (Forall fresh_refs) (read_elements top l).
Proof.
  induction l as [|x l IH]; [apply yields_ret; constructor|]. rewrite read_elements_cons. eapply yields_bind; [apply yields_element|]. intros f F.
  eapply yields_bind; [exact IH|]. intros fs Fs. apply yields_ret. now apply Forall_app.
Qed.
Lemma simM_message N top e : Forall (named top N) (declared_in e) -> simM N (pr_message top e).
Proof.
  induction e as [n i ty c|n i k v|n l _|n l IH|n v|] using element_ind'; intros D; try apply simM_fail.
  cbn [declared_in] in D. inversion D as [|? ? Dn Dl]; subst. rewrite pr_message_eq. apply simM_bind_if with (Q := Forall fresh_refs).
  - clear D Dn. induction IH as [|x l Hx _ IHl]; [apply simM_ret|]. rewrite read_elements_cons. cbn [flat_map] in Dl. apply Forall_app in Dl as [Dx Dl].
    apply simM_bind; [|intros f; apply simM_bind; [now apply IHl|intros; apply simM_ret]].
    destruct x; cbn [read_element]; try apply simM_ret; (apply simM_bind; [|intros; apply simM_ret]); try apply simM_lift.
    + now apply Hx.
    + apply simM_enum. now inversion Dx.
  - exact (yields_elements top l).
  - intros fs F. apply simM_qualified; auto. intros a I. cbv zeta. apply simM_bind; [|intros; apply simM_ret].
    apply (simM_register N _ a); [|reflexivity|exact I]. unfold fresh_refs. cbn. now apply fold_and.
Qed.
Lemma body_cons x l : flat_map declared_in (body (x :: l)) =
  match x with FElement e => declared_in e ++ flat_map declared_in (body l) | _ => flat_map declared_in (body l) end.
Proof. destruct x; reflexivity. Qed.
Lemma simM_elements N top l : forall root, Forall (named top N) (flat_map declared_in (body l)) -> simM N (pr_elements top l root).
Proof.
  induction l as [|x l IH]; intros root D; [apply simM_ret|]. rewrite body_cons in D. cbn [pr_elements]. destruct x as [p|e|]; auto.
  apply Forall_app in D as [De D]. destruct e; auto.
  - apply simM_bind; [now apply simM_message|]. auto.
  - apply simM_bind; [apply simM_enum; now inversion De|]. auto.
Qed.

(** ** Keys *)
Definition adds N {A} (m : M A) : Prop := forall R a, In a (dkeys (fst (m R))) -> In a (dkeys R) \/ In a N.
Lemma adds_same N {A} (m : M A) : (forall R, fst (m R) = R) -> adds N m.
Proof. intros H R a. rewrite H. auto. Qed.
Lemma adds_bind N {A B} (m : M A) (f : A -> M B) : adds N m -> (forall a, adds N (f a)) -> adds N (mbind m f).
Proof.
  intros Hm Hf R a. unfold mbind. specialize (Hm R a). destruct (m R) as [R2 [x|e]]; cbn in *; auto.
  intros I. apply Hf in I as [I|I]; auto.
Qed.
Lemma adds_register N t : (forall a, c_alias (get_c t) = PStr a -> In a N) -> adds N (register_alias t).
Proof.
  intros H R a. unfold register_alias. destruct (c_alias (get_c t)) as [| | | |b| |] eqn:A; cbn; auto. destruct (dmem b R); cbn; auto.
  destruct (re_match alias_regex b); [|cbn; auto]. cbn [fst]. rewrite dkeys_app. intros I. apply in_app_or in I as [I|[<-|[]]]; auto.
Qed.
Lemma adds_qualified N top n {A} (f : string -> M A) : named top N n -> (forall a, In a N -> adds N (f a)) -> adds N (a <- lift (qualify top n) ;; f a)%mon.
Proof. intros H F R a. unfold qualify, lift, mbind. destruct top as [p|]; cbn; auto. apply F. auto. Qed.
Lemma adds_enum N top n vs : named top N n -> adds N (pr_enum top n vs).
Proof.
  intros H. unfold pr_enum. apply adds_qualified; auto. intros a I. apply adds_bind; [|intros; now apply adds_same].
  apply adds_register. cbn. congruence.
Qed.
Lemma adds_message N top e : Forall (named top N) (declared_in e) -> adds N (pr_message top e).
Proof.
  induction e as [n i ty c|n i k v|n l _|n l IH|n v|] using element_ind'; intros D; try (now apply adds_same).
  cbn [declared_in] in D. inversion D as [|? ? Dn Dl]; subst. rewrite pr_message_eq. apply adds_bind.
  - clear D Dn. induction IH as [|x l Hx _ IHl]; [now apply adds_same|]. rewrite read_elements_cons. cbn [flat_map] in Dl. apply Forall_app in Dl as [Dx Dl].
    apply adds_bind; [|intros f; apply adds_bind; [now apply IHl|intros; now apply adds_same]].
    destruct x; cbn [read_element]; try (now apply adds_same); (apply adds_bind; [|intros; now apply adds_same]); try (now apply adds_same).
    + now apply Hx.
    + apply adds_enum. now inversion Dx.
  - intros fs. apply adds_qualified; auto. intros a I. cbv zeta. apply adds_bind; [|intros; now apply adds_same].
    apply adds_register. cbn. congruence.
Qed.
Lemma adds_elements N top l : forall root, Forall (named top N) (flat_map declared_in (body l)) -> adds N (pr_elements top l root).
Proof.
  induction l as [|x l IH]; intros root D; [now apply adds_same|]. rewrite body_cons in D. cbn [pr_elements]. destruct x as [p|e|]; auto.
  apply Forall_app in D as [De D]. destruct e; auto.
  - apply adds_bind; [now apply adds_message|]. auto.
  - apply adds_bind; [apply adds_enum; now inversion De|]. auto.
Qed.

(** ** to_recap *)
Lemma top_app ns p : top_of (ns ++ [p]) = Some p.
Proof. unfold top_of. destruct (ns ++ [p]) eqn:E; [destruct ns; discriminate|]. rewrite <- E. now rewrite last_last. Qed.
Lemma all_named p l : Forall (named (Some p) (full_names p l)) (flat_map declared_in (body l)).
Proof. apply Forall_forall. intros n I q [= <-]. unfold full_names. apply in_map_iff. eauto. Qed.
Lemma parse_packaged l p s : first_package l = Some p ->
  pr_parse l s = match pr_elements (Some p) l None (reg s) with
                 | (R, Err e) => (mkConv (spaces s ++ [p]) R, Err e)
                 | (R, Ok None) => (mkConv (spaces s ++ [p]) R, Err ValueError)
                 | (R, Ok (Some t)) => (mkConv (spaces s) R, Ok t)
                 end.
Proof.
  intros P. unfold pr_parse. rewrite P, top_app. destruct (pr_elements _ _ _ _) as [R [[t|]|e]]; auto.
  destruct (spaces s ++ [p]) eqn:E; [destruct (spaces s); discriminate|]. rewrite <- E. now rewrite removelast_last.
Qed.
Lemma to_keys l p s a : first_package l = Some p -> In a (dkeys (reg (fst (pr_to l s)))) -> In a (dkeys (reg s)) \/ In a (full_names p l).
Proof.
  intros P. unfold pr_to. rewrite (parse_packaged _ _ _ P). pose proof (adds_elements (full_names p l) (Some p) l None (all_named p l) (reg s) a) as K.
  destruct (pr_elements _ _ _ _) as [R [[t|]|e]]; exact K.
Qed.
Lemma to_frame l p s1 s2 t : first_package l = Some p -> extR (reg s1) (reg s2) ->
  (forall a, In a (full_names p l) -> ~ In a (dkeys (reg s2))) -> snd (pr_to l s1) = Ok t ->
  exists t', snd (pr_to l s2) = Ok t' /\ by_name t' = by_name t /\ spaces (fst (pr_to l s2)) = spaces s2.
Proof.
  intros P X D H. unfold pr_to in *. rewrite (parse_packaged _ _ s1 P) in H. rewrite (parse_packaged _ _ s2 P).
  assert (T : tight (full_names p l) (reg s1) (reg s2)).
  { split; auto. intros a I _. apply dget_None. auto. }
  destruct (pr_elements (Some p) l None (reg s1)) as [R [[u|]|e]] eqn:E; cbn [fst snd reg] in H; try discriminate.
  destruct (simM_elements _ _ _ None (all_named p l) _ _ _ _ T E) as (R' & -> & X' & _). cbn [fst snd reg spaces].
  apply rbind_Ok in H as (v & V & H).
  assert (F : fresh_refs u).
  { pose proof (fun K => proj2 (keeps_elements (Some p) l None (fun t E => ltac:(discriminate)) builtin_aliases K)) as G.
    clear - E. revert E. generalize (reg s1). intros R0 E.
    assert (Y : forall root, (forall w, root = Some w -> fresh_refs w) -> yields (fun o => forall w, o = Some w -> fresh_refs w) (pr_elements (Some p) l root)).
    { clear. induction l as [|x l IH]; intros root Fr; [now apply yields_ret|]. cbn [pr_elements]. destruct x as [q|e|]; auto. destruct e; auto.
      - eapply yields_bind with (P := fresh_refs).
        + rewrite pr_message_eq. eapply yields_bind; [apply yields_elements|]. intros fs F. eapply yields_bind; [apply yields_any|]. intros a _.
          eapply yields_bind; [apply yields_any|]. intros _ _. apply yields_ret. unfold fresh_refs. cbn. now apply fold_and.
        + intros w Fw. apply IH. destruct root; auto. intros ? [= <-]. exact Fw.
      - eapply yields_bind; [apply yields_any|]. auto. }
    eapply (Y None); eauto. discriminate. }
  destruct (sim_resolve _ _ _ _ _ X' (ext_refl_fresh _ F) V) as (v' & -> & EV). cbn [rbind].
  assert (B : by_name v' = by_name v) by (symmetry; now apply ext_by_name).
  destruct v; try discriminate. injection H as <-. destruct v'; try discriminate B. eauto.
Qed.
Definition grows {A} (m : M A) : Prop := forall R, exists E, fst (m R) = R ++ E.
Lemma grows_same {A} (m : M A) : (forall R, fst (m R) = R) -> grows m.
Proof. intros H R. exists []. now rewrite H, app_nil_r. Qed.
Lemma grows_bind {A B} (m : M A) (f : A -> M B) : grows m -> (forall a, grows (f a)) -> grows (mbind m f).
Proof.
  intros Hm Hf R. unfold mbind. destruct (Hm R) as [E K]. destruct (m R) as [R2 [x|e]]; cbn in *; subst; eauto.
  destruct (Hf x (R ++ E)) as [E' K']. exists (E ++ E'). now rewrite K', app_assoc.
Qed.
Lemma grows_register t : grows (register_alias t).
Proof.
  intros R. unfold register_alias. destruct (c_alias (get_c t)) as [| | | |b| |]; try (exists []; cbn; now rewrite app_nil_r).
  destruct (dmem b R); [exists []; cbn; now rewrite app_nil_r|]. destruct (re_match alias_regex b); [cbn; eauto|exists []; cbn; now rewrite app_nil_r].
Qed.
Lemma grows_enum top n vs : grows (pr_enum top n vs).
Proof.
  unfold pr_enum. apply grows_bind; [now apply grows_same|]. intros a. cbv zeta. apply grows_bind; [apply grows_register|]. intros. now apply grows_same.
Qed.
Lemma grows_message top e : grows (pr_message top e).
Proof.
  induction e as [n i ty c|n i k v|n l _|n l IH|n v|] using element_ind'; try (now apply grows_same).
  rewrite pr_message_eq. apply grows_bind.
  - induction IH as [|x l Hx _ IHl]; [now apply grows_same|]. rewrite read_elements_cons.
    apply grows_bind; [|intros f; apply grows_bind; [exact IHl|intros; now apply grows_same]].
    destruct x; cbn [read_element]; try (now apply grows_same); (apply grows_bind; [|intros; now apply grows_same]); try (now apply grows_same); auto.
    apply grows_enum.
  - intros fs. apply grows_bind; [now apply grows_same|]. intros a. cbv zeta. apply grows_bind; [apply grows_register|]. intros. now apply grows_same.
Qed.
Lemma grows_elements top l : forall root, grows (pr_elements top l root).
Proof.
  induction l as [|x l IH]; intros root; [now apply grows_same|]. cbn [pr_elements]. destruct x as [p|e|]; auto. destruct e; auto.
  - apply grows_bind; [apply grows_message|]. auto.
  - apply grows_bind; [apply grows_enum|]. auto.
Qed.
Lemma reached_builtin s : reached s -> extR builtin_aliases (reg s).
Proof.
  intros H. assert (E : exists E, reg s = builtin_aliases ++ E).
  { induction H as [ns|l s H IH]; [exists []; now rewrite app_nil_r|]. destruct IH as [E IH].
    assert (K : exists E', reg (fst (pr_to l s)) = reg s ++ E').
    { unfold pr_to. assert (K : exists E', reg (fst (pr_parse l s)) = reg s ++ E').
      { unfold pr_parse. set (ns := match first_package l with Some p => _ | None => _ end).
        pose proof (grows_elements (top_of ns) l None (reg s)) as K. destruct (pr_elements _ _ _ _) as [R [[t|]|e]]; auto. destruct ns; auto. }
      destruct (pr_parse l s) as [s' [t|e]]; auto. }
    destruct K as [E' ->]. rewrite IH. exists (E ++ E'). now rewrite app_assoc. }
  destruct E as [E ->]. split; [apply builtin_nodup|]. split.
  - intros a t G. rewrite dget_app, G. discriminate.
  - intros a t t' G. rewrite dget_app, G. intros [= <-]. apply builtin_scalar in G as [G _].
    destruct G as (G1 & G2 & _). apply ext_leaf; auto.
Qed.

Lemma NoDup_app_remove_l' {A} (l l' : list A) : NoDup (l ++ l') -> NoDup l'.
Proof. induction l; cbn; auto. intros H. inversion H. auto. Qed.
Lemma NoDup_app_disjoint {A} (l l' : list A) x : NoDup (l ++ l') -> In x l -> ~ In x l'.
Proof. induction l as [|y l IH]; cbn; [tauto|]. intros H. inversion H as [|? ? N ND]; subst. intros [<-|I] J; [apply N, in_or_app; auto|now apply IH]. Qed.
(** C46 *)
Theorem reuse_one s ns l p t : reached s -> first_package l = Some p ->
  (forall a, In a (full_names p l) -> ~ In a (dkeys (reg s))) -> snd (pr_to l (converter ns)) = Ok t ->
  exists t', snd (pr_to l s) = Ok t' /\ by_name t' = by_name t /\ spaces (fst (pr_to l s)) = spaces s.
Proof. intros S P D H. eapply to_frame; eauto. now apply reached_builtin. Qed.
Theorem reuse_all ns (files : list (string * list felement)) :
  Forall (fun f => first_package (snd f) = Some (fst f)) files ->
  NoDup (flat_map (fun f => full_names (fst f) (snd f)) files) ->
  Forall (fun f => exists t, snd (pr_to (snd f) (converter ns)) = Ok t) files ->
  Forall2 (fun f r => exists t t', snd (pr_to (snd f) (converter ns)) = Ok t /\ r = Ok t' /\ by_name t' = by_name t)
    files (answers (converter ns) (map snd files)).
Proof.
  intros P D H.
  assert (G : forall s, reached s -> (forall f a, In f files -> In a (full_names (fst f) (snd f)) -> ~ In a (dkeys (reg s))) ->
    Forall2 (fun f r => exists t t', snd (pr_to (snd f) (converter ns)) = Ok t /\ r = Ok t' /\ by_name t' = by_name t)
      files (answers s (map snd files))).
  { induction files as [|[p l] files IH]; intros s S N; [constructor|]. inversion P as [|? ? Pl P']; subst. inversion H as [|? ? [t Ht] H']; subst.
    cbn [flat_map fst snd] in *. cbn [map answers snd].
    destruct (reuse_one s ns l p t S Pl) as (t' & E & B & _); auto.
    { intros a I. apply (N (p, l)); cbn; auto. }
    constructor; [cbn; eauto|]. apply IH; auto.
    - eapply NoDup_app_remove_l'; eauto.
    - now constructor.
    - intros f a I J K. eapply to_keys in K; eauto. destruct K as [K|K].
      + eapply N; eauto. now right.
      + eapply NoDup_app_disjoint; eauto. apply in_flat_map. eauto. }
  apply G; [constructor|].
  intros f a I J K. rewrite Forall_forall in H. destruct (H _ I) as [t Ht].
  unfold full_names in J. apply in_map_iff in J as (n & <- & _). apply builtin_naked in K.
  assert (X : substr_in "." (fst f ++ "." ++ n) = true) by (apply DbapiFacts.substr_spec; eauto). congruence.
Qed.
