(** Data of Avro schemas as values of the types read from them (proofs only). *)
From Coq Require Import String Ascii List NArith ZArith QArith Bool Lia.
From Verif Require Import PyVal PyValFacts RType Regex Registry FromDict FromDictFacts RegexFacts RegistryFacts
  SpecTypes Avro SpecAvro AvroFacts AvroProps SpecAvroSchema AvroSchema SpecDb SpecInstances SpecRows SpecAvroData.
Import ListNotations.
Open Scope nat_scope.
Open Scope string_scope.
Open Scope list_scope.

(** *** Values of types that differ in their labels or registries *)
Definition counts : list string := ["unit"; "precision"; "scale"].
Lemma holds_set_c env t c v : c_logical c = c_logical (get_c t) -> (is_proxy t = true -> c_alias c = c_alias (get_c t)) ->
  (forall k, In k counts -> dget k (c_extra c) = dget k (c_extra (get_c t))) -> holds env t v -> holds env (set_c t c) v.
Proof.
  intros L A X H.
  assert (XU : dget "unit" (c_extra c) = dget "unit" (c_extra (get_c t))) by (apply X; cbn; auto).
  assert (XP : dget "precision" (c_extra c) = dget "precision" (c_extra (get_c t))) by (apply X; cbn; auto).
  assert (XS : dget "scale" (c_extra c) = dget "scale" (c_extra (get_c t))) by (apply X; cbn; auto).
  destruct H; cbn [set_c get_c is_proxy] in *.
  - constructor.
  - constructor.
  - constructor; congruence.
  - econstructor; unfold logical_is, extra_is in *; eauto; congruence.
  - eapply h_clock; unfold logical_is, extra_is in *; eauto; congruence.
  - eapply h_day; unfold logical_is, extra_is in *; eauto; congruence.
  - constructor; auto.
  - constructor; auto.
  - constructor; auto; congruence.
  - eapply h_decimal; unfold logical_is, extra_is in *; eauto; congruence.
  - constructor; auto.
  - constructor; auto.
  - constructor; auto.
  - constructor; auto.
  - econstructor; eauto.
  - eapply h_proxy; eauto. rewrite A; auto.
Qed.

Lemma get_c_freeze' R t : get_c (freeze R t) = get_c t.
Proof. destruct t as [| | | | | | | | | | |c [r|]]; reflexivity. Qed.
Lemma holds_freeze env R t v : holds env t v -> holds env (freeze R t) v.
Proof.
  induction 1; cbn [freeze]; try (econstructor; eauto; fail).
  - apply h_struct; [now rewrite map_length| |].
    + intros i f n d N1 N2. rewrite nth_error_map in N1. destruct (nth_error fs i) as [f'|] eqn:E; [|discriminate].
      injection N1 as <-. unfold extra. rewrite get_c_freeze'. eapply H0; eauto.
    + intros i f n d N1 N2. rewrite nth_error_map in N1. destruct (nth_error fs i) as [f'|] eqn:E; [|discriminate].
      injection N1 as <-. eapply H2; eauto.
  - eapply h_union; [apply List.in_map; eauto|auto].
  - destruct rg; eapply h_proxy; eauto.
Qed.
Lemma holds_stored env R t v : is_proxy t = false -> holds env t v -> holds env (stored R t) v.
Proof.
  intros P H. unfold stored. apply holds_set_c; cbn [c_logical c_alias c_extra]; auto.
  - intros X. destruct t as [| | | | | | | | | | |c [r|]]; cbn in *; discriminate.
  - intros k I. rewrite dget_ddel. cbn in I. destruct I as [<-|[<-|[<-|[]]]]; reflexivity.
  - now apply holds_freeze.
Qed.

(** *** Reading keeps every datum *)
Scheme data_ind2 := Minimality for data Sort Prop
  with fields_ind2 := Minimality for fields Sort Prop.
Combined Scheme data_fields from data_ind2, fields_ind2.

Lemma rooted_rooted ns : rooted (rooted ns) = rooted ns.
Proof. unfold rooted. destruct (String.eqb_spec ns "") as [->|N]; [reflexivity|]. apply String.eqb_neq in N. now rewrite N. Qed.
Lemma named_rooted ns d ns' nm : named_as ns d ns' (Some nm) -> rooted ns' = ns'.
Proof. intros H. inversion H; subst; apply rooted_rooted. Qed.
Lemma nameless_as ns d ns' nm : nameless d -> named_as ns d ns' nm -> ns' = ns /\ nm = None.
Proof.
  intros [N M] H. inversion H; subst; try congruence. split; auto. unfold namespace_of. now rewrite M.
Qed.
Lemma prim_in s v : prim_data s v -> In s avro_prims.
Proof. intros H. destruct H; cbn; tauto. Qed.
Lemma primitive_in s c t : primitive s c = Some t -> In s avro_prims.
Proof.
  unfold primitive. cbn [dget].
  repeat match goal with |- context [String.eqb ?a ?b] => destruct (String.eqb_spec a b) as [->|]; [intros _; cbn; tauto|] end. discriminate.
Qed.
Lemma needs_not_prim s k : In (s, k) needs -> ~ In s avro_prims.
Proof. cbn. intros H. repeat destruct H as [H|H]; try injection H as <- <-; try contradiction; intuition discriminate. Qed.

Lemma named_data start doc ns s v : data start doc ns (PStr s) v -> ~ In s (map fst needs).
Proof.
  intros D. inversion D as [? ? ? P|? ? ? ? ? [_ R]| | | | | | | |]; subst; auto. intros I. apply in_map_iff in I as ([s' k] & <- & I).
  apply needs_not_prim in I. apply prim_in in P. contradiction.
Qed.

Ltac pairs_tac := repeat match goal with
  | H : In (_, _) _ |- _ => progress cbn [In] in H
  | H : False |- _ => destruct H
  | H : (_, _) = (_, _) \/ _ |- _ => destruct H as [H|H]
  | H : (_, _) = (_, _) |- _ => first [discriminate H | injection H; clear H; intros; subst]
  | H : String _ _ = String _ _ |- _ => discriminate H
  | H : "" = String _ _ |- _ => discriminate H
  end.

Section Kept.
  Variable env : string -> rtype -> Prop.
  Variable start : string.
  Variable doc : pyval.
  Hypothesis T : tidy start doc.
  Hypothesis PR : plain_references start doc.
  Hypothesis covers : forall f ns d, defined start doc f ns d -> dget "logicalType" d = None ->
    exists t t', reads ns (PDict d) t /\ env f t' /\ forall v, holds env t v -> holds env t' v.

  Lemma prim_holds s c t v : c_logical c = PNone -> primitive s c = Some t -> prim_data s v -> holds env t v.
  Proof.
    intros L P D. destruct D; cbn in P; injection P as <-; constructor; auto.
    - left. auto.
    - right. auto.
  Qed.
  Lemma definition_holds o nm t d ns v : dget "type" o = Some (PDict d) -> reads_as ns o nm t ->
    (forall t0, reads ns (PDict d) t0 -> holds env t0 v) -> holds env t v.
  Proof.
    intros E RA H. inversion RA; subst; try congruence; try (destruct H0 as [|[? _]]; congruence).
    rewrite E in H0. injection H0 as <-. apply holds_set_c; cbn [c_logical c_alias c_extra]; auto.
    intros k I. rewrite H3. unfold label. cbn in I. destruct I as [<-|[<-|[<-|[]]]]; reflexivity.
  Qed.

  Definition field_holds (f : rtype) (nv : string * datum) : Prop :=
    extra "name" f = Some (PStr (fst nv)) /\ holds env f (snd nv).
  Lemma struct_holds c fs r : Forall2 field_holds fs r -> holds env (TStruct c fs) (DRow r).
  Proof.
    intros F. apply h_struct.
    - now apply F2_len in F.
    - intros i f n d N1 N2. revert i N1 N2. induction F as [|x y xs ys [E _] _ IH]; intros [|i]; cbn; try discriminate; eauto.
      intros [= <-] [= ->]. exact E.
    - intros i f n d N1 N2. revert i N1 N2. induction F as [|x y xs ys [_ E] _ IH]; intros [|i]; cbn; try discriminate; eauto.
      intros [= <-] [= ->]. exact E.
  Qed.

  (** What is read from a field has its name. *)
  Lemma field_named ns o n t : tidy_field o -> rooted ns = ns -> dget "name" o = Some (PStr n) -> reads ns (PDict o) t ->
    extra "name" t = Some (PStr n) /\ exists nm, reads_as ns o nm t.
  Proof.
    intros ((n' & E & D) & NS & LT) RN EN RD. rewrite EN in E. injection E as <-.
    inversion RD as [|d ns' nm t' NA _ RA|d ns' nm l lo x c t' NA LL]; subst; [|congruence].
    assert (X : ns' = ns /\ exists f, nm = Some (f, n)).
    { inversion NA; subst; try congruence.
      - rewrite EN in H. injection H as <-. unfold namespace_of. rewrite NS. split; eauto.
      - exfalso. assert (X : n = (a ++ "." ++ b)%string) by congruence. unfold no_dot in D. rewrite X, dot_in in D. discriminate. }
    destruct X as (-> & f & ->). split; [|eauto]. unfold extra.
    assert (Y : forall lo al x c, SpecAvroSchema.described o (Some (f, n)) lo al x c -> dget "name" (c_extra c) = Some (PStr n)).
    { intros lo al x c DE. rewrite (SpecAvroSchema.de_extra _ _ _ _ _ _ DE). reflexivity. }
    inversion RA; subst; cbn [get_c]; eauto.
    - unfold primitive in *.
      assert (G : get_c t = c); [|rewrite G; eauto].
      match goal with H : dget s _ = Some t |- _ => revert H end. cbn [dget].
      repeat match goal with |- context [String.eqb ?a ?b] => destruct (String.eqb a b); [intros [= <-]; reflexivity|] end. discriminate.
    - destruct t0; cbn [set_c get_c c_extra]; match goal with H : forall k, dget k x = _ |- _ => rewrite H; reflexivity end.
  Qed.

  Theorem kept : (forall ns j v, data start doc ns j v -> part start doc ns j ->
      (forall t, reads ns j t -> holds env t v)
      /\ (forall o nm t, dget "type" o = Some j -> reads_as ns o nm t -> holds env t v))
    /\ (forall ns l r, fields start doc ns l r -> rooted ns = ns ->
      (forall o, In (PDict o) l -> tidy_field o /\ forall j, dget "type" o = Some j -> part start doc ns j) ->
      forall fs, Forall2 (reads ns) l fs -> Forall2 field_holds fs r).
  Proof.
    assert (STR : forall ns s v, (forall o nm t, dget "type" o = Some (PStr s) -> reads_as ns o nm t -> holds env t v) ->
      (forall t, reads ns (PStr s) t -> holds env t v)
      /\ (forall o nm t, dget "type" o = Some (PStr s) -> reads_as ns o nm t -> holds env t v)).
    { intros ns s v H. split; auto. intros t RD. inversion RD as [s' t' RD'| |]; subst.
      inversion RD' as [|d ns' nm t' NA _ RA|d ns' nm l lo x c t' NA LL]; subst; [|discriminate].
      apply nameless_as in NA as [-> ->]; [|split; reflexivity]. eapply H; eauto. reflexivity. }
    assert (OBJ : forall ns d v, (forall t, reads ns (PDict d) t -> holds env t v) ->
      (forall t, reads ns (PDict d) t -> holds env t v)
      /\ (forall o nm t, dget "type" o = Some (PDict d) -> reads_as ns o nm t -> holds env t v)).
    { intros ns d v H. split; auto. intros o nm t E RA. eapply definition_holds; eauto. }
    (* an object whose logical type is ignored has none *)
    assert (IGN : forall ns d, part start doc ns (PDict d) -> ignored d -> dget "logicalType" d = None).
    { intros ns d PA IG. destruct (proj1 T ns d PA) as [MH _]. unfold meant_here, ignored in *.
      destruct (dget "logicalType" d) as [[]|]; tauto. }
    assert (PLAIN : forall ns d t, part start doc ns (PDict d) -> ignored d -> reads ns (PDict d) t ->
      exists ns' nm, named_as ns d ns' nm /\ reads_as ns' d nm t /\
        ((forall s, In s definable -> dget "type" d <> Some (PStr s)) -> ns' = ns)).
    { intros ns d t PA IG RD. pose proof (IGN ns d PA IG) as LN.
      inversion RD as [|d' ns' nm t' NA _ RA|d' ns' nm l lo x c t' NA LL]; subst; [|congruence].
      exists ns', nm. split; auto. split; auto. intros ND. destruct (proj1 T ns d PA) as [_ NL].
      now apply (nameless_as ns d ns' nm (NL ND)). }
    apply (data_fields start doc).
    - (* primitive *)
      intros ns s v P _. apply STR. intros o nm t E RA. pose proof (prim_in s v P) as IP.
      inversion RA; subst; try congruence;
        try (match goal with H : dget "type" o = Some (PStr ?k) |- _ => assert (s = k) by congruence; subst s; inversion P; fail end).
      + assert (s0 = s) by congruence. subst s0. eapply prim_holds; eauto. apply (SpecAvroSchema.de_logical _ _ _ _ _ _ H0).
      + destruct H as [H|[H _]]; [congruence|]. assert (s = "union") by congruence. subst s. inversion P.
    - (* reference *)
      intros ns s ns' d v [R1 R2] DF _ IH PA. apply STR. intros o nm t E RA.
      assert (X : exists c, t = TProxy c None /\ c_alias c = PStr (refers ns s)).
      { inversion RA; subst; try congruence;
        try (match goal with H : dget "type" o = Some (PStr ?k) |- _ => assert (s = k) by congruence; subst s; elim R2; cbn; tauto end).
        - assert (s0 = s) by congruence. subst s0. elim R1. eapply primitive_in; eauto.
        - destruct H as [H|[H _]]; [congruence|]. assert (s = "union") by congruence. subst s. elim R2; cbn; tauto.
        - assert (s0 = s) by congruence. subst s0. exists c. split; auto. apply (SpecAvroSchema.de_alias _ _ _ _ _ _ H2). }
      destruct X as (c & -> & A). destruct (covers _ _ _ DF) as (t & t' & RD & EN & HS).
      { eapply PR; eauto. split; auto. }
      eapply h_proxy; eauto. apply HS. apply IH; auto. apply DF.
    - (* object *)
      intros ns d j v IG E D IH PA. apply OBJ. intros t RD. destruct (PLAIN ns d t PA IG RD) as (ns' & nm & NA & RA & NS).
      rewrite NS in RA.
      + destruct IH as [_ IH]; [eapply part_type; eauto; intros s ->; eapply named_data; eauto|]. eapply IH; eauto.
      + intros s IS. rewrite E. intros [= ->]. eapply named_data; eauto. cbn in IS |- *. tauto.
    - (* logical *)
      intros ns d l v E M D PA. apply OBJ. intros t RD.
      inversion RD as [|d' ns' nm t' NA LF RA|d' ns' nm l' lo x c t' NA LL LA DE]; subst.
      { rewrite E in LF. destruct l; [|discriminate]. inversion M; subst. cbn in H0. intuition discriminate. }
      rewrite E in LL. injection LL as <-.
      pose proof (SpecAvroSchema.de_logical _ _ _ _ _ _ DE) as CL. pose proof (SpecAvroSchema.de_extra _ _ _ _ _ _ DE) as CE.
      destruct (proj1 T ns d PA) as [MH _]. unfold meant_here in MH. rewrite E in MH. destruct MH as [_ SZ].
      inversion D; subst; inversion LA; subst; pairs_tac;
        try (match goal with
        | |- holds _ _ (DClock _ _) => eapply h_clock; eauto; [unfold extra_is; rewrite CE; reflexivity|constructor|unfold int_range; cbn in *; lia]
        | |- holds _ _ (DInstant _ _) => eapply h_instant; eauto; [unfold extra_is; rewrite CE; reflexivity|constructor]
        end).
      + destruct H as (P1 & P2 & P3 & P4).
        assert (PP : p0 = PInt p) by congruence. subst p0.
        replace (match dget "size" d with Some n => n | None => PInt longest end) with (PInt b).
        2:{ destruct H0 as [[B ->] | [B ->]]; [|reflexivity]. destruct SZ as [S | ->]; [congruence|reflexivity]. }
        eapply (h_decimal env c _ _ p m u k z); auto; unfold logical_is, extra_is.
        * rewrite CE. reflexivity.
        * rewrite CE. cbn. destruct P4 as [-> | [-> ->]]; reflexivity.
      + constructor. cbn. destruct H as [-> _]. reflexivity.
      + eapply h_day; auto. unfold extra_is. rewrite CE. reflexivity.
    - (* fixed *)
      intros ns d b s IG E SZ LE LN PA. apply OBJ. intros t RD. destruct (PLAIN ns d t PA IG RD) as (ns' & nm & NA & RA & _).
      inversion RA; subst; try congruence; try (destruct H as [|[? _]]; congruence).
      + assert (s0 = "fixed") by congruence. subst. apply primitive_in in H1. cbn in H1. intuition discriminate.
      + assert (n = PInt (Z.of_nat (String.length s))) by congruence. subst n. constructor; [apply (SpecAvroSchema.de_logical _ _ _ _ _ _ H0)|].
        cbn. destruct v; cbn; lia.
      + assert (s0 = "fixed") by congruence. subst. elim H1. exists "size". eexists. split; [cbn; tauto|]. split; [eauto|].
        intros _. eexists. split; [left; reflexivity|auto].
    - (* enum *)
      intros ns d l s IG E SY I PA. apply OBJ. intros t RD. destruct (PLAIN ns d t PA IG RD) as (ns' & nm & NA & RA & _).
      inversion RA; subst; try congruence; try (destruct H as [|[? _]]; congruence).
      + assert (s0 = "enum") by congruence. subst. apply primitive_in in H1. cbn in H1. intuition discriminate.
      + assert (s0 = PList l) by congruence. subst. now constructor.
      + assert (s0 = "enum") by congruence. subst. elim H1. exists "symbols". eexists. split; [cbn; tauto|]. split; [eauto|discriminate].
    - (* array *)
      intros ns d j l IG E IT D IH PA. apply OBJ. intros t RD. destruct (PLAIN ns d t PA IG RD) as (ns' & nm & NA & RA & NS).
      rewrite NS in * by (intros s IS; rewrite E; intros [= <-]; cbn in IS; intuition discriminate).
      inversion RA; subst; try congruence; try (destruct H as [|[? _]]; congruence).
      + assert (s = "array") by congruence. subst. apply primitive_in in H1. cbn in H1. intuition discriminate.
      + assert (j0 = j) by congruence. subst. apply h_list; [exact I|]. intros x I. apply IH; auto. eapply part_items; eauto.
      + assert (s = "array") by congruence. subst. elim H1. exists "items". eexists. split; [cbn; tauto|]. split; [eauto|discriminate].
    - (* map *)
      intros ns d j l IG E IT KS D IH PA. apply OBJ. intros t RD. destruct (PLAIN ns d t PA IG RD) as (ns' & nm & NA & RA & NS).
      rewrite NS in * by (intros s IS; rewrite E; intros [= <-]; cbn in IS; intuition discriminate).
      inversion RA; subst; try congruence; try (destruct H as [|[? _]]; congruence).
      + assert (s = "map") by congruence. subst. apply primitive_in in H1. cbn in H1. intuition discriminate.
      + assert (j0 = j) by congruence. subst. apply h_map.
        * intros a b I. specialize (KS _ _ I). inversion KS; subst. constructor. assumption.
        * intros a b I. apply (IH a b I); auto. eapply part_values; eauto.
      + assert (s = "map") by congruence. subst. elim H1. exists "values". eexists. split; [cbn; tauto|]. split; [eauto|discriminate].
    - (* record *)
      intros ns d ns' nm l r IG E NA F D IH PA. apply OBJ. intros t RD. destruct (PLAIN ns d t PA IG RD) as (ns2 & nm2 & NA2 & RA & _).
      destruct (named_fun _ _ _ _ _ _ NA NA2) as [<- <-].
      inversion RA; subst; try congruence; try (destruct H as [|[? _]]; congruence).
      + assert (s = "record") by congruence. subst. apply primitive_in in H1. cbn in H1. intuition discriminate.
      + assert (v = PList l) by congruence. subst. cbn in H2. injection H2 as <-. apply struct_holds. apply IH; auto.
        * eapply named_rooted; eauto.
        * intros o I. split; [eapply (proj2 T); eauto|]. intros j EJ. eapply part_field; eauto.
      + assert (s = "record") by congruence. subst. elim H1. exists "fields". eexists. split; [cbn; tauto|]. split; [eauto|discriminate].
    - (* union *)
      intros ns l j v I D IH PA. split; [intros t RD; inversion RD|]. intros o nm t E RA.
      inversion RA; subst; try congruence. destruct H as [H|[H _]]; [|congruence]. rewrite E in H. injection H as <-.
      assert (X : exists t, In t ts /\ reads ns j t).
      { clear -H1 I. induction H1 as [|x y xs ys Q _ IH]; [destruct I|]. destruct I as [<-|I]; [exists y; cbn; auto|].
        destruct (IH I) as (t & I' & R). exists t. cbn. auto. }
      destruct X as (t & I' & R). eapply h_union; eauto. apply IH; auto. eapply part_branch; eauto.
    - intros ns _ _ fs F. inversion F. constructor.
    - intros ns o n j v l r EN E D IH DL IHL RN TF fs F. inversion F as [|x t xs ts RD F']; subst.
      destruct (TF o) as [TO PO]; [cbn; auto|]. destruct (field_named ns o n t TO RN EN RD) as [X (nm & RA)].
      constructor; [|apply IHL; auto; intros o' I; apply TF; cbn; auto].
      split; auto. cbn. destruct (IH (PO j E)) as [_ IH2]. eapply IH2; eauto.
  Qed.
End Kept.

(** *** Definitions are registered *)
Definition grows {A} (m : M A) : Prop := forall R, exists X, fst (m R) = R ++ X.
Lemma grows_pure {A} (m : M A) : (forall R, fst (m R) = R) -> grows m.
Proof. intros H R. exists []. now rewrite H, app_nil_r. Qed.
Lemma grows_bind {A B} (m : M A) (f : A -> M B) : grows m -> (forall a, grows (f a)) -> grows (mbind m f).
Proof.
  intros H K R. unfold mbind. destruct (H R) as [X E]. destruct (m R) as [R1 [a|e]]; cbn in *; [|eauto].
  destruct (K a R1) as [Y E2]. exists (X ++ Y). now rewrite E2, E, app_assoc.
Qed.
Lemma grows_mmap {A B} (f : A -> M B) l : (forall a, grows (f a)) -> grows (mmap f l).
Proof.
  intros H. induction l; cbn [mmap]; [now apply grows_pure|]. apply grows_bind; auto. intros b. apply grows_bind; auto.
  intros c. now apply grows_pure.
Qed.
Lemma grows_register t : grows (avro_register t).
Proof.
  unfold avro_register. destruct (is_none _); [now apply grows_pure|]. apply grows_bind; [|intros; now apply grows_pure].
  intros R. unfold register_alias. destruct (c_alias (get_c t)); try (exists []; now rewrite app_nil_r).
  destruct (dmem s R); [exists []; now rewrite app_nil_r|]. destruct (re_match alias_regex s); [cbn; eauto|exists []; now rewrite app_nil_r].
Qed.
Lemma grows_body rec d h : (forall j n, grows (rec j n)) -> grows (avro_body rec d h).
Proof.
  intros G. unfold avro_body. cbv zeta. destruct (dget "type" d) as [[| | | |ty|l|e]|]; try (now apply grows_pure).
  - assert (PX : forall s, grows (p <- (if substr_in "." s then ret s else (n <- lift (ns_text (a_ns h)) ;; ret (n ++ "." ++ s)%string)) ;;
       ret (TProxy (mkC PNone (PStr p) (kwarg "doc" PNone (a_attrs h)) (ddel "doc" (a_attrs h))) None))%mon).
    { intros s. apply grows_bind; [|intros; now apply grows_pure]. destruct (substr_in "." s); [now apply grows_pure|].
      apply grows_bind; [now apply grows_pure|intros; now apply grows_pure]. }
    repeat match goal with |- context [if String.eqb ty ?k then _ else _] => destruct (String.eqb ty k) end; auto using grows_register.
    all: match goal with |- context [match ?x with Some _ => _ | None => _ end] => destruct x end; auto using grows_register.
    + destruct (as_int _) as [z|]; auto. destruct (z <=? max_len)%Z; auto using grows_register.
    + repeat (apply grows_bind; intros); auto using grows_register, grows_mmap. now apply grows_pure.
    + apply grows_bind; intros; auto using grows_register.
    + apply grows_bind; intros; auto using grows_register.
    + repeat (apply grows_bind; intros); auto using grows_register, grows_mmap. now apply grows_pure.
  - apply grows_bind; intros; auto using grows_register, grows_mmap.
  - apply grows_bind; intros; auto. now apply grows_pure.
Qed.
Lemma grows_parse j ns : grows (avro_parse j ns).
Proof.
  unfold avro_parse. generalize (psize j) as n. intros n. revert j ns. induction n as [|n IH]; intros j ns; cbn [avro_parse_f].
  - now apply grows_pure.
  - assert (D : forall d, grows (h <- lift (avro_parse_head d ns) ;;
         let lo := kwarg "logicalType" PNone d in
         if truthy lo then lift (avro_parse_logical lo d (a_attrs h))
         else avro_body (avro_parse_f n) d h)%mon).
    { intros d. apply grows_bind; [now apply grows_pure|]. intros h. cbv zeta. destruct (truthy _); [now apply grows_pure|]. now apply grows_body. }
    destruct j; auto; try (now apply grows_pure). destruct (existsb _ _); now apply grows_pure.
Qed.
Lemma mmap_each {A B} (f : A -> M B) l x : (forall a, grows (f a)) -> In x l -> forall R R' ys, mmap f l R = (R', Ok ys) ->
  exists R0 R1 y X, f x R0 = (R1, Ok y) /\ R' = R1 ++ X.
Proof.
  intros G. induction l as [|a l IH]; [intros []|]. intros I R R' ys H. cbn [mmap] in H. unfold mbind in H.
  destruct (f a R) as [R1 [y|]] eqn:E; [|discriminate].
  destruct (mmap f l R1) as [R2 [zs|]] eqn:E2; [|discriminate]. injection H as <- <-. destruct I as [<-|I].
  - exists R, R1, y. destruct (grows_mmap f l G R1) as [X EX]. rewrite E2 in EX. cbn in EX. exists X. auto.
  - eapply IH; eauto.
Qed.

Section Registered.
  (** The registry at the end. *)
  Variable Rf : registry.
  Definition called (ns : string) (j : pyval) : Prop :=
    exists R0 R1 t X, avro_parse j (PStr ns) R0 = (R1, Ok t) /\ Rf = R1 ++ X.
  Definition visited (ns : string) (j : pyval) : Prop :=
    namespaced j /\ match j with
                    | PDict _ => called ns j
                    | PList l => forall x, In x l -> called ns x
                    | _ => True
                    end.

  Lemma nsp_get d k v : namespaced (PDict d) -> dget k d = Some v -> namespaced v.
  Proof. intros N. inversion N; subst; eauto. destruct H. Qed.
  Lemma nsp_space d : namespaced (PDict d) -> space d.
  Proof. intros N. inversion N; subst; auto. destruct H. Qed.

  Lemma called_dict ns d ns' nm : namespaced (PDict d) -> called ns (PDict d) -> named_as ns d ns' nm -> dget "logicalType" d = None ->
    exists h R0 R1 t X, a_ns h = PStr ns' /\ a_alias h = full_of nm /\ avro_body avro_parse d h R0 = (R1, Ok t) /\ Rf = R1 ++ X
      /\ avro_parse (PDict d) (PStr ns) R0 = (R1, Ok t).
  Proof.
    intros N (R0 & R1 & t & X & H & E) NA L. pose proof H as H'. rewrite avro_parse_unfold in H. unfold mbind, lift in H.
    destruct (avro_parse_head d (PStr ns)) as [h|] eqn:HD; [|discriminate]. unfold kwarg in H. rewrite L in H. cbn [truthy] in H.
    destruct (head_spec d ns h (nsp_space d N) HD) as (ns2 & nm2 & NA2 & A1 & A2 & _).
    destruct (named_fun _ _ _ _ _ _ NA NA2) as [<- <-]. exists h, R0, R1, t, X. auto.
  Qed.

  (** The type of an object that is read is read, too. *)
  Lemma visit_type ns d ns' nm j : namespaced (PDict d) -> called ns (PDict d) -> named_as ns d ns' nm ->
    dget "logicalType" d = None -> dget "type" d = Some j -> visited ns' j.
  Proof.
    intros N C NA L E. split; [eapply nsp_get; eauto|].
    destruct (called_dict ns d ns' nm N C NA L) as (h & R0 & R1 & t & X & A1 & A2 & B & EX & _).
    unfold avro_body in B. rewrite E in B. destruct j as [| | | |s|l|e]; auto.
    - intros x I. cbv zeta in B. unfold mbind in B at 1. rewrite A1 in B.
      destruct (mmap _ l R0) as [R2 [ts|]] eqn:MM; [|discriminate].
      destruct (mmap_each (fun t => avro_parse t (PStr ns')) l x (fun a => grows_parse a _) I _ _ _ MM) as (Ra & Rb & y & Y & P & EY).
      destruct (grows_register (TUnion (avro_common PNone (a_alias h) [] (a_attrs h)) ts) R2) as [Z EZ]. rewrite B in EZ. cbn in EZ.
      exists Ra, Rb, y, (Y ++ Z ++ X). split; auto. rewrite EX, EZ, EY, <- !app_assoc. reflexivity.
    - cbv zeta in B. unfold mbind in B. rewrite A1 in B. destruct (avro_parse (PDict e) (PStr ns') R0) as [R2 [t2|]] eqn:P; [|discriminate].
      injection B as <- _. exists R0, R2, t2, X. auto.
  Qed.

  Lemma called_visited ns j : namespaced j -> called ns j -> visited ns j.
  Proof.
    intros N C. split; auto. destruct j; auto. intros x I. destruct C as (R0 & R1 & t & X & H & _).
    rewrite avro_parse_unfold in H. destruct (existsb _ _) in H; discriminate.
  Qed.
  Lemma nsp_in l x : namespaced (PList l) -> In x l -> namespaced x.
  Proof. intros N. inversion N; subst; [|now destruct H]. rewrite Forall_forall in H0. auto. Qed.

  Lemma visit_inner ns d ns' nm s j : namespaced (PDict d) -> called ns (PDict d) -> named_as ns d ns' nm ->
    dget "logicalType" d = None -> dget "type" d = Some (PStr s) ->
    (s = "array" /\ dget "items" d = Some j) \/ (s = "map" /\ dget "values" d = Some j) -> visited ns' j.
  Proof.
    intros N C NA L E K. apply called_visited; [destruct K as [[_ K]|[_ K]]; eapply nsp_get; eauto|].
    destruct (called_dict ns d ns' nm N C NA L) as (h & R0 & R1 & t & X & A1 & A2 & B & EX & _).
    unfold avro_body in B. rewrite E in B. cbv zeta in B.
    destruct K as [[-> K]|[-> K]]; cbn [String.eqb Ascii.eqb Bool.eqb] in B; rewrite K in B; unfold mbind in B at 1; rewrite A1 in B;
      destruct (avro_parse j (PStr ns') R0) as [R2 [u|]] eqn:P; try discriminate;
      match type of B with avro_register ?T R2 = _ => destruct (grows_register T R2) as [Z EZ] end; rewrite B in EZ; cbn in EZ;
      exists R0, R2, u, (Z ++ X); (split; [auto|]); rewrite EX, EZ, <- !app_assoc; reflexivity.
  Qed.
  Lemma visit_field ns d ns' nm l o : namespaced (PDict d) -> called ns (PDict d) -> named_as ns d ns' nm ->
    dget "logicalType" d = None -> dget "type" d = Some (PStr "record") -> dget "fields" d = Some (PList l) -> In o l -> called ns' o.
  Proof.
    intros N C NA L E K I.
    destruct (called_dict ns d ns' nm N C NA L) as (h & R0 & R1 & t & X & A1 & A2 & B & EX & _).
    unfold avro_body in B. rewrite E in B. cbv zeta in B. cbn [String.eqb Ascii.eqb Bool.eqb] in B. rewrite K in B.
    unfold mbind in B at 1. unfold lift in B at 1. cbn [py_iter] in B. unfold mbind in B at 1. rewrite A1 in B.
    destruct (mmap _ l R0) as [R2 [ts|]] eqn:MM; [|discriminate].
    destruct (mmap_each (fun t => avro_parse t (PStr ns')) l o (fun a => grows_parse a _) I _ _ _ MM) as (Ra & Rb & y & Y & P & EY).
    match type of B with avro_register ?T R2 = _ => destruct (grows_register T R2) as [Z EZ] end. rewrite B in EZ. cbn in EZ.
    exists Ra, Rb, y, (Y ++ Z ++ X). split; auto. rewrite EX, EZ, EY, <- !app_assoc. reflexivity.
  Qed.

  Section Doc.
    Variable start : string.
    Variable doc : pyval.
    Hypothesis T : tidy start doc.
    Hypothesis V : visited start doc.

    Lemma not_logical_type d l j : meant d l -> dget "type" d = Some j ->
      exists s, j = PStr s /\ ~ In s ["record"; "enum"; "array"; "map"].
    Proof.
      intros M E. inversion M; subst.
      - exists "bytes". split; [congruence|]. cbn. intuition discriminate.
      - exists "fixed". split; [congruence|]. cbn. intuition discriminate.
      - exists s. split; [congruence|]. unfold annotated in H0. pairs_tac; cbn; intuition discriminate.
      - exists "fixed". split; [congruence|]. cbn. intuition discriminate.
    Qed.
    Lemma no_logical ns d j : part start doc ns (PDict d) -> dget "type" d = Some j ->
      (forall s, j = PStr s -> In s ["record"; "enum"; "array"; "map"]) -> dget "logicalType" d = None.
    Proof.
      intros PA E K. destruct (proj1 T ns d PA) as [MH _]. unfold meant_here in MH.
      destruct (dget "logicalType" d) as [[| | | |l| |]|]; try tauto. destruct MH as [M _].
      destruct (not_logical_type d l j M E) as (s & -> & N). elim N. auto.
    Qed.
    Lemma unnamed ns d : part start doc ns (PDict d) -> (forall s, In s definable -> dget "type" d <> Some (PStr s)) ->
      named_as ns d ns None.
    Proof.
      intros PA K. destruct (proj1 T ns d PA) as [_ NL]. destruct (NL K) as [N1 N2].
      assert (X : namespace_of ns d = ns) by (unfold namespace_of; now rewrite N2).
      rewrite <- X at 2. now constructor.
    Qed.
    Lemma field_named_as ns o : tidy_field o -> rooted ns = ns -> exists nm, named_as ns o ns nm.
    Proof.
      intros ((n & E & D) & NS & _) RN. eexists. rewrite <- RN at 2. replace ns with (namespace_of ns o) at 2 by (unfold namespace_of; now rewrite NS).
      now apply (named_simple ns o n).
    Qed.

    Lemma all_visited ns j : part start doc ns j -> visited ns j.
    Proof.
      induction 1 as [|ns d ns' nm l o j PA IH E NA F I EJ|ns d j PA IH E F|ns d j PA IH E F|ns l j PA IH I|ns d j PA IH E NN]; auto.
      - destruct IH as [N C].
        assert (L : dget "logicalType" d = None) by (eapply no_logical; eauto; intros s [= <-]; cbn; auto).
        pose proof (visit_field ns d ns' (Some nm) l (PDict o) N C NA L E F I) as CO.
        assert (TO : tidy_field o) by (eapply (proj2 T); eauto).
        destruct (field_named_as ns' o TO (named_rooted _ _ _ _ NA)) as [nm' NA'].
        apply (visit_type ns' o ns' nm' j); auto; [|apply TO]. eapply nsp_in; [|exact I]. eapply nsp_get; eauto.
      - destruct IH as [N C]. eapply (visit_inner ns d ns None "array"); eauto.
        + apply unnamed; auto. intros s IS. rewrite E. intros [= <-]. cbn in IS. intuition discriminate.
        + eapply no_logical; eauto. intros s [= <-]; cbn; auto.
      - destruct IH as [N C]. eapply (visit_inner ns d ns None "map"); eauto.
        + apply unnamed; auto. intros s IS. rewrite E. intros [= <-]. cbn in IS. intuition discriminate.
        + eapply no_logical; eauto. intros s [= <-]; cbn; auto.
      - destruct IH as [N C]. apply called_visited; auto. eapply nsp_in; eauto.
      - destruct IH as [N C]. destruct j as [| | | |s|l|e]; try (split; [eapply nsp_get; eauto|exact Logic.I]).
        + apply (visit_type ns d ns None (PList l)); auto; [apply unnamed; auto; rewrite E; intros; discriminate|].
          eapply no_logical; eauto. discriminate.
        + apply (visit_type ns d ns None (PDict e)); auto; [apply unnamed; auto; rewrite E; intros; discriminate|].
          eapply no_logical; eauto. discriminate.
    Qed.

    (** The type registered under the full name of a definition. *)
    Lemma definition_registered f ns d : defined start doc f ns d -> dget "logicalType" d = None ->
      exists R0 t, reads ns (PDict d) t /\ is_proxy t = false /\ dget f Rf = Some (stored R0 t).
    Proof.
      intros (PA & (s & E & DS & CX) & ns' & b & NA) L. destruct (all_visited _ _ PA) as [N C].
      destruct (called_dict ns d ns' (Some (f, b)) N C NA L) as (h & R0 & R1 & t & X & A1 & A2 & B & EX & P).
      apply parse_sound in P; auto. cbn [full_of] in A2.
      assert (K : exists R2, c_alias (get_c t) = PStr f /\ is_proxy t = false /\ avro_register t R2 = (R1, Ok t)).
      { unfold avro_body in B. rewrite E in B. cbv zeta in B. destruct CX as (k & v & IN & G & FX).
        cbn in DS. destruct DS as [<-|[<-|[<-|[]]]]; cbn [String.eqb Ascii.eqb Bool.eqb] in B.
        - assert (k = "fields") by (unfold needs in IN; pairs_tac; reflexivity). subst k. rewrite G in B. unfold mbind in B at 1.
          unfold lift in B. destruct (py_iter v) as [l|]; [|discriminate]. unfold mbind in B at 1.
          destruct (mmap _ l R0) as [R2 [ts|]]; [|discriminate]. pose proof (register_ok _ _ _ _ B) as ->. exists R2. auto.
        - assert (k = "symbols") by (unfold needs in IN; pairs_tac; reflexivity). subst k. rewrite G in B.
          pose proof (register_ok _ _ _ _ B) as ->. exists R0. auto.
        - assert (k = "size") by (unfold needs in IN; pairs_tac; reflexivity). subst k. rewrite G in B.
          destruct (FX eq_refl) as (z & IO & LE). apply as_int_spec in IO. rewrite IO in B.
          change max_len with longest in B. apply Z.leb_le in LE. rewrite LE in B.
          pose proof (register_ok _ _ _ _ B) as ->. exists R0. auto. }
      destruct K as (R2 & A & PX & RG). exists R2, t. split; auto. split; auto.
      unfold avro_register in RG. rewrite A in RG. cbn [is_none] in RG. unfold mbind, register_alias in RG. rewrite A in RG.
      destruct (dmem f R2) eqn:DM; [discriminate|]. destruct (re_match alias_regex f); [|discriminate]. injection RG as <-.
      rewrite EX, <- app_assoc, dget_app. unfold dmem in DM. destruct (dget f R2); [discriminate|]. cbn. now rewrite String.eqb_refl.
    Qed.
  End Doc.
End Registered.

Definition in_registry (R : registry) (a : string) (t : rtype) : Prop := dget a R = Some t.

Lemma to_parse j start ns R R' t :
  start = PStr ns \/ (start = PNone /\ ns = "" /\ exists d nm, j = PDict d /\ dget "name" d = Some (PStr nm)) ->
  avro_to j start R = (R', Ok t) -> avro_parse j (PStr ns) R = (R', Ok t).
Proof.
  intros S H. unfold avro_to in H. apply mbind_Ok in H as (R1 & u & H & K).
  assert (X : u = t /\ R1 = R') by (destruct u; inversion K; auto). destruct X as [-> ->].
  destruct S as [-> | (-> & -> & d & nm & -> & E)]; auto. rewrite <- H. symmetry. now apply (start_none d nm).
Qed.
Theorem data_kept j start ns R R' t v : namespaced j ->
  start = PStr ns \/ (start = PNone /\ ns = "" /\ exists d nm, j = PDict d /\ dget "name" d = Some (PStr nm)) ->
  avro_to j start R = (R', Ok t) -> tidy ns j -> plain_references ns j -> data ns j ns j v -> holds (in_registry R') t v.
Proof.
  intros N S H T PR D. destruct (to_reads j start ns R R' t N S H) as [RD _].
  assert (P : avro_parse j (PStr ns) R = (R', Ok t)) by (eapply to_parse; eauto).
  assert (V : visited R' ns j).
  { apply called_visited; auto. exists R, R', t, []. split; auto. now rewrite app_nil_r. }
  apply (proj1 (kept (in_registry R') ns j T PR (fun f ns0 d DF L =>
    match definition_registered R' ns j T V f ns0 d DF L with
    | ex_intro _ R0 (ex_intro _ t0 (conj A (conj B C))) =>
        ex_intro _ t0 (ex_intro _ (stored R0 t0) (conj A (conj C (fun v => holds_stored _ R0 t0 v B))))
    end)) ns j v D (part_doc ns j)). exact RD.
Qed.
