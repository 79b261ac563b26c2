(** Reading the files that from_recap writes (C122). *)
From Coq Require Import String Ascii List NArith ZArith QArith Bool Lia Permutation.
From Verif Require Import PyVal PyValFacts Regex RegexFacts RType Registry RegistryFacts FromDict RoundTrip Url Avro SpecAvro AvroProps JsonSchema SpecTypes SpecJson JsonProps DbapiFacts
  CompactNames SpecInstances SpecRows Proto SpecProto ProtoRead ProtoFrame ProtoShape ProtoRefs ProtoOrder SpecProtoData ProtoData ProtoDataReg ProtoDataBoth
  ProtoWrite ProtoMean SpecProtoWritten ProtoDataWritten.
Import ListNotations.
Open Scope nat_scope.
Open Scope string_scope.
Open Scope list_scope.

(** ** The names in a registry *)
Definition dotted_keys (R : registry) : Prop := forall a, In a (dkeys R) -> In a (dkeys builtin_aliases) \/ dotted_name a.
Definition dots {A} (m : M A) : Prop := forall R, dotted_keys R -> dotted_keys (fst (m R)).
Lemma dots_same {A} (m : M A) : (forall R, fst (m R) = R) -> dots m.
Proof. intros H R. now rewrite H. Qed.
Lemma dots_bind {A B} (m : M A) (f : A -> M B) : dots m -> (forall a, dots (f a)) -> dots (mbind m f).
Proof. intros Hm Hf R D. unfold mbind. specialize (Hm R D). destruct (m R) as [R2 [x|e]]; cbn in *; auto. now apply Hf. Qed.
Lemma dots_register t : dots (register_alias t).
Proof.
  intros R D a. unfold register_alias. destruct (c_alias (get_c t)) as [| | | |b| |]; try apply D. destruct (dmem b R); [apply D|].
  destruct (re_match alias_regex b) eqn:E; [|apply D]. cbn [fst]. rewrite dkeys_app. intros I. apply in_app_or in I as [I|[<-|[]]]; auto.
  right. now apply alias_regex_spec.
Qed.
Lemma dots_enum top n vs : dots (pr_enum top n vs).
Proof. unfold pr_enum. apply dots_bind; [now apply dots_same|]. intros a. apply dots_bind; [apply dots_register|]. intros; now apply dots_same. Qed.
Lemma dots_message top e : dots (pr_message top e).
Proof.
  induction e as [n i ty c|n i k v|n l _|n l IH|n v|] using element_ind'; try (now apply dots_same). rewrite pr_message_eq. apply dots_bind.
  - induction IH as [|x l Hx _ IHl]; [now apply dots_same|]. rewrite read_elements_cons.
    apply dots_bind; [|intros f; apply dots_bind; [exact IHl|intros; now apply dots_same]].
    destruct x; cbn [read_element]; try (now apply dots_same); (apply dots_bind; [|intros; now apply dots_same]); try (now apply dots_same).
    + exact Hx.
    + apply dots_enum.
  - intros fs. apply dots_bind; [now apply dots_same|]. intros a. cbv zeta. apply dots_bind; [apply dots_register|]. intros; now apply dots_same.
Qed.
Lemma dots_elements top l : forall root, dots (pr_elements top l root).
Proof.
  induction l as [|x l IH]; intros root; [now apply dots_same|]. cbn [pr_elements]. destruct x as [p|e|]; auto. destruct e; auto.
  - apply dots_bind; [apply dots_message|]. auto.
  - apply dots_bind; [apply dots_enum|]. auto.
Qed.
Lemma to_dots l s : dotted_keys (reg s) -> dotted_keys (reg (fst (pr_to l s))).
Proof.
  intros D. unfold pr_to, pr_parse. set (ns := match first_package l with Some p => _ | None => _ end).
  pose proof (dots_elements (top_of ns) l None (reg s) D) as K. destruct (pr_elements _ _ _ _) as [R [[t|]|e]]; cbn [fst snd] in *.
  - destruct ns; exact K.
  - exact K.
  - exact K.
Qed.
Lemma reached_dots s : reached s -> dotted_keys (reg s).
Proof. induction 1; [intros a I; now left|now apply to_dots]. Qed.
Lemma dot_not_dotted a : ~ dotted_name ("." ++ a).
Proof.
  intros ([|x l] & L & F & E); [cbn in L; lia|]. inversion F as [|? ? I _]; subst. destruct x as [|c x]; [exact I|].
  destruct l; cbn in E; injection E as <- _; destruct I as [I _]; vm_compute in I; intuition discriminate.
Qed.
Lemma dot_key R a : dotted_keys R -> ~ In ("." ++ a)%string (dkeys R).
Proof.
  intros D I. destruct (D _ I) as [B|B]; [|now apply dot_not_dotted in B]. clear D I. cbn in B. repeat destruct B as [B|B]; try discriminate. exact B.
Qed.

(** ** What is written out is in the registry *)
Definition keyed (R : registry) (t : rtype) : Prop := forall a, written_out t a -> In a (dkeys R).
Definition keyed_below (R : registry) (t : rtype) : Prop := Forall (keyed R) (children t).
Section Keyed.
  Variables (prox : marks -> rtype -> res (rtype * marks)) (R : registry).
  Hypothesis SR : solid_reg R.
  Hypothesis GR : good_reg R.
  Hypothesis PC : forall s t r, prox s t = Ok r -> get_c (fst r) = get_c t.
  Hypothesis PT : forall s t r, is_proxy t = false -> solid t -> good R t -> prox s t = Ok r -> keyed_below R (fst r).
  Lemma keyed_parent t : keyed_below R t -> (forall a, is_proxy t = false -> aliased t a -> In a (dkeys R)) -> keyed R t.
  Proof.
    intros K T a (u & N & P & A). inversion N as [|t' x I N']; subst; [auto|]. unfold keyed_below in K. rewrite Forall_forall in K.
    apply (K x I). exists u. auto.
  Qed.
  Lemma keyed_enter kids s t r : inner t -> good R t -> (forall s r, kids s t = Ok r -> get_c (fst r) = get_c t) ->
    (forall s r, is_proxy t = false -> kids s t = Ok r -> keyed_below R (fst r)) ->
    px_enter kids prox R s t = Ok r -> keyed R (fst r).
  Proof.
    intros [S A] G KC K H. rewrite px_enter_eq in H. apply rbind_Ok in H as (q & H & E). injection E as <-. cbn [fst snd].
    destruct (is_proxy t) eqn:P.
    - destruct t as [| | | | | | | | | | |c o]; try discriminate. unfold px_step in H. destruct (c_alias c) as [| | | |a| |] eqn:CA; try discriminate.
      destruct (str_in a (fst s) || str_in a (snd s)) eqn:M.
      + injection H as <-. cbn [fst]. intros b (u & N & PU & _). inversion N as [|t' x I _]; subst; [discriminate|destruct I].
      + apply rbind_Ok in H as (t0 & RS & H). pose proof RS as RS'. apply (resolve_solid _ _ _ _ SR S) in RS' as [[P0 _] S0]. cbv zeta in H.
        cbn [resolve] in RS. rewrite CA in RS. apply rbind_Ok in RS as (u & FA & RS).
        assert (PO : part_of (proxy_reg R o) R) by (inversion G; subst; cbn; [discriminate|intros ? ? X; exact X|auto]).
        assert (B : bare c) by (inversion G; subst; [discriminate|auto|auto]).
        unfold from_alias in FA. destruct (dget a (proxy_reg R o)) as [u'|] eqn:D; [|discriminate]. injection FA as ->.
        pose proof (PO _ _ D) as D'. destruct (GR _ _ D') as (GU & PU & NU). apply set_attrs_bare in RS; auto.
        pose proof (PC _ _ _ H) as C. rewrite set_c_common in C.
        apply PT in H; [|now rewrite is_proxy_set_c|now apply solid_set_c|].
        * apply keyed_parent; auto. intros b _ AB. unfold aliased in AB. rewrite C in AB. cbn in AB. injection AB as <-.
          eapply dget_In in D'. now apply (List.in_map fst) in D'.
        * apply good_set_c; auto. rewrite RS. apply good_set_c; [now rewrite (proj2 (freeze_common _ _))|]. now apply good_freeze.
    - assert (K' : (s' <- see t s ;; kids s' t)%res = Ok q) by (unfold px_step in H; destruct t; try exact H; discriminate).
      unfold see in K'. rewrite (A eq_refl) in K'. cbn [rbind] in K'. apply keyed_parent; [eapply K; eauto|].
      intros a _ AA. unfold aliased in AA. rewrite (KC _ _ K'), (A eq_refl) in AA. discriminate.
  Qed.
  Lemma keyed_all enter l : (forall x s r, In x l -> enter s x = Ok r -> keyed R (fst r)) ->
    forall s r, px_all enter l s = Ok r -> Forall (keyed R) (fst r).
  Proof.
    induction l as [|x l IH]; intros H s r K; [injection K as <-; constructor|]. rewrite px_all_cons in K.
    apply rbind_Ok in K as (q & K1 & K). apply rbind_Ok in K as (q2 & K2 & K). injection K as <-. cbn [fst snd]. constructor.
    - apply (H x s q); auto. now left.
    - apply (IH (fun y s' r' I => H y s' r' (or_intror I)) _ _ K2).
  Qed.
  Lemma keyed_kids : forall t s r, is_proxy t = false -> solid t -> good R t -> px_kids prox R s t = Ok r -> keyed_below R (fst r).
  Proof.
    intros t. induction t as [t IH] using parts_ind. intros s r P S G H.
    apply solid_kids in S. apply good_kids in G. rewrite Forall_forall in S, G.
    assert (EN : forall x s r, In x (children t) -> px_enter (px_kids prox R) prox R s x = Ok r -> keyed R (fst r)).
    { intros x s0 r0 I K. eapply keyed_enter; [apply (S x I)|apply (G x I)|intros ? ? KK; eapply ProtoData.kids_common; eauto| |exact K].
      intros s1 r1 P1 K1. eapply IH; eauto. apply (S x I). }
    unfold keyed_below. rewrite px_kids_eq in H. cbv zeta in H. destruct t as [| | | | | |c v l va|c k v|c fs| |c ts|c o]; cbn [children] in *;
      try (injection H as <-; constructor).
    - apply rbind_Ok in H as (q & K & H). injection H as <-. cbn [fst children]. constructor; [|constructor]. eapply EN; eauto. now left.
    - apply rbind_Ok in H as (q & K & H). apply rbind_Ok in H as (q2 & K2 & H). injection H as <-. cbn [fst snd children].
      repeat constructor; eapply EN; eauto; cbn; auto.
    - apply rbind_Ok in H as (q & K & H). injection H as <-. cbn [fst snd children]. eapply keyed_all; eauto.
    - apply rbind_Ok in H as (q & K & H). injection H as <-. cbn [fst snd children]. eapply keyed_all; eauto.
  Qed.
End Keyed.
Lemma keyed_px n R : solid_reg R -> good_reg R -> forall t s r, is_proxy t = false -> solid t -> good R t -> px_f n R s t = Ok r -> keyed_below R (fst r).
Proof.
  intros SR GR. induction n as [|n IH]; intros t s r P S G H; cbn [px_f] in H.
  - eapply keyed_kids; eauto; discriminate.
  - eapply keyed_kids; eauto. intros; eapply ProtoData.fuel_common; eauto.
Qed.

Lemma answer_keyed l s t a : reached s -> snd (pr_to l s) = Ok t -> written_out t a -> In a (dkeys (reg (fst (pr_to l s)))) \/ aliased t a.
Proof.
  intros RS H (w & N & PW & AW). inversion N as [|t0 x I N']; subst; [auto|]. left.
  pose proof (reached_solid _ RS) as SR0. pose proof (reached_good _ RS) as GR0.
  destruct (parse_solid l s SR0) as [SR O]. destruct (parse_sound l s GR0) as [GR W].
  unfold pr_to in *. destruct (pr_parse l s) as [s' [u|e]]; cbn [fst snd] in *; [|discriminate].
  destruct (O u eq_refl) as ([P _] & S & root & A). destruct (W u eq_refl) as [W1 _].
  apply rbind_Ok in H as (t' & V & H).
  unfold pr_resolve in V. cbv zeta in V. apply rbind_Ok in V as (r & V & E). injection E as <-. rewrite px_enter_eq in V.
  apply rbind_Ok in V as (q & V & E). injection E as <-. cbn [fst] in H.
  assert (K : (s1 <- see u ([], []) ;; px_f (Datatypes.S (Nat.max (rdepth u) (reg_depth (reg s')))) (reg s') s1 u)%res = Ok q)
    by (unfold px_step in V; destruct u; try exact V; discriminate).
  apply rbind_Ok in K as (s1 & _ & K). apply keyed_px in K; auto; [|now apply raw_good].
  assert (EQ : fst q = t) by (destruct (fst q); try discriminate; now injection H as <-).
  rewrite EQ in K. unfold keyed_below in K. rewrite Forall_forall in K. apply (K x I). exists w. auto.
Qed.

(** ** References with a leading dot *)
Lemma mention_node p e y ty : field_reads p e y -> In ty (mentions e) -> ~ In ty proto_scalars -> ~ dotless ty ->
  exists u, node_of u y /\ aliased u ty.
Proof.
  intros F M NS ND.
  assert (T : forall x, type_reads p ty x -> aliased x ty).
  { intros x [[I _]|(_ & a & R & A)]; [contradiction|]. destruct R as [[D _]|[_ ->]]; [contradiction|exact A]. }
  assert (VR : forall c x, value_reads p ty c x -> exists u, node_of u x /\ aliased u ty).
  { intros c x V. assert (D : type_reads p ty x -> exists u, node_of u x /\ aliased u ty) by (intros K; exists x; split; [constructor|auto]).
    destruct c as [[| |]|]; cbn in V; auto. destruct V as (k & v & l & va & -> & V). exists v. split; auto.
    econstructor; [|constructor]. now left. }
  destruct e as [n i ty' c|n i k v|n l|n l|n v|]; cbn in M; try contradiction; cbn [field_reads] in F.
  - destruct M as [<-|[]]. destruct F as (_ & [(-> & V)|(_ & _ & [(-> & _)|(k & x & -> & V)])]).
    + eapply VR; eauto.
    + exfalso. apply NS. cbn. tauto.
    + destruct (VR _ _ V) as (u & N & A). exists u. split; auto. econstructor; [|exact N]. cbn. auto.
  - destruct F as (_ & _ & k0 & k' & x & y0 & -> & K & V). destruct M as [<-|[<-|[]]].
    + exists x. split; auto. econstructor; [right; left; reflexivity|]. econstructor; [left; reflexivity|constructor].
    + exists y0. split; auto. econstructor; [right; left; reflexivity|]. econstructor; [right; left; reflexivity|constructor].
  - destruct F as (_ & _ & k & ts & -> & F). apply in_flat_map in M as (x & I & M).
    assert (I' : In x (filter (fun e => match e with EField _ _ _ _ => true | _ => false end) l)) by (apply filter_In; split; auto; now destruct x).
    destruct x as [m j ty' c| | | | |]; try contradiction. destruct M as [->|[]].
    assert (L : forall l1 l2, Forall2 (fun e x => match e with EField m _ ty _ => has_name x m /\ type_reads p ty x | _ => False end) l1 l2 ->
      In (EField m j ty c) l1 -> exists x, In x l2 /\ type_reads p ty x).
    { induction 1 as [|a b l1 l2 E1 _ IH]; [intros []|]. intros [J|J]; [subst; destruct E1; exists b; cbn; auto|]. destruct (IH J) as (z & Z1 & Z2). exists z. cbn. auto. }
    destruct (L _ _ F I') as (x & IX & TX). exists x. split; auto. econstructor; [right; exact IX|constructor].
Qed.
Lemma dot_scalar a : ~ In ("." ++ a)%string proto_scalars.
Proof. cbn. intuition discriminate. Qed.
(** A file whose first message mentions a full name with a leading dot is never read. *)
Theorem leading_dot l p s n els e a t : reached s -> first_package l = Some p -> first_message (body l) = Some (n, els) ->
  In e els -> In ("." ++ a)%string (mentions e) -> snd (pr_to l s) <> Ok t.
Proof.
  intros RS P FM IE M H. destruct (first_message_read _ _ _ _ P H) as (n' & els' & c & fs & FM' & -> & AT & F).
  rewrite FM in FM'. injection FM' as <- <-.
  assert (IF : In e (filter is_member els)) by (apply filter_In; split; auto; destruct e; cbn in M; try contradiction; reflexivity).
  assert (L : forall l1 l2, Forall2 (field_reads p) l1 l2 -> In e l1 -> exists y, In y l2 /\ field_reads p e y).
  { induction 1 as [|x y' l1 l2 E1 _ IH]; [intros []|]. intros [J|J]; [subst; exists y'; cbn; auto|]. destruct (IH J) as (z & Z1 & Z2). exists z. cbn. auto. }
  destruct (L _ _ F IF) as (y & IY & FR).
  destruct (mention_node _ _ _ _ FR M (dot_scalar a)) as (u & N & A).
  { intros D. apply (D "" a). reflexivity. }
  assert (NT : node_of u (TStruct c fs)) by (econstructor; eauto).
  assert (W : written_out (TStruct c fs) ("." ++ a)).
  { destruct (is_proxy u) eqn:PU; [|exists u; auto]. destruct u as [| | | | | | | | | | |cu o]; try discriminate.
    destruct (nothing_missing _ _ _ RS H _ _ NT) as (b & B & W). unfold aliased in A. cbn in A. rewrite A in B. injection B as <-. exact W. }
  pose proof (to_dots l s (reached_dots _ RS)) as DK.
  destruct (answer_keyed _ _ _ _ RS H W) as [I|I]; [now apply dot_key in I|].
  unfold aliased in AT, I. rewrite AT in I. injection I as E.
  apply (dot_key _ a DK). change (String "." a) with ("." ++ a)%string in E. rewrite <- E. unfold pr_to in *. rewrite (parse_packaged _ _ s P) in *.
  destruct (pr_elements (Some p) l None (reg s)) as [R [[w|]|ex]] eqn:PE; cbn [fst snd reg] in *; try discriminate.
  apply elements_added in PE as (KE & _ & _). rewrite KE. apply in_or_app. right. apply first_in in FM.
  eapply Permutation_in; [symmetry; apply declarations_names|]. apply (List.in_map (fun n => p ++ "." ++ n)%string).
  apply in_flat_map. exists (EMessage n els). split; auto. now left.
Qed.

(** ** The message of the struct itself *)
Lemma app_inj_l (p a b : string) : (p ++ a)%string = (p ++ b)%string -> a = b.
Proof. induction p as [|c p IH]; cbn; auto. intros [= E]. auto. Qed.
Lemma dot_inj (p a b : string) : (p ++ "." ++ a)%string = (p ++ "." ++ b)%string -> a = b.
Proof. intros E. apply app_inj_l in E. now injection E. Qed.
Lemma first_unique l n m m' : NoDup (flat_map declared_in l) -> first_message l = Some (n, m) -> In (EMessage n m') l -> m' = m.
Proof.
  induction l as [|x l IH]; intros ND F I; [destruct I|]. cbn [flat_map] in ND.
  destruct I as [->|I]; [cbn in F; now injection F|].
  destruct x as [?|?|?|n0 m0|?|]; cbn [first_message] in F; try (apply IH; auto; fail); [|apply IH; auto; now inversion ND].
  injection F as -> ->. cbn [declared_in app] in ND. inversion ND as [|? ? NI _]; subst. exfalso. apply NI. apply in_or_app. right.
  apply in_flat_map. exists (EMessage n m'). split; auto. now left.
Qed.
Lemma own_message c fs p n f : c_alias c = PStr (p ++ "." ++ n)%string -> dotless n -> pr_from (TStruct c fs) = Ok f -> first_package f = Some p ->
  exists ed rest, write_fields fs 1 = Ok ed /\ In (EMessage n (fst ed ++ rest)) (body f).
Proof.
  intros A L H P. apply pr_from_inv in H as (D & p' & G & _ & _ & ->). injection P as ->. rewrite body_file.
  rewrite gather_struct, A, dot_in, rsplit_app in G by auto. apply rbind_Ok in G as (ed & W & E). injection E as E.
  assert (M : In (p, EMessage n (fst ed)) D) by (subst D; apply in_or_app; right; now left).
  pose proof (bound_package _ _ _ M) as B. destruct (name_bound D) as [|fuel] eqn:NB; [lia|].
  pose proof (construct_In fuel D 1 p _ M) as C. cbn beta iota in C. eauto.
Qed.
Lemma named_not_null u : named_type u -> nulls u = false.
Proof. now destruct u. Qed.
Lemma named_scalar u : named_type u -> scalar u.
Proof. now destruct u. Qed.
Lemma at_hand_scalar u x : scalar x -> at_hand u x -> named_type u -> u = x.
Proof. intros S H N. inversion H as [|t y NS I K]; subst; auto. destruct x; try contradiction. now destruct (NS c fields). Qed.
Lemma named_writes u ty : named_type u -> scalar_writes u ty -> exists a, ty = ("." ++ a)%string.
Proof. intros N W. destruct W; try contradiction; eauto. Qed.
Lemma just_only c ts x y : just (TUnion c ts) x -> In y ts -> nulls y = false -> y = x.
Proof.
  intros (c' & ts' & [= <- <-] & E) I N. assert (J : In y (filter (fun y => negb (nulls y)) ts)) by (apply filter_In; rewrite N; auto).
  rewrite E in J. now destruct J as [<-|[]].
Qed.
Lemma refers_mentions x e : simple_field x -> field_writes x e -> refers_to_type x -> exists a, In ("." ++ a)%string (mentions e).
Proof.
  intros SF W (u & H & N). pose proof (named_not_null _ N) as NN.
  destruct W as [t nm n ty S W|c v l va nm n ty W|c k v nm n kt vt WK WV|t z nm n ty J W|c ts nm els C F].
  - apply at_hand_scalar in H; auto. subst u. destruct (named_writes _ _ N W) as [a ->]. exists a. now left.
  - inversion H as [|t y _ I K]; subst; [contradiction|]. destruct I as [<-|[]]. apply at_hand_scalar in K; auto; [|apply SF]. subst u.
    destruct (named_writes _ _ N W) as [a ->]. exists a. now left.
  - inversion H as [|t y _ I K]; subst; [contradiction|]. destruct SF as [[SK _] [SV _]].
    destruct I as [<-|[<-|[]]]; apply at_hand_scalar in K; auto; subst u.
    + destruct (named_writes _ _ N WK) as [a ->]. exists a. now left.
    + destruct (named_writes _ _ N WV) as [a ->]. exists a. right. now left.
  - pose proof J as (c & ts & -> & E). inversion H as [|t y _ I K]; subst; [contradiction|]. cbn [simple_field children] in *.
    rewrite Forall_forall in SF. destruct (SF y I) as [NY|[SY _]].
    + destruct y; try discriminate. inversion K as [|? ? ? I' _]; subst; [contradiction|destruct I'].
    + apply at_hand_scalar in K; auto. subst u. apply (just_only _ _ _ _ J) in I; auto. subst y. destruct (named_writes _ _ N W) as [a ->]. exists a. now left.
  - inversion H as [|t y _ I K]; subst; [contradiction|]. cbn [simple_field children] in *.
    rewrite Forall_forall in SF. destruct (SF y I) as [NY|[SY _]].
    + destruct y; try discriminate. inversion K as [|? ? ? I' _]; subst; [contradiction|destruct I'].
    + apply at_hand_scalar in K; auto. subst u.
      assert (I' : In y (filter (fun y => negb (nulls y)) ts)) by (apply filter_In; rewrite NN; auto).
      clear - F I' N. induction F as [|x e l l' (nm' & n & ty & -> & W) F IH]; [destruct I'|]. destruct I' as [->|I'].
      * destruct (named_writes _ _ N W) as [a ->]. exists a. now left.
      * destruct (IH I') as [a M]. exists a. cbn in *. auto.
Qed.

(** C122, the false part: the struct that is read back is another one. *)
Theorem references_lost c fs p n f s t : reached s -> c_alias c = PStr (p ++ "." ++ n)%string -> dotless n ->
  pr_from (TStruct c fs) = Ok f -> first_package f = Some p -> Forall simple_field fs -> Exists refers_to_type fs ->
  snd (pr_to f s) = Ok t -> ~ aliased t (p ++ "." ++ n).
Proof.
  intros RS A L HF P SF EX H AT. destruct (own_message _ _ _ _ _ A L HF P) as (ed & rest & W & M).
  destruct (first_message_read _ _ _ _ P H) as (n' & els & c' & fs' & FM & -> & AT' & _).
  unfold aliased in AT, AT'. rewrite AT in AT'. injection AT' as E. apply dot_inj in E. subst n'.
  destruct (names_once _ _ _ _ P H) as [ND _]. unfold full_names in ND. apply NoDup_map_inv in ND.
  pose proof (first_unique _ _ _ _ ND FM M) as E. subst els.
  apply fields_written in W. apply Exists_exists in EX as (x & IX & RX). rewrite Forall_forall in SF.
  assert (K : exists e, In e (fst ed) /\ written x e).
  { clear - W IX. induction W as [|a b l l' E _ IH]; [destruct IX|]. destruct IX as [->|I]; [exists b; cbn; auto|]. destruct (IH I) as (e & ? & ?). exists e. cbn. auto. }
  destruct K as (e & IE & WE). apply (field_mean _ _ (SF x IX)) in WE. destruct (refers_mentions _ _ (SF x IX) WE RX) as [a MA].
  eapply (leading_dot f p s n _ e a); eauto. apply in_or_app. now left.
Qed.

(** ** Structs without references *)
Lemma gather_flat x : forall d, ~ refers_to_type x -> pr_gather x = Ok d -> d = [].
Proof.
  induction x as [x IH] using parts_ind. intros d NR G.
  assert (NC : (forall c fs, x <> TStruct c fs) -> forall y, In y (children x) -> ~ refers_to_type y).
  { intros NS y I (u & H & N). apply NR. exists u. split; auto. eapply hand_child; eauto. }
  destruct x as [| | | | | |c v l va|c k v|c fs|c l|c ts|c o]; cbn [pr_gather] in G; try (injection G as <-; reflexivity).
  - apply (IH v); auto; [now left|]. apply NC; [discriminate|now left].
  - apply rbind_Ok in G as (d1 & G1 & G). apply rbind_Ok in G as (d2 & G2 & G). injection G as <-.
    rewrite (IH k (or_introl eq_refl) d1), (IH v (or_intror (or_introl eq_refl)) d2); auto; (apply NC; [discriminate|cbn; auto]).
  - exfalso. apply NR. exists (TStruct c fs). split; [constructor|exact Logic.I].
  - exfalso. apply NR. exists (TEnum c l). split; [constructor|exact Logic.I].
  - change (gather_all ts = Ok d) in G. cbn [children] in *. assert (NT : forall y, In y ts -> ~ refers_to_type y) by (apply NC; discriminate). clear NC NR.
    revert d G. induction ts as [|y ts IHt]; intros d G; [now injection G as <-|]. cbn [gather_all] in G.
    apply rbind_Ok in G as (d1 & G1 & G). apply rbind_Ok in G as (d2 & G2 & G). injection G as <-.
    rewrite (IH y (or_introl eq_refl) d1); auto; [|apply NT; now left]. apply IHt; auto.
    + intros z I. apply IH. now right.
    + intros z I. apply NT. now right.
Qed.
Lemma fields_flat fs : Forall (fun x => ~ refers_to_type x) fs -> forall i ed, write_fields fs i = Ok ed -> snd ed = [].
Proof.
  induction 1 as [|x fs N _ IH]; intros i ed W; cbn [write_fields] in W; [now injection W as <-|].
  apply rbind_Ok in W as (e & _ & W). apply rbind_Ok in W as (d & G & W). apply rbind_Ok in W as (ed' & W' & W). injection W as <-. cbn [snd].
  rewrite (gather_flat _ _ N G). eapply IH; eauto.
Qed.
Lemma not_longer (p n : string) : String.eqb p (p ++ "." ++ n) = false.
Proof. apply String.eqb_neq. intros E. apply (f_equal String.length) in E. rewrite length_app_s in E. cbn in E. lia. Qed.
Lemma flat_file c fs p n f : c_alias c = PStr (p ++ "." ++ n)%string -> dotless n -> Forall (fun x => ~ refers_to_type x) fs ->
  pr_from (TStruct c fs) = Ok f -> exists m, Forall2 written fs m /\ f = [FPackage p; FElement (EMessage n m)].
Proof.
  intros A L NR H. apply pr_from_inv in H as (D & p' & G & MN & _ & ->).
  rewrite gather_struct, A, dot_in, rsplit_app in G by auto. apply rbind_Ok in G as (ed & W & E). injection E as E.
  rewrite (fields_flat _ NR _ _ W) in E. cbn [app] in E. subst D. cbn in MN. injection MN as <-. exists (fst ed).
  split; [eapply fields_written; eauto|]. unfold name_bound. cbn [fold_right fst]. rewrite Nat.max_0_r. cbn [pr_construct in_package filter map fst snd].
  rewrite String.eqb_refl. cbn [map snd]. do 3 f_equal. cbn [repeat concat filter is_message length]. rewrite String.eqb_refl. cbn [length].
  destruct (String.length p); cbn [pr_construct]; [now rewrite !app_nil_r|]. unfold in_package. cbn [filter map fst]. rewrite not_longer. cbn. now rewrite app_nil_r.
Qed.
Lemma range_scalar ty r : proto_range ty = Some r -> In ty proto_scalars.
Proof.
  unfold proto_range. cbv zeta. intros H.
  assert (K : forall l, existsb (String.eqb ty) l = true -> incl l proto_scalars -> In ty proto_scalars).
  { intros l E I. apply existsb_exists in E as (x & J & E). apply String.eqb_eq in E. subst. auto. }
  repeat match type of H with (if existsb _ ?l then _ else _) = _ => destruct (existsb _ l) eqn:?; [eapply K; eauto; intros z J; cbn in J; cbn; tauto|] end.
  discriminate.
Qed.
Lemma writes_scalar u ty : ~ named_type u -> scalar_writes u ty -> In ty proto_scalars.
Proof.
  intros N W. destruct W; try (cbn; tauto); try (elim N; exact Logic.I). eapply range_scalar; eauto.
Qed.
Lemma flat_mentions x e : simple_field x -> field_writes x e -> ~ refers_to_type x ->
  is_member e = true /\ forall ty, In ty (mentions e) -> In ty proto_scalars.
Proof.
  intros SF W NR.
  assert (NN : forall u, at_hand u x -> ~ named_type u) by (intros u H N; apply NR; exists u; auto).
  destruct W as [t nm n ty S W|c v l va nm n ty W|c k v nm n kt vt WK WV|t z nm n ty J W|c ts nm els C F]; (split; [reflexivity|]); intros t' M; cbn in M.
  - destruct M as [<-|[]]. eapply writes_scalar; eauto. apply NN. constructor.
  - destruct M as [<-|[]]. eapply writes_scalar; eauto. apply NN. eapply hand_child; [discriminate|left; reflexivity|constructor].
  - destruct M as [<-|[<-|[]]]; (eapply writes_scalar; [|eassumption]); apply NN; (eapply hand_child; [discriminate| |constructor]); cbn; auto.
  - destruct M as [<-|[]]. eapply writes_scalar; eauto. apply NN. destruct J as (c & ts & -> & E). eapply hand_child; [discriminate| |constructor].
    assert (I : In z (filter (fun y => negb (nulls y)) ts)) by (rewrite E; now left). now apply filter_In in I.
  - assert (K : forall y, In y (filter (fun y => negb (nulls y)) ts) -> ~ named_type y).
    { intros y I. apply filter_In in I as [I _]. apply NN. eapply hand_child; [discriminate|exact I|constructor]. }
    clear - F K M. induction F as [|x e l l' (nm' & n & ty & -> & W) F IH]; [destruct M|]. cbn in M. destruct M as [<-|M].
    + eapply writes_scalar; eauto. apply K. now left.
    + apply IH; auto. intros y I. apply K. now right.
Qed.
Lemma scalar_ref p ty : In ty proto_scalars -> ref_of p ty = [].
Proof.
  intros I. unfold ref_of. replace (existsb (String.eqb ty) proto_scalars) with true; [reflexivity|]. symmetry.
  apply existsb_exists. exists ty. split; auto. apply String.eqb_refl.
Qed.
Lemma flat_refs p m : (forall e ty, In e m -> In ty (mentions e) -> In ty proto_scalars) -> refs_of p m = [].
Proof.
  induction m as [|e m IH]; intros H; [reflexivity|]. unfold refs_of. cbn [flat_map]. fold (refs_of p m). rewrite IH; [|intros; eapply H; eauto; now right].
  rewrite app_nil_r. specialize (H e). assert (H' : forall ty, In ty (mentions e) -> In ty proto_scalars) by (intros; apply H; auto; now left). clear H.
  destruct e as [n i ty c|n i k v|n l|n l|n v|]; auto; cbn [mentions] in H'.
  - apply scalar_ref, H'. now left.
  - rewrite !scalar_ref; auto; apply H'; cbn; auto.
  - induction l as [|x l IHl]; [reflexivity|]. cbn [flat_map] in *. rewrite IHl; [|intros; apply H', in_or_app; auto]. rewrite app_nil_r.
    destruct x; auto. apply scalar_ref, H'. now left.
Qed.
Lemma key_written x e : good_key x -> simple_field x -> field_writes x e -> good_keys e.
Proof.
  intros G SF W. destruct W as [| |c k v nm n kt vt WK WV| |]; try exact Logic.I. cbn in *. destruct k; try contradiction; inversion WK; subst; auto.
  right. congruence.
Qed.
Section Flat.
  Variables (p n : string) (m : list element).
  Hypothesis ME : forall e, In e m -> is_member e = true.
  Hypothesis MS : forall e ty, In e m -> In ty (mentions e) -> In ty proto_scalars.
  Let l : list felement := [FPackage p; FElement (EMessage n m)].
  Lemma flat_scope q els : scope p (body l) q els -> (q = p /\ els = [EMessage n m]) \/ els = m.
  Proof.
    cbn [l body flat_map app]. intros S. induction S as [|q els n' m' S IH I]; [auto|]. right. destruct IH as [[-> ->]| ->].
    - destruct I as [I|[]]. congruence.
    - apply ME in I. discriminate.
  Qed.
  Lemma flat_simply : simply_named p (body l).
  Proof. intros q els e ty S NQ I M NS. apply flat_scope in S as [[-> _]| ->]; [contradiction|]. elim NS. eapply MS; eauto. Qed.
  Lemma flat_declared a n' e : declared_as p (body l) a n' e -> a = (p ++ "." ++ n)%string /\ e = EMessage n m.
  Proof.
    intros (q & els & S & I & -> & K). apply flat_scope in S as [[-> ->]| ->].
    - destruct I as [<-|[]]. destruct K as [(m' & E)|(vs & E)]; [|discriminate]. injection E as <- <-. auto.
    - apply ME in I. destruct K as [(m' & ->)|(vs & ->)]; discriminate.
  Qed.
  Lemma flat_members : flat_map declared_in m = [] /\ flat_map (declarations p) m = [].
  Proof.
    clear MS l. induction m as [|e r IH]; [split; reflexivity|]. assert (E : is_member e = true) by (apply ME; now left).
    destruct IH as [I1 I2]; [intros; apply ME; now right|]. destruct e; try discriminate; cbn [flat_map declared_in declarations app]; auto.
  Qed.
End Flat.
Theorem flat_back c fs p n f s : reached s -> c_alias c = PStr (p ++ "." ++ n)%string -> dotless n -> dotted_name (p ++ "." ++ n) ->
  pr_from (TStruct c fs) = Ok f -> expressible p (TStruct c fs) -> names_in_place (TStruct c fs) ->
  Forall good_key fs -> Forall (fun x => ~ refers_to_type x) fs -> ~ In (p ++ "." ++ n)%string (dkeys (reg s)) ->
  exists t, snd (pr_to f s) = Ok t /\ aliased t (p ++ "." ++ n) /\
    forall v, holds (named_in (TStruct c fs)) (TStruct c fs) v ->
      holds (fun a u => dget a (reg (fst (pr_to f s))) = Some u) t v.
Proof.
  intros RS A L DN HF X NP GK NR NI. destruct (flat_file _ _ _ _ _ A L NR HF) as (m & W & E). 
  assert (FW : forall e, In e m -> is_member e = true /\ good_keys e /\ forall ty, In ty (mentions e) -> In ty proto_scalars).
  { assert (SF : Forall simple_field fs).
    { apply Forall_forall. intros x I. apply (xp_fields _ _ X). exists c, fs. split; [constructor|exact I]. }
    clear - W SF GK NR. induction W as [|x e fs m WE W IH]; [intros e []|]. inversion SF; inversion GK; inversion NR; subst.
    intros e' [<-|I]; [|now apply IH]. apply field_mean in WE; auto. destruct (flat_mentions x e) as [M1 M2]; auto. split; auto. split; auto. eapply key_written; eauto. }
  assert (ME : forall e, In e m -> is_member e = true) by (intros e I; now apply FW).
  assert (MS : forall e ty, In e m -> In ty (mentions e) -> In ty proto_scalars) by (intros e ty I; now apply (FW e I)).
  assert (FP : first_package f = Some p) by now subst f.
  assert (FM : first_message (body f) = Some (n, m)) by now subst f.
  assert (FN : full_names p f = [(p ++ "." ++ n)%string]).
  { subst f. unfold full_names. cbn [body flat_map declared_in app]. now rewrite (proj1 (flat_members p m ME)). }
  assert (DC : flat_map (declarations p) (body f) = [((p ++ "." ++ n)%string, [])]).
  { subst f. cbn [body flat_map declarations app]. rewrite (proj2 (flat_members p m ME)), (flat_refs _ _ MS). reflexivity. }
  destruct (references_found f p n m s RS FP FM) as [t T].
  - subst f. cbn [body flat_map app]. constructor; [|constructor]. cbn [good_keys]. clear - FW.
    induction m as [|e r IH]; cbn [fold_right]; [exact Logic.I|]. split; [apply FW; now left|]. apply IH. intros; apply FW; now right.
  - rewrite FN. constructor; [intros []|constructor].
  - rewrite FN. constructor; [exact DN|constructor].
  - rewrite FN. intros a [<-|[]]. exact NI.
  - intros k refs a I J. rewrite DC in I. destruct I as [I|[]]. injection I as <- <-. destruct J.
  - rewrite DC. cbn. auto.
  - exists t. split; [exact T|]. destruct (first_message_read _ _ _ _ FP T) as (n' & els & c' & fs' & FM' & _ & AT & _).
    rewrite FM in FM'. injection FM' as <- <-. split; [exact AT|]. intros v H.
    apply (values_written (fun z => proto_instant z /\ int_range 64 true z) c fs _ f p v A HF FP X NP) in H.
    eapply messages_are_values; eauto; [subst f; now apply flat_simply|].
    subst f. inversion H as [? ? SD|? a n' m' r NS NM DA FS|? a n' vs z k NS NM DA IV]; subst.
    + inversion SD as [? ? ? ? PR| | | | | | |]; subst. apply range_scalar in PR. now apply dot_scalar in PR.
    + apply flat_declared in DA as [-> E]; auto. injection E as -> ->. exists n, m, r. auto.
    + apply flat_declared in DA as [-> E]; auto. discriminate.
Qed.
