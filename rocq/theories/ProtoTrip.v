(** Writing a type that was read from a proto file. *)
From Coq Require Import String Ascii List NArith ZArith QArith Bool Lia.
From Verif Require Import PyVal PyValFacts RType Registry RegistryFacts Regex FromDict RoundTrip Url Avro SpecAvro AvroProps JsonSchema SpecTypes SpecJson JsonProps DbapiFacts Proto SpecProto ProtoWrite ProtoRead ProtoFrame ProtoShape.
Import ListNotations.
Open Scope nat_scope.
Open Scope string_scope.
Open Scope list_scope.

Definition dotted (a : string) : Prop := substr_in "." a = true.
(** Scalars that can be written. *)
Definition light (t : rtype) : Prop :=
  match t with
  | TNull _ | TBool _ => True
  | TInt _ (PInt b) (PBool _) | TFloat _ (PInt b) => (b <= 64)%Z
  | _ => False
  end.
Definition flat (t : rtype) : Prop := match t with TUnion _ _ => False | _ => True end.

Section Package.
  Variable p : string.
  Definition own (a : string) : Prop := exists n, a = (p ++ "." ++ n)%string /\ dotless n.

  (** Types of fields before resolution, and entries of the registry. *)
  Inductive fine : rtype -> Prop :=
  | fine_light t : light t -> fine t
  | fine_list c v l va : fine v -> flat v -> fine (TList c v l va)
  | fine_union c ts : Forall fine ts -> Forall flat ts -> fine (TUnion c ts)
  | fine_live c a : c_alias c = PStr a -> dotted a -> ~ In "symbols" (dkeys (c_extra c)) -> fine (TProxy c None)
  | fine_ref c a R : c_alias c = PStr a -> dotted a -> ~ In "symbols" (dkeys (c_extra c)) -> (forall b u, dotted b -> dget b R = Some u -> own b) ->
      (forall b u, dotted b -> dget b R = Some u -> entry u) -> fine (TProxy c (Some R))
  with entry : rtype -> Prop :=
  | entry_struct c fs : Forall fine fs -> entry (TStruct c fs)
  | entry_enum c l : entry (TEnum c (PList l)).
  Definition fine_reg (R : registry) : Prop := forall b u, dotted b -> dget b R = Some u -> own b /\ entry u.

  (** Types after resolution. *)
  Inductive done : rtype -> Prop :=
  | done_light t : light t -> done t
  | done_list c v l va : done v -> flat v -> done (TList c v l va)
  | done_union c ts : Forall done ts -> Forall flat ts -> done (TUnion c ts)
  | done_ref c r a : c_alias c = PStr a -> done (TProxy c r)
  | done_struct c fs a : c_alias c = PStr a -> own a -> Forall done fs -> done (TStruct c fs)
  | done_enum c l a : c_alias c = PStr a -> own a -> done (TEnum c (PList l)).

  Lemma fine_freeze R : fine_reg R -> forall t, (fine t -> fine (freeze R t) /\ (flat t -> flat (freeze R t))).
  Proof.
    intros FR t. induction t as [t IH] using parts_ind. intros F. split; [|now destruct t as [| | | | | | | | | | |c [r|]]].
    destruct F as [t L|c v l va F V|c ts F V|c a A D Y|c a Q A D Y N E].
    - destruct t; try destruct L; try (cbn; now apply fine_light).
    - cbn [freeze]. destruct (IH v (or_introl eq_refl) F) as [F1 F2]. now apply fine_list; auto.
    - cbn [freeze]. cbn [children] in IH. rewrite !Forall_forall in *. apply fine_union; rewrite Forall_map, Forall_forall; intros x I; apply IH; auto.
    - cbn [freeze]. eapply fine_ref; eauto; intros b u Db G; apply (FR b u Db G).
    - cbn [freeze]. eapply fine_ref; eauto.
  Qed.
  Lemma entry_freeze R u : fine_reg R -> entry u -> entry (freeze R u).
  Proof.
    intros FR E. destruct E as [c fs F|c l]; cbn; constructor. rewrite Forall_map, Forall_forall in *. intros x I. now apply fine_freeze; auto.
  Qed.
  Lemma entry_set_c u c : entry u -> entry (set_c u c).
  Proof. destruct 1; cbn; now constructor. Qed.
  Lemma entry_attr u k v w : entry u -> k <> "symbols" -> set_attr u k v = Ok w -> entry w.
  Proof.
    intros E K H. unfold set_attr in H. destruct (opaque_attr u k); [discriminate|].
    repeat (match type of H with (if ?b then _ else _) = _ => destruct b; [first [injection H as <-; now apply entry_set_c | destruct v; try discriminate; injection H as <-; now apply entry_set_c]|] end).
    destruct E; [injection H as <-; cbn; now constructor|].
    destruct (String.eqb_spec k "symbols"); [congruence|]. injection H as <-. cbn. constructor.
  Qed.
  Lemma entry_attrs kvs : forall u w, entry u -> ~ In "symbols" (dkeys kvs) -> set_attrs u kvs = Ok w -> entry w.
  Proof.
    induction kvs as [|[k v] r IH]; intros u w E N H; cbn [set_attrs dkeys map fst In] in *; [now injection H as <-|].
    apply rbind_Ok in H as (x & A & H). eapply IH; [|now auto|exact H]. eapply entry_attr; eauto.
  Qed.

  (** ** Resolution *)
  Section Resolve.
    Variables (prox : marks -> rtype -> res (rtype * marks)) (R : registry).
    Hypothesis FR : fine_reg R.
    Hypothesis HP : forall s u a r, entry u -> c_alias (get_c u) = PStr a -> own a -> prox s u = Ok r -> done (fst r) /\ flat (fst r).
    Lemma enter_done kids t : (forall s r, kids s t = Ok r -> done (fst r) /\ (flat t -> flat (fst r))) -> fine t ->
      forall s r, px_enter kids prox R s t = Ok r -> done (fst r) /\ (flat t -> flat (fst r)).
    Proof.
      intros HK F s r H. rewrite px_enter_eq in H. apply rbind_Ok in H as (q & H & E). injection E as <-. cbn [fst]. unfold px_step in H.
      destruct (is_proxy t) eqn:P.
      - destruct t as [| | | | | | | | | | |c o]; try discriminate.
        assert (Q : exists a, c_alias c = PStr a /\ dotted a /\ ~ In "symbols" (dkeys (c_extra c)) /\ fine_reg (proxy_reg R o)).
        { inversion F as [t L| | |? a A D Y|? a Q A D Y N E]; subst; [destruct L| |]; exists a; (split; [exact A|]); (split; [exact D|]); (split; [exact Y|]); cbn.
          - exact FR.
          - intros b u Db G. split; [now apply (N b u)|now apply (E b u)]. }
        destruct Q as (a & A & D & Y & FO). rewrite A in H. destruct (_ || _); [injection H as <-; cbn; split; [eapply done_ref; eauto|auto]|].
        apply rbind_Ok in H as (u & RS & H). cbv zeta in H. cbn [resolve] in RS. rewrite A in RS. apply rbind_Ok in RS as (u0 & G & RS).
        unfold from_alias in G. destruct (dget a (proxy_reg R o)) as [w|] eqn:GE; [|discriminate]. injection G as ->.
        destruct (FO _ _ D GE) as [OA EA]. 
        assert (Z : done (fst q) /\ flat (fst q)); [|tauto]. refine (HP _ _ a q _ _ OA H); [|now rewrite set_c_common].
        apply entry_set_c. eapply entry_attrs; [|exact Y|exact RS]. now apply entry_freeze.
      - assert (K : (s' <- see t s ;; kids s' t)%res = Ok q) by (destruct t; try exact H; discriminate).
        apply rbind_Ok in K as (s' & _ & K). eapply HK; eauto.
    Qed.
    Lemma all_done enter l : (forall x s r, In x l -> enter s x = Ok r -> done (fst r) /\ (flat x -> flat (fst r))) ->
      forall s r, px_all enter l s = Ok r -> Forall done (fst r) /\ (Forall flat l -> Forall flat (fst r)).
    Proof.
      induction l as [|x l IH]; intros H s r K; [injection K as <-; split; [constructor|auto]|]. rewrite px_all_cons in K.
      apply rbind_Ok in K as (q & K1 & K). apply rbind_Ok in K as (q2 & K2 & K). injection K as <-. cbn [fst].
      destruct (H x s q (or_introl eq_refl) K1) as [D1 F1]. destruct (IH (fun x s r I => H x s r (or_intror I)) _ _ K2) as [D2 F2].
      split; [now constructor|]. intros F. inversion F; subst. constructor; auto.
    Qed.
    Lemma kids_done t : fine t -> forall s r, px_kids prox R s t = Ok r -> done (fst r) /\ (flat t -> flat (fst r)).
    Proof.
      induction t as [t IH] using parts_ind. intros F s r H. rewrite px_kids_eq in H. cbv zeta in H.
      assert (EN : forall x s r, In x (children t) -> fine x -> px_enter (px_kids prox R) prox R s x = Ok r -> done (fst r) /\ (flat x -> flat (fst r))).
      { intros x s0 r0 I Fx. eapply enter_done; eauto. }
      destruct F as [t L|c v l va F V|c ts F V|c a A D Y|c a Q A D Y N E]; cbn [children] in EN.
      - destruct t; try (destruct L; fail); injection H as <-; (split; [now apply done_light|auto]).
      - apply rbind_Ok in H as (q & K & H). injection H as <-. cbn [fst]. destruct (EN v _ _ (or_introl eq_refl) F K) as [D1 F1].
        split; [apply done_list; auto|auto].
      - apply rbind_Ok in H as (q & K & H). injection H as <-. cbn [fst].
        assert (Z : Forall done (fst q) /\ (Forall flat ts -> Forall flat (fst q))).
        { eapply all_done; [|exact K]. rewrite Forall_forall in F. intros x s0 r0 I. apply EN; auto. }
        destruct Z as [Z1 Z2]. split; [apply done_union; auto|auto].
      - injection H as <-. split; [eapply done_ref; eauto|auto].
      - injection H as <-. split; [eapply done_ref; eauto|auto].
    Qed.
    Lemma kids_entry u a s r : entry u -> c_alias (get_c u) = PStr a -> own a -> px_kids prox R s u = Ok r -> done (fst r) /\ flat (fst r).
    Proof.
      intros E A O H. rewrite px_kids_eq in H. cbv zeta in H. destruct E as [c fs F|c l]; cbn [get_c] in A.
      - apply rbind_Ok in H as (q & K & H). injection H as <-. cbn [fst].
        assert (Z : Forall done (fst q) /\ (Forall flat fs -> Forall flat (fst q))).
        { eapply all_done; [|exact K]. rewrite Forall_forall in F. intros x s0 r0 I. apply enter_done; auto. intros. eapply kids_done; eauto. }
        destruct Z as [Z1 _]. split; [eapply done_struct; eauto|exact Logic.I].
      - injection H as <-. split; [eapply done_enum; eauto|exact Logic.I].
    Qed.
  End Resolve.
  Lemma px_done n R : fine_reg R -> forall s u a r, entry u -> c_alias (get_c u) = PStr a -> own a -> px_f n R s u = Ok r -> done (fst r) /\ flat (fst r).
  Proof.
    intros FR. induction n as [|n IH]; intros s u a r E A O H; cbn [px_f] in H.
    - eapply kids_entry; [exact FR| |exact E|exact A|exact O|exact H]. intros. discriminate.
    - eapply kids_entry; [exact FR| |exact E|exact A|exact O|exact H]. exact IH.
  Qed.
  Lemma resolve_done R c fs a t : fine_reg R -> c_alias c = PStr a -> own a -> Forall fine fs ->
    pr_resolve R (TStruct c fs) = Ok t -> done t.
  Proof.
    intros FR A O F H. unfold pr_resolve in H. cbv zeta in H. apply rbind_Ok in H as (r & H & E). injection E as <-. rewrite px_enter_eq in H.
    apply rbind_Ok in H as (q & H & E). injection E as <-. cbn [fst]. unfold px_step in H. apply rbind_Ok in H as (s' & _ & H).
    refine (proj1 (px_done _ R FR s' (TStruct c fs) a q _ A O H)). now constructor.
  Qed.

  (** ** Writing *)
  Lemma light_write t n : light t -> exists ty, pr_write t n = Ok (EField (field_name t n) n ty None).
  Proof.
    destruct t as [c|c|c b s|c b| | | | | | | |]; cbn [light]; try contradiction; try (cbn [pr_write]; eauto; fail).
    - destruct b as [| |b| | | |]; try contradiction. destruct s as [|s| | | | |]; try contradiction. intros L. cbn [pr_write int_of].
      destruct s; (destruct (Z.leb_spec b 32); [eauto|]); (destruct (Z.leb_spec b 64); [eauto|lia]).
    - destruct b as [| |b| | | |]; try contradiction. intros L. cbn [pr_write int_of].
      destruct (Z.leb_spec b 32); [eauto|]. destruct (Z.leb_spec b 64); [eauto|lia].
  Qed.
  Lemma done_write t : done t -> forall n, exists e, pr_write t n = Ok e /\ (flat t -> is_field e = true).
  Proof.
    induction t as [t IH] using parts_ind. intros D n. destruct D as [t L|c v l va D V|c ts D V|c r a A|c fs a A O D|c l a A O].
    - destruct (light_write t n L) as [ty E]. eauto.
    - destruct (IH v (or_introl eq_refl) D n) as (e & E & F). cbn [pr_write]. rewrite E. cbn [rbind]. rewrite (F V).
      eexists. split; [reflexivity|]. intros _. specialize (F V). now destruct e.
    - rewrite write_union.
      assert (W : forall ts' i, incl ts' ts -> exists fs, write_all ts' i = Ok fs /\ length fs = length (others ts') /\ Forall (fun e => is_field e = true) fs).
      { induction ts' as [|x ts' IHt]; intros i I; cbn [write_all others filter]; [exists []; auto|].
        assert (Ix : In x ts) by (apply I; now left). assert (I' : incl ts' ts) by (intros y Y; apply I; now right).
        destruct (is_null x) eqn:N; cbn [negb]; [now apply IHt|]. rewrite Forall_forall in D, V.
        destruct (IH x Ix (D _ Ix) i) as (e & -> & F). cbn [rbind]. destruct (IHt (S i) I') as (fs & -> & L & Fs). cbn [rbind].
        eexists. split; [reflexivity|]. cbn [length]. split; [now f_equal|]. constructor; auto. }
      destruct (W ts n (incl_refl _)) as (fs & -> & L & F). cbn [rbind]. destruct (Nat.eqb_spec (length (others ts)) 1) as [E|].
      + rewrite E in L. destruct fs as [|f [|]]; try discriminate. inversion F as [|? ? Ff _]; subst. rewrite Ff. eexists. split; [reflexivity|intros []].
      + eexists. split; [reflexivity|intros []].
    - cbn [pr_write]. rewrite A. eauto.
    - cbn [pr_write]. rewrite A. eauto.
    - cbn [pr_write]. rewrite A. eauto.
  Qed.
  Definition all_here (D : declared) : Prop := Forall (fun d => fst d = p) D.
  Lemma done_gather t : done t -> exists D, pr_gather t = Ok D /\ all_here D /\ (match t with TStruct _ _ => D <> [] | _ => True end).
  Proof.
    induction t as [t IH] using parts_ind. intros D. destruct D as [t L|c v l va D V|c ts D V|c r a A|c fs a A O D|c l a A O].
    - destruct t; try destruct L; try (exists []; cbn; split; [reflexivity|split; [constructor|exact Logic.I]]).
    - cbn [pr_gather]. destruct (IH v (or_introl eq_refl) D) as (E & H & G & _). eauto.
    - rewrite gather_union. cbn [children] in IH.
      assert (W : forall ts', incl ts' ts -> exists E, gather_all ts' = Ok E /\ all_here E).
      { induction ts' as [|x ts' IHt]; intros I; cbn [gather_all]; [exists []; split; [reflexivity|constructor]|].
        assert (Ix : In x ts) by (apply I; now left). assert (I' : incl ts' ts) by (intros y Y; apply I; now right). rewrite Forall_forall in D.
        destruct (IH x Ix (D _ Ix)) as (E & -> & G & _). cbn [rbind]. destruct (IHt I') as (E' & -> & G'). cbn [rbind].
        eexists. split; [reflexivity|]. now apply Forall_app. }
      destruct (W ts (incl_refl _)) as (E & H & G). eauto.
    - exists []. split; [reflexivity|]. split; [constructor|exact Logic.I].
    - rewrite gather_struct, A. destruct O as (n & -> & O). rewrite dot_in, (rsplit_app _ _ O). cbn [children] in IH.
      assert (W : forall ts' i, incl ts' fs -> exists ed, write_fields ts' i = Ok ed /\ all_here (snd ed)).
      { induction ts' as [|x ts' IHt]; intros i I; cbn [write_fields]; [eexists; split; [reflexivity|constructor]|].
        assert (Ix : In x fs) by (apply I; now left). assert (I' : incl ts' fs) by (intros y Y; apply I; now right). rewrite Forall_forall in D.
        destruct (done_write x (D _ Ix) i) as (e & -> & _). cbn [rbind].
        destruct (IH x Ix (D _ Ix)) as (E & -> & G & _). cbn [rbind]. destruct (IHt (S i) I') as (E' & -> & G'). cbn [rbind].
        eexists. split; [reflexivity|]. cbn [snd]. now apply Forall_app. }
      destruct (W fs 1 (incl_refl _)) as (ed & -> & G). cbn [rbind]. eexists. split; [reflexivity|]. split.
      + apply Forall_app. split; auto.
      + intros X. apply app_eq_nil in X as [_ X]. discriminate.
    - cbn [pr_gather]. rewrite A. destruct O as (n & -> & O). rewrite dot_in, (rsplit_app _ _ O). eexists. split; [reflexivity|]. split; [|exact Logic.I]. now constructor.
  Qed.
  Lemma str_min_here D : all_here D -> D <> [] -> str_min (map fst D) = Some p.
  Proof.
    intros H N. destruct H as [|d D E F]; [congruence|]. cbn [map str_min]. f_equal. rewrite E. clear N E d.
    induction F as [|x l E F IH]; [reflexivity|]. cbn [map fold_left]. rewrite E. now destruct (str_leb p p).
  Qed.
  Lemma prefix_refl q : String.prefix q q = true.
  Proof. induction q; cbn; auto. destruct (Ascii.ascii_dec a a); congruence. Qed.
  Lemma done_from c fs : done (TStruct c fs) -> exists els, pr_from (TStruct c fs) = Ok (FPackage p :: map FElement els).
  Proof.
    intros D. destruct (done_gather _ D) as (E & G & H & N). inversion D as [? L| | | |? ? a A|]; subst; [destruct L|].
    unfold pr_from. cbn [get_c]. rewrite A, G. cbn [rbind]. rewrite (str_min_here _ H N).
    assert (F : forallb (fun d => String.prefix p (fst d)) E = true).
    { apply forallb_forall. unfold all_here in H. rewrite Forall_forall in H. intros d I. rewrite (H _ I). apply prefix_refl. }
    rewrite F. eauto.
  Qed.

  (** ** Parsing *)
  Lemma type_fine ty t : pr_type (Some p) ty = Ok t -> ty <> "string" -> ty <> "bytes" ->
    fine t /\ flat t /\ (is_proxy t = true -> c_extra (get_c t) = []).
  Proof.
    intros T NS NB. destruct (type_inv _ _ _ T) as [(I & S & _ & P & E)|(_ & a & Ra & ->)].
    - assert (L : light t); [|split; [now apply fine_light|split; [destruct t; try destruct L; exact Logic.I|congruence]]].
      clear - E NS NB. unfold pr_scalar in E. repeat (match type of E with (if String.eqb ty ?s then _ else _) = _ => destruct (String.eqb_spec ty s) as [->|_];
        [try congruence; injection E as <-; cbn; try exact Logic.I; lia|] end). discriminate.
    - split; [|split; [exact Logic.I|reflexivity]]. eapply fine_live; [reflexivity| |cbn; tauto].
      destruct Ra as [[_ ->]|[N ->]]; [apply dot_in|]. unfold dotted. destruct (substr_in "." ty) eqn:E; auto.
      destruct N. intros x y ->. now rewrite dot_in in E.
  Qed.
  Lemma fine_extra k v t : fine t -> k <> "symbols" -> fine (set_extra_key k v t).
  Proof.
    intros F K. unfold set_extra_key. destruct F as [t L|c w l va F V|c ts F V|c a A D Y|c a Q A D Y N E]; cbn [get_c set_c].
    - apply fine_light. now destruct t.
    - now apply fine_list.
    - now apply fine_union.
    - eapply fine_live; eauto. cbn. intros I. apply dset_keys in I as [I|I]; [auto|congruence].
    - eapply fine_ref; eauto. cbn. intros I. apply dset_keys in I as [I|I]; [auto|congruence].
  Qed.
  Lemma field_fine n ty c t : pr_field (Some p) n ty c = Ok t -> ty <> "string" -> ty <> "bytes" ->
    fine t /\ (c = Some Required -> flat t).
  Proof.
    unfold pr_field. intros H NS NB. apply rbind_Ok in H as (u & T & H). injection H as <-.
    destruct (type_fine _ _ T NS NB) as (F & V & _).
    assert (F' : fine (if repeated c then TList c0 u PNone (PBool true) else u)) by (destruct (repeated c); auto; now apply fine_list).
    assert (V' : flat (if repeated c then TList c0 u PNone (PBool true) else u)) by (destruct (repeated c); auto; exact Logic.I).
    split.
    - apply fine_extra; [|discriminate]. destruct (required c); auto. apply fine_extra; [|discriminate]. destruct (is_null _); auto.
      apply fine_union; (apply Forall_cons; [|apply Forall_cons; [|apply Forall_nil]]); auto; [apply fine_light|]; exact Logic.I.
    - intros ->. cbn [required repeated]. unfold set_extra_key. now destruct u.
  Qed.
  Lemma fold_rewritable l : fold_right (fun x P => rewritable x /\ P) True l <-> Forall rewritable l.
  Proof. induction l as [|x l IH]; cbn; split; auto; [intros [H1 H2]; constructor; tauto|intros H; inversion H; subst; tauto]. Qed.
  Lemma oneof_fine n l t : pr_oneof (Some p) n l = Ok t -> Forall rewritable l -> fine t.
  Proof.
    rewrite pr_oneof_eq. intros H W. apply rbind_Ok in H as (ts & O & H). injection H as <-.
    assert (Z : Forall fine ts /\ Forall flat ts).
    { revert ts O. induction W as [|x l Wx W IH]; intros ts O; [injection O as <-; split; constructor|].
      destruct x; try exact (IH ts O). cbn [oneof_members] in O. apply rbind_Ok in O as (u & U & O). apply rbind_Ok in O as (us & O & E). injection E as <-.
      destruct Wx as [Ws Wb]. destruct (IH _ O). destruct (field_fine _ _ _ _ U Ws Wb). split; constructor; auto. }
    destruct Z. apply fine_union; constructor; auto; [now apply fine_light|exact Logic.I].
  Qed.
  (** [writes Q m]: [m] keeps the registry in order. *)
  Definition tidy {A} (Q : A -> Prop) (m : M A) : Prop :=
    forall R, fine_reg R -> fine_reg (fst (m R)) /\ forall a, snd (m R) = Ok a -> Q a.
  Lemma tidy_ret {A} (Q : A -> Prop) a : Q a -> tidy Q (ret a).
  Proof. intros q R F. split; auto. intros b [= <-]. exact q. Qed.
  Lemma tidy_lift {A} (Q : A -> Prop) r : (forall a, r = Ok a -> Q a) -> tidy Q (lift r).
  Proof. intros q R F. split; auto. Qed.
  Lemma tidy_bind {A B} (P : A -> Prop) (Q : B -> Prop) (m : M A) f : tidy P m -> (forall a, P a -> tidy Q (f a)) -> tidy Q (mbind m f).
  Proof.
    intros Hm Hf R F. unfold mbind. destruct (Hm R F) as [F1 P1]. destruct (m R) as [R2 [a|e]]; cbn [fst snd] in *; [|split; [auto|discriminate]].
    now apply Hf; auto.
  Qed.
  Lemma tidy_register t a : entry t -> c_alias (get_c t) = PStr a -> own a -> tidy (fun _ => True) (register_alias t).
  Proof.
    intros E A O R F. split; auto. unfold register_alias. rewrite A. destruct (dmem a R) eqn:M; [exact F|]. destruct (re_match alias_regex a); [|exact F].
    cbn [fst]. intros b u Db. rewrite dget_app. destruct (dget b R) eqn:G; [intros [= <-]; now apply (F b)|]. cbn.
    destruct (String.eqb_spec b a) as [->|]; [|discriminate]. intros [= <-]. split; auto. unfold stored. apply entry_set_c. now apply entry_freeze.
  Qed.
  Lemma tidy_enum n vs : dotless n -> tidy (fun _ => True) (pr_enum (Some p) n vs).
  Proof.
    intros D. unfold pr_enum. eapply tidy_bind with (P := fun a => a = (p ++ "." ++ n)%string); [apply tidy_lift; cbn; congruence|]. intros a ->. cbv zeta.
    eapply tidy_bind; [eapply tidy_register; [constructor|reflexivity|exists n; auto]|]. intros. now apply tidy_ret.
  Qed.
  Definition root_fine (t : rtype) : Prop := exists c fs a, t = TStruct c fs /\ c_alias c = PStr a /\ own a /\ Forall fine fs.
  Lemma tidy_message e : rewritable e -> tidy root_fine (pr_message (Some p) e).
  Proof.
    induction e as [n i ty c|n i k v|n l _|n l IH|n v|] using element_ind'; intros W; try (intros R F; split; [exact F|discriminate]).
    destruct W as [Dn W]. apply fold_rewritable in W. rewrite pr_message_eq. apply tidy_bind with (P := Forall fine).
    - induction IH as [|x l Hx _ IHl]; [apply tidy_ret; constructor|]. rewrite read_elements_cons. inversion W as [|? ? Wx Wl]; subst.
      apply tidy_bind with (P := Forall fine).
      + destruct x; cbn [read_element]; cbn [rewritable] in Wx.
        * eapply tidy_bind; [apply tidy_lift; intros a Ha; exact (proj1 (field_fine _ _ _ _ Ha (proj1 Wx) (proj2 Wx)))|]. intros a Fa. apply tidy_ret. auto.
        * destruct Wx.
        * eapply tidy_bind; [apply tidy_lift; intros a Ha; exact (oneof_fine _ _ _ Ha (proj1 (fold_rewritable _) Wx))|]. intros a Fa. apply tidy_ret. auto.
        * eapply tidy_bind; [apply Hx; exact Wx|]. intros. apply tidy_ret. constructor.
        * eapply tidy_bind; [apply tidy_enum; exact Wx|]. intros. apply tidy_ret. constructor.
        * apply tidy_ret. constructor.
      + intros f Ff. eapply tidy_bind; [apply IHl; exact Wl|]. intros fs Fs. apply tidy_ret. now apply Forall_app.
    - intros fs F. eapply tidy_bind with (P := fun a => a = (p ++ "." ++ n)%string); [apply tidy_lift; cbn; congruence|]. intros a ->. cbv zeta.
      assert (O : own (p ++ "." ++ n)) by (exists n; auto).
      eapply tidy_bind; [eapply tidy_register; [constructor; exact F|reflexivity|exact O]|]. intros. apply tidy_ret.
      eexists _, _, _. split; [reflexivity|]. split; [reflexivity|]. auto.
  Qed.
  Lemma tidy_elements l : Forall rewritable (body l) -> forall root, (forall t, root = Some t -> root_fine t) ->
    tidy (fun o => forall t, o = Some t -> root_fine t) (pr_elements (Some p) l root).
  Proof.
    induction l as [|x l IH]; intros W root F; [now apply tidy_ret|]. cbn [pr_elements]. destruct x as [q|e|]; auto.
    assert (B : body (FElement e :: l) = e :: body l) by reflexivity. rewrite B in W. inversion W as [|? ? We Wl]; subst. destruct e; auto.
    - eapply tidy_bind; [apply tidy_message; exact We|]. intros t Ft. apply IH; auto. destruct root; auto. intros u [= <-]. exact Ft.
    - eapply tidy_bind; [apply tidy_enum; exact We|]. intros. apply IH; auto.
  Qed.
End Package.
Lemma builtin_fine p : fine_reg p builtin_aliases.
Proof.
  intros b u D G. apply dget_In_key in G. apply builtin_naked in G. unfold dotted in D. congruence.
Qed.
(** C43 *)
Theorem read_then_write l p ns t : first_package l = Some p -> Forall rewritable (body l) ->
  snd (pr_to l (converter ns)) = Ok t -> exists els, pr_from t = Ok (FPackage p :: map FElement els).
Proof.
  intros P W H. unfold pr_to in H. rewrite (parse_packaged _ _ (converter ns) P) in H.
  destruct (tidy_elements p l W None (fun t E => ltac:(discriminate)) _ (builtin_fine p)) as [FR F]. unfold converter in H. cbn [reg] in H.
  destruct (pr_elements (Some p) l None builtin_aliases) as [R [[u|]|e]]; cbn [fst snd reg] in *; try discriminate.
  destruct (F _ eq_refl _ eq_refl) as (c & fs & a & -> & A & O & Ff). apply rbind_Ok in H as (v & V & H).
  pose proof (resolve_done p R c fs a v FR A O Ff V) as D. destruct v; try discriminate. injection H as <-. now apply done_from.
Qed.
(** A message with a string, bytes or map field cannot be written after it was read. *)
Definition unwritable (e : element) : Prop :=
  match e with
  | EField _ _ ty _ => ty = "string" \/ ty = "bytes"
  | EMapField _ _ _ _ => True
  | _ => False
  end.
Lemma follows_union_inv c x t' : follows (TUnion c [TNull c0; x]) t' -> exists x', t' = TUnion c [TNull c0; x'] /\ follows x x'.
Proof.
  intros F. inversion F as [ | | | |? ? fs' F2|]; subst; [discriminate|].
  inversion F2 as [|? ? ? ? A1 A2]; subst. inversion A2 as [|? ? ? ? A3 A4]; subst. inversion A4; subst. apply null_follows in A1. subst. eauto.
Qed.
Lemma write_optional c x i : (exists e, pr_write x i = Err e) \/ (exists f, pr_write x i = Ok f /\ is_field f = false) -> is_null x = false ->
  exists e, pr_write (TUnion c [TNull c0; x]) i = Err e.
Proof.
  intros H N. rewrite write_union. cbn [write_all is_null others filter]. rewrite N. cbn [negb length Nat.eqb].
  destruct H as [[e ->]|(f & -> & E)]; cbn [rbind]; [eauto|]. rewrite E. eauto.
Qed.
Lemma unwritable_string n ty c t t' i : forall p, pr_field (Some p) n ty c = Ok t -> ty = "string" \/ ty = "bytes" -> follows t t' ->
  exists e, pr_write t' i = Err e.
Proof.
  intros p H S F.
  assert (K : exists u, pr_type (Some p) ty = Ok u /\ children u = [] /\ is_proxy u = false /\ is_null u = false /\
    forall k j, exists e, pr_write (set_c u k) j = Err e).
  { destruct S as [->| ->]; (eexists; split; [reflexivity|]; repeat (split; [reflexivity|]); intros k j; cbn; eauto). }
  destruct K as (u & T & C & P & N & W). unfold pr_field in H. rewrite T in H. cbn [rbind] in H. injection H as <-.
  assert (W' : forall j, exists e, pr_write u j = Err e).
  { intros j. destruct (W (get_c u) j) as [e E]. exists e. rewrite <- E. f_equal. now destruct u. }
  destruct c as [[| |]|]; cbn [required repeated] in F.
  - apply follows_scalar in F; [|unfold set_extra_key; now destruct u|unfold set_extra_key; now destruct u]. subst t'. apply W.
  - rewrite N in F. apply follows_union_inv in F as (x & -> & F). apply follows_scalar in F; auto. subst x. apply write_optional; auto.
  - apply follows_union_inv in F as (x & -> & F). inversion F as [|? ? v' ? ? FV| | | |]; subst; [discriminate|]. apply follows_scalar in FV; auto. subst v'.
    apply write_optional; [|reflexivity]. left. cbn [pr_write]. destruct (W' i) as [e ->]. cbn [rbind]. eauto.
  - rewrite N in F. apply follows_union_inv in F as (x & -> & F). apply follows_scalar in F; auto. subst x. apply write_optional; auto.
Qed.
Lemma unwritable_map p n k v t t' i : pr_map (Some p) n k v = Ok t -> follows t t' -> exists e, pr_write t' i = Err e.
Proof.
  unfold pr_map. intros H F. apply rbind_Ok in H as (tk & _ & H). destruct (match tk with TInt _ _ _ => _ | _ => _ end); [|discriminate].
  apply rbind_Ok in H as (tv & _ & H). injection H as <-. apply follows_union_inv in F as (x & -> & F). inversion F; subst; [discriminate|].
  apply write_optional; [|reflexivity]. cbn [pr_write].
  destruct (pr_write k' 0) as [fk|]; cbn [rbind]; [|eauto]. destruct (pr_write v' 0) as [fv|]; cbn [rbind]; [|eauto].
  destruct (is_field fk && is_field fv); [right|left]; eauto.
Qed.
Lemma unwritable_fields p els : forall R R1 fs fs', read_elements (Some p) els R = (R1, Ok fs) -> Forall2 follows fs fs' -> Exists unwritable els ->
  Exists (fun x => forall i, exists e, pr_write x i = Err e) fs'.
Proof.
  induction els as [|x els IH]; intros R R1 fs fs' H F X; [inversion X|].
  rewrite read_elements_cons in H. unfold mbind in H. destruct (read_element (Some p) x R) as [R2 [f|e]] eqn:E; [|discriminate].
  destruct (read_elements (Some p) els R2) as [R3 [gs|e]] eqn:E2; [|discriminate]. injection H as <- <-.
  apply Forall2_app_inv_l in F as (f' & gs' & F1 & F2 & ->). apply Exists_app.
  inversion X as [? ? U|? ? U]; subst; [left|right; eapply IH; eauto].
  destruct x; try destruct U; cbn [read_element] in E.
  - apply mbind_lift in E as (u & U & E). injection E as <- <-. inversion F1 as [|? ? ? ? A3 A4]; subst. constructor. intros i.
    eapply unwritable_string; eauto.
  - apply mbind_lift in E as (u & U & E). injection E as <- <-. inversion F1 as [|? ? ? ? A3 A4]; subst. constructor. intros i.
    eapply unwritable_string; eauto.
  - apply mbind_lift in E as (u & U & E). injection E as <- <-. inversion F1 as [|? ? ? ? A3 A4]; subst. constructor. intros i.
    eapply unwritable_map; eauto.
Qed.
Theorem not_written l p s t : first_package l = Some p -> snd (pr_to l s) = Ok t ->
  (exists n els, first_message (body l) = Some (n, els) /\ Exists unwritable els) -> exists e, pr_from t = Err e.
Proof.
  intros P H (n' & els' & FM & X). unfold pr_to in H. rewrite (parse_packaged _ _ s P) in H.
  destruct (pr_elements (Some p) l None (reg s)) as [R [[u|]|e]] eqn:E; cbn [fst snd reg] in H; try discriminate.
  apply rbind_Ok in H as (v & V & H). apply elements_root in E as [E|(_ & n & els & R0 & R2 & F & M)]; [discriminate|].
  rewrite F in FM. injection FM as -> ->.
  rewrite pr_message_eq in M. unfold mbind in M. destruct (read_elements (Some p) els' R0) as [R3 [fs|e]] eqn:RE; [|discriminate].
  cbn [lift qualify] in M. cbv zeta in M. destruct (register_alias _ _) as [R4 [w|e]]; [|discriminate]. injection M as <- <-.
  apply resolve_follows in V as (fs' & -> & F2). injection H as <-.
  pose proof (unwritable_fields _ _ _ _ _ _ RE F2 X) as Y.
  assert (Z : forall i, exists e, write_fields fs' i = Err e).
  { clear - Y. induction Y as [x l H|x l Y IH]; intros i; cbn [write_fields].
    - destruct (H i) as [e ->]. cbn [rbind]. eauto.
    - destruct (pr_write x i); cbn [rbind]; [|eauto]. destruct (pr_gather x); cbn [rbind]; [|eauto]. destruct (IH (S i)) as [e ->]. cbn [rbind]. eauto. }
  unfold pr_from. cbn [get_c c_alias]. rewrite gather_struct. cbn [c_alias]. replace (substr_in "." _) with true by (symmetry; apply (dot_in p n')). destruct (rsplit_dot _) as [pk nm].
  destruct (Z 1) as [e ->]. cbn [rbind]. eauto.
Qed.
