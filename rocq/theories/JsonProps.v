(** Properties of the JSON Schema converter: references, termination, round trip. *)
From Coq Require Import String Ascii List NArith ZArith QArith Bool Lia.
From Verif Require Import PyVal PyValFacts RType Registry FromDict FromDictFacts RoundTrip
  SpecTypes SpecAvro AvroProps Url JsonSchema JsonFacts JsonWrite SpecJson.
Import ListNotations.
Open Scope nat_scope.
Open Scope string_scope.
Open Scope list_scope.

(** ** References (C40) *)
Definition sub_refs := fix sub (e : dict) : list pyval :=
  match e with [] => [] | (_, x) :: r => schema_refs x ++ sub r end.
Definition entry_refs (k : string) (v : pyval) : list pyval :=
  if String.eqb k "$ref" then [v]
  else if String.eqb k "items" || String.eqb k "additionalProperties" then schema_refs v
  else if String.eqb k "oneOf" then match v with PList l => flat_map schema_refs l | _ => [] end
  else if String.eqb k "properties" || String.eqb k "$defs" then match v with PDict e => sub_refs e | _ => [] end
  else [].
Lemma refs_entries r d : In r (schema_refs (PDict d)) <-> exists k v, In (k, v) d /\ In r (entry_refs k v).
Proof.
  induction d as [|[k v] d IH].
  - split; [intros []|intros (k & v & [] & _)].
  - change (schema_refs (PDict ((k, v) :: d))) with (entry_refs k v ++ schema_refs (PDict d)). rewrite in_app_iff, IH. split.
    + intros [H|(k' & v' & I & H)]; [exists k, v|exists k', v']; cbn; auto.
    + intros (k' & v' & [E|I] & H0); [injection E as <- <-|]; eauto.
Qed.
Lemma sub_entries r e : In r (sub_refs e) <-> exists k x, In (k, x) e /\ In r (schema_refs x).
Proof.
  induction e as [|[k v] d IH]; cbn [sub_refs].
  - split; [intros []|intros (k & v & [] & _)].
  - rewrite in_app_iff, IH. split.
    + intros [H|(k' & v' & I & H)]; [exists k, v|exists k', v']; cbn; auto.
    + intros (k' & v' & [E|I] & H0); [injection E as <- <-|]; eauto.
Qed.
Lemma In_dset {V} k (v : V) d p : In p (dset k v d) -> In p d \/ p = (k, v).
Proof.
  induction d as [|[k' v'] d IH]; cbn; [intuition|]. destruct (String.eqb k k') eqn:E; cbn; intuition.
  apply String.eqb_eq in E. subst. auto.
Qed.
Lemma In_dupd {V} (e : list (string * V)) : forall d p, In p (dupd d e) -> In p d \/ In p e.
Proof.
  induction e as [|[k v] e IH]; intros d p H; cbn [dupd fold_left fst snd] in H; [auto|].
  apply IH in H as [H|H]; [|cbn; auto]. apply In_dset in H as [H|H]; cbn; auto.
Qed.
Lemma labels_refs r t d : In r (schema_refs (PDict (dupd (js_labels t) d))) -> In r (schema_refs (PDict d)).
Proof.
  rewrite !refs_entries. intros (k & v & I & H). apply In_dupd in I as [I|I]; [|eauto].
  apply (List.in_map fst), labels_keys in I as [I|I]; cbn in I; subst k; destruct H.
Qed.

(** The result of a built-in reference has no references. *)
Definition scalar (t : rtype) : Prop := is_proxy t = false /\ children t = [] /\ not_aliased t.
Lemma scalar_set_attr t k v t' : scalar t -> k <> "alias" -> set_attr t k v = Ok t' -> scalar t'.
Proof.
  intros (P & C & A) K. unfold set_attr. destruct (opaque_attr t k); [discriminate|].
  assert (SC : forall lo doc ex, scalar (set_c t (mkC lo (c_alias (get_c t)) doc ex))).
  { intros lo doc ex. destruct t; try discriminate; repeat split; auto; try exact A; exact C. }
  repeat match goal with |- (if ?b then _ else _) = Ok _ -> _ => destruct b eqn:?; [try (intros [= <-]; apply SC)|] end.
  - apply String.eqb_eq in Heqb0. congruence.
  - destruct v; try discriminate. intros [= <-]; apply SC.
  - destruct t; repeat match goal with |- (if ?b then _ else _) = Ok _ -> _ => destruct b end;
      intros [= <-]; try apply SC; repeat split; auto.
Qed.
Lemma scalar_set_attrs l : forall t t', scalar t -> ~ In "alias" (dkeys l) -> set_attrs t l = Ok t' -> scalar t'.
Proof.
  induction l as [|[k v] l IH]; intros t t' S N H; cbn [set_attrs] in H; [congruence|].
  apply rbind_Ok in H as (u & E & H). cbn in N. eapply IH; [|tauto|exact H]. eapply scalar_set_attr; eauto.
Qed.
Lemma builtin_scalar a t : dget a builtin_aliases = Some t -> scalar t /\ forall R, freeze R t = t.
Proof.
  intros D. apply dget_In in D. vm_compute in D.
  repeat match type of D with _ \/ _ => destruct D as [D|D] end; [..|destruct D]; injection D as <- <-;
    repeat split; intros ? X; discriminate X.
Qed.
Lemma resolve_builtin R t t' : keeps_builtins R -> builtin_reference t -> resolve R t = Ok t' -> scalar t'.
Proof.
  intros K (c & a & -> & A & I & N) H. cbn [resolve] in H. rewrite A in H. apply rbind_Ok in H as (t0 & F & H).
  unfold from_alias in F. cbn [proxy_reg] in *. rewrite (K _ I) in F. destruct (dget a builtin_aliases) as [t1|] eqn:D; [|discriminate].
  injection F as ->. destruct (builtin_scalar _ _ D) as [S FZ]. rewrite FZ in H. eapply scalar_set_attrs; eauto.
Qed.
Lemma scalar_refs n R u t d : scalar t -> js_field_f n R u t = Ok d -> schema_refs (PDict d) = [].
Proof.
  intros (P & C & A) H.
  assert (H' : exists prox, js_tree prox R u t = Ok d) by (destruct n; eexists; exact H). destruct H' as [prox H'].
  rewrite tree_free in H' by auto. cbv zeta in H'.
  enough (forall r, ~ In r (schema_refs (PDict d))) as E.
  { destruct (schema_refs (PDict d)) as [|r l] eqn:X; auto. destruct (E r). now left. }
  intros r I. destruct t; try discriminate; cbn [node] in H';
    try match type of H' with Ok ?e = Ok d => assert (E : d = e) by congruence; rewrite E in I; apply labels_refs in I; exact I end.
  - cbn in C. subst. cbn [fields_f rbind fst snd] in H'.
    match type of H' with Ok ?e = Ok d => assert (E : d = e) by congruence; rewrite E in I; apply labels_refs in I; exact I end.
  - cbn in C. subst. cbn [only_f all_f rbind] in H'. destruct (is_optional c []); cbn [rbind] in H'; [discriminate|].
    match type of H' with Ok ?e = Ok d => assert (E : d = e) by congruence; rewrite E in I; apply labels_refs in I; exact I end.
Qed.

Definition reaches (u : bool) (s t : rtype) : Prop :=
  (u = true /\ s = t) \/ exists c, In c (shown_children t) /\ shown s c.
Lemma reaches_shown u s t : reaches u s t -> shown s t.
Proof. intros [[_ ->]|(c & I & H)]; [constructor|econstructor; eauto]. Qed.
Definition refs_ok (u : bool) (t : rtype) (d : dict) : Prop :=
  forall r, In r (schema_refs (PDict d)) -> exists s a, reaches u s t /\ defines s a /\ r = pointer a.

Lemma all_refs go l ds : all_f go l = Ok ds -> Forall2 (fun x v => exists d, go x = Ok d /\ v = PDict d) l ds.
Proof.
  revert ds. induction l as [|x l IH]; intros ds H; cbn [all_f] in H; [injection H as <-; constructor|].
  apply rbind_Ok in H as (d & D & H). apply rbind_Ok in H as (ds' & D' & H). injection H as <-. constructor; eauto.
Qed.
Lemma only_in go l d : only_f go l = Ok d -> exists x, In x l /\ go x = Ok d.
Proof.
  induction l as [|x l IH]; cbn [only_f]; [discriminate|]. destruct (is_null x).
  - intros H. apply IH in H as (y & I & H). exists y. cbn; auto.
  - destruct (existsb _ l); [discriminate|]. intros H. exists x. cbn; auto.
Qed.
Lemma node_refs prox go R t d : keeps_builtins R ->
  (forall t' d', scalar t' -> prox t' = Ok d' -> schema_refs (PDict d') = []) ->
  (forall x e, In x (shown_children t) -> go x = Ok e -> refs_ok true x e) ->
  (is_proxy t = true -> builtin_reference t) ->
  node prox go R t = Ok d -> refs_ok false t d.
Proof.
  intros KB P G B H r I.
  assert (SUB : forall x e, In x (shown_children t) -> go x = Ok e -> In r (schema_refs (PDict e)) ->
            exists s a, reaches false s t /\ defines s a /\ r = pointer a).
  { intros x e Ix Gx Ir. destruct (G x e Ix Gx r Ir) as (s & a & RS & D & E). exists s, a. repeat split; try apply D; auto.
    right. exists x. split; auto. eapply reaches_shown; eauto. }
  destruct t as [c|c|c b s|c b|c b v|c b v|c v l va|c k v|c fs|c s|c ts|c rg]; cbn [node shown_children] in *;
    try (match type of H with Ok ?e = Ok d => assert (E : d = e) by congruence; rewrite E in I; apply labels_refs in I; now destruct I end).
  - apply rbind_Ok in H as (e & D & H). match type of H with Ok ?e = Ok d => assert (E : d = e) by congruence end.
    rewrite E in I. apply labels_refs in I. cbn [schema_refs String.eqb Ascii.eqb Bool.eqb orb app] in I. rewrite app_nil_r in I.
    eapply SUB; eauto. now left.
  - apply rbind_Ok in H as (e & D & H). match type of H with Ok ?e = Ok d => assert (E : d = e) by congruence end.
    rewrite E in I. apply labels_refs in I. cbn [schema_refs String.eqb Ascii.eqb Bool.eqb orb app] in I. rewrite app_nil_r in I.
    eapply SUB; eauto. now left.
  - apply rbind_Ok in H as ((ps & rq) & F & H). cbn [fst snd] in H. match type of H with Ok ?e = Ok d => assert (E : d = e) by congruence end.
    rewrite E in I. apply labels_refs, refs_entries in I as (k & v & I & Ir).
    assert (I' : k = "properties" /\ v = PDict ps).
    { destruct I as [[= <- <-]|[[= <- <-]|I]]; [destruct Ir|auto|]. destruct rq; [destruct I|]. destruct I as [[= <- <-]|[]]. destruct Ir. }
    destruct I' as [-> ->]. change (entry_refs "properties" (PDict ps)) with (sub_refs ps) in Ir. apply sub_entries in Ir as (n & x & In_ & Ir).
    apply fields_spec in F as (ns & ds & _ & D & E1 & _). rewrite E1 in In_. apply In_dupd in In_ as [[]|In_].
    apply in_combine_r, in_map_iff in In_ as (e & <- & Ie).
    assert (X : exists f, In f fs /\ go f = Ok e).
    { clear - D Ie. induction D as [|f d fs ds Hf D IH]; [destruct Ie|]. destruct Ie as [->|Ie]; [exists f; cbn; auto|].
      destruct (IH Ie) as (g & ? & ?). exists g; cbn; auto. }
    destruct X as (f & If & Gf). eauto.
  - destruct (is_optional c ts).
    + apply rbind_Ok in H as (e & D & H). match type of H with Ok ?e = Ok d => assert (E : d = e) by congruence end.
      rewrite E in I. apply labels_refs in I. apply only_in in D as (x & Ix & D). eauto.
    + apply rbind_Ok in H as (l & D & H). match type of H with Ok ?e = Ok d => assert (E : d = e) by congruence end.
      rewrite E in I. apply labels_refs in I. cbn [schema_refs String.eqb Ascii.eqb Bool.eqb orb app] in I. rewrite app_nil_r in I.
      apply in_flat_map in I as (v & Iv & Ir). apply all_refs in D.
      assert (X : exists f e, In f ts /\ go f = Ok e /\ v = PDict e).
      { clear - D Iv. induction D as [|f d fs ds Hf D IH]; [destruct Iv|]. destruct Hf as (e & ? & ?).
        destruct Iv as [->|Iv]; [exists f, e; cbn; auto|]. destruct (IH Iv) as (g & e' & ? & ?). exists g, e'; cbn; auto. }
      destruct X as (f & e & If & Gf & ->). eauto.
  - destruct (B eq_refl) as (c' & a & [= <- ->] & A & Ia & NA). rewrite A in H.
    assert (M : dmem a builtin_aliases = true) by (apply dmem_true; exact Ia).
    rewrite M in H. cbn [orb] in H. apply rbind_Ok in H as (t' & RS & H). rewrite (P t' d) in I; [destruct I| |exact H].
    eapply resolve_builtin; eauto.
Qed.
Lemma shown_ind' (P : rtype -> Prop) : (forall t, (forall x, In x (shown_children t) -> P x) -> P t) -> forall t, P t.
Proof.
  intros H t.
  induction t as [c|c|c b s|c b|c b v|c b v|c v l va IH|c k v IHk IHv|c fs IH|c s|c ts IH|c r] using rtype_ind';
    apply H; cbn [shown_children]; try (intros ? []; fail).
  - intros x [<-|[]]; auto.
  - intros x [<-|[]]; auto.
  - apply Forall_forall, IH.
  - apply Forall_forall, IH.
Qed.
Lemma tree_refs prox R : keeps_builtins R ->
  (forall t' d', scalar t' -> prox t' = Ok d' -> schema_refs (PDict d') = []) -> forall t,
  (forall s, shown s t -> is_proxy s = true -> builtin_reference s) ->
  forall u d, js_tree prox R u t = Ok d -> refs_ok u t d.
Proof.
  intros K P t. induction t as [t IH] using shown_ind'. intros B u d H. rewrite tree_eq in H.
  assert (X : node prox (js_tree prox R true) R t = Ok d -> refs_ok u t d).
  { intros X r I. apply node_refs in X; auto.
    - destruct (X r I) as (s & a & [[E0 _]|RS] & D & E); [discriminate|]. exists s, a. split; [right; exact RS|auto].
    - intros x e Ix Hx. apply IH; auto. intros s S. apply B. econstructor; eauto.
    - apply B. constructor. }
  destruct (c_alias (get_c t)) as [| | | |a| |] eqn:AL; auto. destruct (u && _) eqn:U; auto.
  apply andb_true_iff in U as [-> U]. apply negb_true_iff in U. injection H as <-. intros r [<-|[]].
  exists t, a. repeat split; auto. left. auto.
Qed.

(** The definitions that are generated. *)
Definition defs_f (conv : rtype -> res dict) := fix all (l : list rtype) (acc : dict) : res dict :=
  match l with
  | [] => Ok acc
  | x :: r => (d <- js_defs conv x ;; all r (dupd acc d))%res
  end.
Lemma defs_list conv t defs : js_defs conv t = Ok defs ->
  exists own, defs_f conv (shown_children t) own = Ok defs /\
    ((exists a d, c_alias (get_c t) = PStr a /\ nonempty a = true /\ dmem a builtin_aliases = false /\ conv t = Ok d /\ own = [(a, PDict d)]) \/
     (own = [] /\ forall a, c_alias (get_c t) = PStr a -> a = "" \/ In a (dkeys builtin_aliases))).
Proof.
  intros H. assert (H' : exists own, (match c_alias (get_c t) with
           | PStr a => if nonempty a && negb (dmem a builtin_aliases)
                       then (d <- conv t ;; Ok [(a, PDict d)]) else Ok []
           | v => if truthy v then match v with PList _ | PDict _ => Err TypeError | _ => Err Unmodelled end
                  else Ok []
           end)%res = Ok own /\ defs_f conv (shown_children t) own = Ok defs).
  { destruct t; cbn [js_defs get_c] in H; apply rbind_Ok in H as (own & O & H); exists own; (split; [exact O|]); cbn [shown_children defs_f]; try exact H.
    all: apply rbind_Ok in H as (d & D & H); rewrite D; cbn [rbind]; exact H. }
  destruct H' as (own & O & H'). exists own. split; auto.
  destruct (c_alias (get_c t)) as [| | | |a| |] eqn:AL;
    try (right; split; [cbv zeta in O; destruct (truthy _); [discriminate|congruence]|intros ? ?; discriminate]).
  destruct (nonempty a && negb (dmem a builtin_aliases)) eqn:N.
  - apply andb_true_iff in N as [N1 N2]. apply negb_true_iff in N2. apply rbind_Ok in O as (d & D & O). injection O as <-.
    left. exists a, d. auto.
  - right. injection O as <-. split; auto. intros b [= <-]. apply andb_false_iff in N as [N|N].
    + left. destruct a; [reflexivity|discriminate].
    + right. apply negb_false_iff, dmem_true in N. exact N.
Qed.
Definition defs_ok (conv : rtype -> res dict) (ts : list rtype) (defs : dict) : Prop :=
  NoDup (dkeys defs) /\
  (forall s a, (exists t, In t ts /\ shown s t) -> c_alias (get_c s) = PStr a -> user_name a -> dget a defs <> None) /\
  (forall a e, dget a defs = Some e -> exists t s d, In t ts /\ shown s t /\ c_alias (get_c s) = PStr a /\ user_name a /\ conv s = Ok d /\ e = PDict d /\
     forall c s', In c (shown_children s) -> shown s' c -> c_alias (get_c s') <> PStr a).
Lemma defs_list_ok conv l : (forall t d, In t l -> js_defs conv t = Ok d -> defs_ok conv [t] d) ->
  forall acc defs, NoDup (dkeys acc) -> defs_f conv l acc = Ok defs ->
  NoDup (dkeys defs) /\
  (forall s a, (exists t, In t l /\ shown s t) -> c_alias (get_c s) = PStr a -> user_name a -> dget a defs <> None) /\
  (forall a, dget a acc <> None -> dget a defs <> None) /\
  (forall a e, dget a defs = Some e ->
     (dget a acc = Some e /\ forall t s, In t l -> shown s t -> c_alias (get_c s) = PStr a -> ~ user_name a) \/
     exists t s d, In t l /\ shown s t /\ c_alias (get_c s) = PStr a /\ user_name a /\ conv s = Ok d /\ e = PDict d /\
     forall c s', In c (shown_children s) -> shown s' c -> c_alias (get_c s') <> PStr a).
Proof.
  induction l as [|t l IH]; intros H acc defs N D; cbn [defs_f] in D.
  - injection D as <-. repeat split; auto.
    intros s a (t & [] & _).
  - apply rbind_Ok in D as (d & Dt & D). pose proof (H t d (or_introl eq_refl) Dt) as (N' & A & B).
    apply IH in D as (N2 & A2 & K2 & B2); [|intros; apply H; [now right|assumption]|now apply dupd_NoDup].
    split; [exact N2|]. split; [|split].
    + intros s a (t' & [<-|I] & S) AL U.
      * apply K2. rewrite dget_dupd by auto. assert (Y : dget a d <> None) by (apply (A s a); eauto; exists t; cbn; auto).
        destruct (dget a d); [discriminate|congruence].
      * apply (A2 s a); eauto.
    + intros a Ha. apply K2. rewrite dget_dupd by auto. destruct (dget a d); [discriminate|auto].
    + intros a e E. apply B2 in E as [[E NU]|(t' & s & d' & I & R)]; [|right; exists t', s, d'; split; [now right|exact R]].
      rewrite dget_dupd in E by auto. destruct (dget a d) as [e'|] eqn:Da.
      * injection E as ->. apply B in Da as (t' & s & d' & [<-|[]] & R). right. exists t, s, d'. split; [now left|exact R].
      * left. split; auto. intros t' s [<-|I] S AL; [|eapply NU; eauto]. intros U. apply (A s a); auto. exists t; cbn; auto.
Qed.
Lemma defs_spec conv t : forall defs, js_defs conv t = Ok defs -> defs_ok conv [t] defs.
Proof.
  induction t as [t IH] using shown_ind'. intros defs H. apply defs_list in H as (own & H & O).
  assert (NO : NoDup (dkeys own)).
  { destruct O as [(a & d & _ & _ & _ & _ & ->)|[-> _]]; cbn; repeat constructor; intros []. }
  apply defs_list_ok in H as (N & A & K & B); [|intros x d Ix Hx; apply IH; auto|exact NO].
  split; [exact N|]. split.
  - intros s a (t' & [<-|[]] & S) AL U. inversion S as [E|? c Ic Sc]; subst.
    + apply K. destruct O as [(a' & d & AL' & _ & _ & _ & ->)|[-> NB]].
      * rewrite AL in AL'. injection AL' as ->. cbn. rewrite String.eqb_refl. discriminate.
      * destruct (NB _ AL) as [->|I]; destruct U; congruence.
    + apply (A s a); eauto.
  - intros a e E. apply B in E as [[E NU]|(t' & s & d & I & S & R)].
    + destruct O as [(a' & d & AL' & NE & NM & C & ->)|[-> NB]]; [|discriminate].
      cbn in E. destruct (String.eqb a a') eqn:Q; [|discriminate]. apply String.eqb_eq in Q. subst a'. injection E as <-.
      assert (U : user_name a).
      { split; [destruct a; discriminate|]. apply dmem_false. exact NM. }
      exists t, t, d. repeat split; auto; try apply U; [now left|constructor|]. intros c s' Ic Sc AL. eapply NU; eauto.
    + exists t, s, d. split; [now left|]. split; [econstructor; eauto|exact R].
Qed.

Lemma field_refs n R u t d : keeps_builtins R -> (forall s, shown s t -> is_proxy s = true -> builtin_reference s) ->
  js_field_f n R u t = Ok d -> refs_ok u t d.
Proof.
  intros K B H. destruct n as [|n]; cbn [js_field_f] in H; (eapply tree_refs; [exact K| |exact B|exact H]).
  - discriminate.
  - intros t' d' S E. eapply scalar_refs; eauto.
Qed.
Lemma pointer_inj a b : pointer a = pointer b -> a = b.
Proof. unfold pointer. cbn. intros [= E]. exact E. Qed.
Lemma refs_defined R t d : keeps_builtins R ->
  (forall s, shown s t -> is_proxy s = true -> builtin_reference s) ->
  (forall s a, shown s t -> defines s a -> user_name a) -> js_from R t = Ok d ->
  forall r, In r (schema_refs (PDict d)) ->
    exists a e, r = pointer a /\ dget a (definitions d) = Some (PDict e) /\ dget "$ref" e <> Some (pointer a).
Proof.
  intros K B U H r I. unfold js_from in H. apply rbind_Ok in H as (m & M & H). apply rbind_Ok in H as (defs & D & H).
  unfold js_field in M. pose proof (field_refs _ _ _ _ _ K B M) as RM.
  apply defs_spec in D as (N & A & BD).
  assert (HD : d = match defs with [] => m | _ => dset "$defs" (PDict defs) m end) by congruence. clear H.
  assert (X : exists s a, shown s t /\ defines s a /\ r = pointer a).
  { assert (I' : In r (schema_refs (PDict m)) \/ exists k x, In (k, x) defs /\ In r (schema_refs x)).
    { destruct defs as [|p defs]; rewrite HD in I; [auto|]. apply refs_entries in I as (k & v & I & Ir).
      apply In_dset in I as [I|[= -> ->]]; [left; apply refs_entries; eauto|].
      right. apply sub_entries. exact Ir. }
    destruct I' as [I'|(k & x & I' & Ir)].
    - destruct (RM r I') as (s & a & RS & DF & E). exists s, a. split; [eapply reaches_shown; eauto|auto].
    - apply In_dget in I'; auto. apply BD in I' as (t' & s & d' & [<-|[]] & S & AL & UA & C & -> & _).
      unfold js_field in C. apply field_refs in C; auto.
      + destruct (C r Ir) as (s' & a & RS & DF & E). exists s', a. split; [|auto]. apply reaches_shown in RS.
        clear - S RS. induction S; auto. econstructor; eauto.
      + intros s' S'. apply B. clear - S S'. induction S; auto. econstructor; eauto. }
  destruct X as (s & a & S & DF & ->). pose proof (U s a S DF) as UA.
  assert (Y : dget a defs <> None) by (eapply (A s a); eauto; [exists t; cbn; auto|apply DF]).
  destruct (dget a defs) as [v|] eqn:E; [|congruence]. pose proof (BD a v E) as (t' & s' & e & [<-|[]] & S' & AL & _ & C & -> & NB).
  exists a, e. split; auto. split.
  - destruct defs as [|p defs]; [discriminate|]. unfold definitions. rewrite HD. rewrite dget_dset, String.eqb_refl. exact E.
  - intros RF. unfold js_field in C. apply field_refs in C; auto.
    + destruct (C (pointer a)) as (s2 & a2 & [[? _]|(c & Ic & Sc)] & DF2 & E2).
      * apply refs_entries. exists "$ref", (pointer a). split; [apply dget_In; exact RF|now left].
      * discriminate.
      * apply pointer_inj in E2. subst a2. eapply NB; eauto. apply DF2.
    + intros s2 S2. apply B. clear - S' S2. induction S'; auto. econstructor; eauto.
Qed.

(** ** Termination of writing (C80) *)
Definition settled_reg (R : registry) : Prop := Forall (fun p => settled (snd p)) R.
Lemma settled_freeze R t : settled t -> freeze R t = t.
Proof.
  induction t as [c|c|c b s|c b|c b v|c b v|c v l va IH|c k v IHk IHv|c fs IH|c s|c ts IH|c r] using rtype_ind';
    intros S; inversion S as [t P F|c' R' F]; subst; cbn [freeze children] in *; auto.
  - inversion F; subst. now rewrite IH.
  - inversion F as [|? ? ? F']; subst. inversion F'; subst. now rewrite IHk, IHv.
  - f_equal. clear S P. induction IH; inversion F; subst; cbn; auto. f_equal; auto.
  - f_equal. clear S P. induction IH; inversion F; subst; cbn; auto. f_equal; auto.
  - discriminate.
Qed.
Lemma set_attr_shape t k v t' : set_attr t k v = Ok t' ->
  children t' = children t /\ rdepth t' = rdepth t /\ is_proxy t' = is_proxy t /\ (settled t -> settled t').
Proof.
  unfold set_attr. destruct (opaque_attr t k); [discriminate|].
  assert (SC : forall c, children (set_c t c) = children t /\ rdepth (set_c t c) = rdepth t /\ is_proxy (set_c t c) = is_proxy t /\
                (settled t -> settled (set_c t c))).
  { intros c. destruct t; (split; [reflexivity|split; [reflexivity|split; [reflexivity|]]]); intros S;
      (inversion S as [t9 P F|c' R' F]; subst; first [apply settled_ref; exact F|apply settled_node; [exact P|exact F]]). }
  repeat match goal with |- (if ?b then _ else _) = Ok _ -> _ => destruct b; [try (intros [= <-]; apply SC)|] end.
  - destruct v; try discriminate. intros [= <-]; apply SC.
  - destruct t; repeat match goal with |- (if ?b then _ else _) = Ok _ -> _ => destruct b end; intros [= <-]; try apply SC;
    (split; [reflexivity|split; [reflexivity|split; [reflexivity|]]]); intros S;
      (inversion S as [t9 P F|c' R' F]; subst; apply settled_node; [exact P|exact F]).
Qed.
Lemma set_attrs_shape l : forall t t', set_attrs t l = Ok t' -> rdepth t' = rdepth t /\ (settled t -> settled t').
Proof.
  induction l as [|[k v] l IH]; intros t t' H; cbn [set_attrs] in H; [injection H as <-; auto|].
  apply rbind_Ok in H as (u & E & H). apply set_attr_shape in E as (_ & E2 & _ & E4). apply IH in H as [H1 H2]. split; [congruence|auto].
Qed.
Lemma reg_depth_In a t R : In (a, t) R -> rdepth t <= reg_depth R.
Proof. induction R as [|[b x] R IH]; intros []; cbn; [injection H as -> ->; lia|]. specialize (IH H). unfold reg_depth in IH. lia. Qed.
Lemma rdepth_ref c R : rdepth (TProxy c (Some R)) = S (reg_depth R).
Proof. cbn. f_equal. induction R as [|[a x] R IH]; cbn; auto. Qed.
Lemma resolve_settled R c r t' : (r = None -> settled_reg R) -> (forall R', r = Some R' -> settled_reg R') ->
  resolve R (TProxy c r) = Ok t' -> settled t' /\ rdepth t' <= reg_depth (proxy_reg R r).
Proof.
  intros L P H. cbn [resolve] in H. destruct (c_alias c) as [| | | |a| |]; try discriminate.
  apply rbind_Ok in H as (t0 & F & H). unfold from_alias in F. destruct (dget a (proxy_reg R r)) as [t1|] eqn:D; [|discriminate].
  injection F as ->. apply dget_In in D. assert (SR : settled_reg (proxy_reg R r)) by (destruct r; cbn; auto).
  unfold settled_reg in SR. rewrite Forall_forall in SR. specialize (SR _ D). cbn in SR. rewrite settled_freeze in H by auto.
  apply set_attrs_shape in H as [H1 H2]. split; auto. rewrite H1. eapply reg_depth_In; eauto.
Qed.
Lemma nof_resolve R t : nof (resolve R t).
Proof.
  destruct t; try discriminate. cbn [resolve]. destruct (c_alias c); try discriminate. unfold from_alias.
  destruct (dget _ _); cbn [rbind]; [apply nof_set_attrs|discriminate].
Qed.
Lemma nof_name t : nof (js_name t).
Proof.
  unfold js_name. destruct (kwarg _ _ _) as [| | | |s|l|d]; try (destruct (truthy _); discriminate).
  - destruct (nonempty s); discriminate.
Qed.
Lemma nof_node prox go R t : (forall x, In x (shown_children t) -> nof (go x)) ->
  (forall t', is_proxy t = true -> resolve R t = Ok t' -> nof (prox t')) -> nof (node prox go R t).
Proof.
  intros G P. destruct t as [c|c|c b s|c b|c b v|c b v|c v l va|c k v|c fs|c s|c ts|c rg]; cbn [node shown_children] in *; try discriminate.
  - apply nof_rbind; [apply G; now left|discriminate].
  - apply nof_rbind; [apply G; now left|discriminate].
  - apply nof_rbind; [|discriminate]. enough (X : forall ps rq, nof (fields_f go fs ps rq)) by apply X.
    induction fs as [|x l IH]; intros ps rq; cbn [fields_f]; [discriminate|]. apply nof_rbind; [apply nof_name|]. intros n.
    apply nof_rbind; [apply G; now left|]. intros d. apply IH. intros; apply G; now right. discriminate.
  - destruct (is_optional c ts); (apply nof_rbind; [|discriminate]); clear P; induction ts as [|x l IH]; cbn [only_f all_f]; try discriminate.
    + destruct (is_null x); [apply IH; intros; apply G; now right|]. destruct (existsb _ l); [discriminate|apply G; now left].
    + apply nof_rbind; [apply G; now left|]. intros d. apply nof_rbind; [apply IH; intros; apply G; now right|discriminate].
  - destruct (c_alias c); try discriminate. destruct (_ || _); [|discriminate].
    pose proof (nof_resolve R (TProxy c rg)). destruct (resolve R (TProxy c rg)) as [t'|e] eqn:E; cbn [rbind].
    + apply P; auto.
    + unfold nof in *. congruence.
Qed.
(** Proxies of [t] look into settled registries. *)
Definition anchored (t : rtype) : Prop := looks_in settled_reg t.
Lemma settled_anchored t : settled t -> anchored t.
Proof.
  unfold anchored.
  induction t as [c|c|c b s|c b|c b v|c b v|c v l va IH|c k v IHk IHv|c fs IH|c s|c ts IH|c r] using rtype_ind';
    intros S; inversion S as [t9 P F|c' R' F]; subst; cbn [looks_in children] in *; auto.
  - inversion F; subst. auto.
  - inversion F as [|? ? ? F']; subst. inversion F'; subst. auto.
  - clear S P. induction IH; inversion F; subst; cbn; auto.
  - clear S P. induction IH; inversion F; subst; cbn; auto.
  - discriminate.
Qed.
Lemma fold_and {A} (P : A -> Prop) l : fold_right (fun x Q => P x /\ Q) True l <-> Forall P l.
Proof. induction l; cbn; split; auto; [intros []; constructor; tauto|intros H; inversion H; tauto]. Qed.
Lemma anchored_child t x : anchored t -> In x (shown_children t) -> anchored x /\ rdepth x <= rdepth t.
Proof.
  unfold anchored. destruct t as [c|c|c b s|c b|c b v|c b v|c v l va|c k v|c fs|c s|c ts|c rg]; cbn [shown_children looks_in rdepth]; intros L I; try (destruct I; fail).
  - destruct I as [<-|[]]; auto.
  - destruct I as [<-|[]]. split; [apply L|lia].
  - split; [rewrite fold_and, Forall_forall in L; auto|]. clear L. induction fs as [|y l IH]; [destruct I|]; destruct I as [<-|I]; cbn; [lia|].
    specialize (IH I). lia.
  - split; [rewrite fold_and, Forall_forall in L; auto|]. clear L. induction ts as [|y l IH]; [destruct I|]; destruct I as [<-|I]; cbn; [lia|].
    specialize (IH I). lia.
Qed.
Lemma nof_tree_s prox R : settled_reg R -> forall t u, anchored t ->
  (forall t', settled t' -> rdepth t' < rdepth t -> nof (prox t')) ->
  (forall t', settled t' -> rdepth t' <= reg_depth R -> settled t \/ nof (prox t')) -> nof (js_tree prox R u t).
Proof.
  intros SR t. induction t as [t IH] using shown_ind'. intros u A P1 P2. rewrite tree_eq.
  assert (N : nof (node prox (js_tree prox R true) R t)).
  { apply nof_node.
    - intros x I. destruct (anchored_child t x A I) as [Ax Dx]. apply IH; auto.
      + intros t' S D. apply P1; auto. lia.
      + intros t' S D. destruct (P2 t' S D) as [ST|]; auto. left. inversion ST as [t0 P F|c' R' F]; subst; [|destruct I].
        rewrite Forall_forall in F. apply F. destruct t; cbn in *; auto; tauto.
    - intros t' PR RS. destruct t as [| | | | | | | | | | |c r]; try discriminate.
      apply resolve_settled in RS as [ST D].
      + destruct r as [R'|]; cbn [proxy_reg] in D.
        * apply P1; auto. rewrite rdepth_ref. lia.
        * destruct (P2 t' ST D) as [X|]; auto. inversion X; subst. discriminate.
      + auto.
      + intros R' ->. exact A. }
  destruct (c_alias (get_c t)); auto. destruct (_ && _); [discriminate|auto].
Qed.
Lemma nof_field_settled n : forall R u t, settled_reg R -> settled t -> rdepth t <= n -> nof (js_field_f n R u t).
Proof.
  induction n as [|n IH]; intros R u t SR S D; cbn [js_field_f]; apply nof_tree_s; auto using settled_anchored; try lia.
  intros t' S' D'. apply IH; auto. lia.
Qed.
Lemma nof_js_field R u t : settled_reg R -> anchored t -> nof (js_field R u t).
Proof.
  intros SR A. unfold js_field. cbn [js_field_f]. apply nof_tree_s; auto.
  - intros t' S D. apply nof_field_settled; auto. lia.
  - intros t' S D. right. apply nof_field_settled; auto. lia.
Qed.
Definition own_defs (conv : rtype -> res dict) (t : rtype) : res dict :=
  (match c_alias (get_c t) with
   | PStr a => if nonempty a && negb (dmem a builtin_aliases) then (d <- conv t ;; Ok [(a, PDict d)]) else Ok []
   | v => if truthy v then match v with PList _ | PDict _ => Err TypeError | _ => Err Unmodelled end else Ok []
   end)%res.
Lemma js_defs_eq conv t : js_defs conv t = (own <- own_defs conv t ;; defs_f conv (shown_children t) own)%res.
Proof.
  destruct t; cbn [js_defs shown_children defs_f]; unfold own_defs; destruct (c_alias (get_c _)); try reflexivity;
    match goal with |- context [if ?b then _ else _] => destruct b; try reflexivity end.
  all: cbn [rbind]; try (destruct (conv _); cbn [rbind]; try reflexivity); destruct (js_defs conv _); reflexivity.
Qed.
Lemma nof_js_defs conv t : (forall s, anchored s -> nof (conv s)) -> anchored t -> nof (js_defs conv t).
Proof.
  intros C. induction t as [t IH] using shown_ind'. intros A. rewrite js_defs_eq. apply nof_rbind.
  - unfold own_defs. destruct (c_alias (get_c t)); try (match goal with |- nof (if ?b then _ else _) => destruct b end; discriminate).
    destruct (_ && _); [|discriminate]. apply nof_rbind; [auto|discriminate].
  - assert (G : forall x, In x (shown_children t) -> nof (js_defs conv x)).
    { intros x I. apply IH; auto. apply (anchored_child t x A I). }
    induction (shown_children t) as [|x l IHl]; intros own; cbn [defs_f]; [discriminate|].
    apply nof_rbind; [apply G; now left|]. intros d. apply IHl; [intros; apply IH; auto; now right|intros; apply G; now right].
Qed.
Lemma nof_js_from R t : settled_reg R -> anchored t -> nof (js_from R t).
Proof.
  intros SR A. unfold js_from. apply nof_rbind; [apply nof_js_field; auto|]. intros d.
  apply nof_rbind; [|discriminate]. apply nof_js_defs; auto. intros s AS. apply nof_js_field; auto.
Qed.

(** ** Registries filled by reading documents are settled *)
Definition fresh_refs (t : rtype) : Prop := looks_in (fun _ => False) t.
Definition keeps {A} (Q : A -> Prop) (m : M A) : Prop :=
  forall R, settled_reg R -> settled_reg (fst (m R)) /\ forall a, snd (m R) = Ok a -> Q a.
Lemma keeps_ret {A} (Q : A -> Prop) a : Q a -> keeps Q (ret a).
Proof. intros H R S. split; auto. intros b [= <-]. exact H. Qed.
Lemma keeps_fail {A} (Q : A -> Prop) e : keeps Q (fail e).
Proof. intros R S. split; auto. discriminate. Qed.
Lemma keeps_lift {A} (r : res A) : keeps (fun _ => True) (lift r).
Proof. intros R S. split; auto. Qed.
Lemma keeps_bind {A B} (P : A -> Prop) (Q : B -> Prop) (m : M A) (f : A -> M B) : keeps P m -> (forall a, P a -> keeps Q (f a)) -> keeps Q (mbind m f).
Proof.
  intros Hm Hf R S. unfold mbind. destruct (Hm R S) as [S1 H1]. destruct (m R) as [R1 [a|e]]; cbn in *.
  - apply Hf; auto.
  - split; auto. discriminate.
Qed.
Lemma keeps_mmap {A B} (Q : B -> Prop) (f : A -> M B) l : (forall a, keeps Q (f a)) -> keeps (Forall Q) (mmap f l).
Proof.
  intros H. induction l as [|x l IH]; cbn [mmap]; [apply keeps_ret; constructor|].
  eapply keeps_bind; [apply H|]. intros y Hy. eapply keeps_bind; [apply IH|]. intros ys Hys. apply keeps_ret. now constructor.
Qed.
Lemma freeze_settled R t : settled_reg R -> fresh_refs t -> settled (freeze R t).
Proof.
  unfold fresh_refs. intros SR.
  induction t as [c|c|c b s|c b|c b v|c b v|c v l va IH|c k v IHk IHv|c fs IH|c s|c ts IH|c r] using rtype_ind';
    intros F; cbn [freeze looks_in] in *; try (apply settled_node; [reflexivity|cbn [children]; auto]).
  - destruct F as [F1 F2]. auto.
  - rewrite fold_and in F. apply Forall_map. rewrite Forall_forall in *. auto.
  - rewrite fold_and in F. apply Forall_map. rewrite Forall_forall in *. auto.
  - destruct r as [R'|]; [destruct F|]. apply settled_ref. exact SR.
Qed.
Lemma settled_set_c t c : settled t -> settled (set_c t c).
Proof.
  intros S. destruct t; inversion S as [t9 P F|c' R' F]; subst; cbn [set_c]; first [apply settled_ref; exact F|apply settled_node; [exact P|exact F]].
Qed.
Lemma keeps_register t : fresh_refs t -> keeps (fun _ => True) (register_alias t).
Proof.
  intros F R S. split; auto. unfold register_alias. destruct (c_alias (get_c t)); auto. destruct (dmem _ R); auto.
  match goal with |- context [if ?b then _ else _] => destruct b; auto end. cbn [fst]. apply Forall_app. split; auto. constructor; [|constructor]. cbn [snd].
  unfold stored. apply settled_set_c, freeze_settled; auto.
Qed.
Lemma keeps_finish t : fresh_refs t -> keeps fresh_refs (finish t).
Proof.
  intros F. unfold finish. eapply keeps_bind; [apply keeps_lift|]. intros _ _. destruct (_ && _); [|now apply keeps_ret].
  eapply keeps_bind; [now apply keeps_register|]. intros _ _. now apply keeps_ret.
Qed.
Lemma keeps_build rec d : (forall x, keeps fresh_refs (rec x)) -> keeps fresh_refs (build rec d).
Proof.
  intros H.
  assert (ML : forall l, keeps (Forall fresh_refs) (mmap rec l)) by (intros; now apply keeps_mmap).
  assert (CL : forall l, Forall fresh_refs l -> fold_right (fun x Q => looks_in (fun _ => False) x /\ Q) True l) by (intros; now apply fold_and).
  unfold build.
  repeat match goal with
    | |- keeps _ (match ?x with _ => _ end) => destruct x
    | |- keeps _ (if ?x then _ else _) => destruct x
    end; try apply keeps_fail;
  repeat match goal with
    | |- keeps _ (fail _) => apply keeps_fail
    | |- keeps _ (mbind (lift _) _) => eapply keeps_bind; [apply keeps_lift|intros ? _]
    | |- keeps _ (mbind (mmap _ _) _) => eapply keeps_bind; [apply ML|intros ? ?]
    | |- keeps _ (mbind (rec _) _) => eapply keeps_bind; [apply H|intros ? ?]
    | |- keeps _ (ret _) => apply keeps_ret
    end; cbn; auto; now apply CL.
Qed.
Lemma keeps_from_dict_f n : forall j, keeps fresh_refs (from_dict_f n j).
Proof.
  induction n as [|n IH]; intros j; cbn [from_dict_f]; [apply keeps_fail|].
  eapply keeps_bind; [apply keeps_lift|]. intros d _. destruct (is_none _); [apply keeps_fail|].
  eapply keeps_bind; [apply keeps_lift|]. intros d' _. eapply keeps_bind; [apply keeps_build, IH|]. apply keeps_finish.
Qed.
Lemma parsed_settled j R R' t : settled_reg R -> from_dict j R = (R', Ok t) -> settled_reg R' /\ anchored t.
Proof.
  intros S H. destruct (keeps_from_dict_f (psize j) j R S) as [S' F]. unfold from_dict in H. rewrite H in *. cbn in *.
  split; auto. specialize (F t eq_refl). clear - F. unfold fresh_refs, anchored in *.
  induction t as [c|c|c b s|c b|c b v|c b v|c v l va IH|c k v IHk IHv|c fs IH|c s|c ts IH|c r] using rtype_ind'; cbn [looks_in] in *; auto.
  - destruct F; auto.
  - rewrite fold_and in *. rewrite Forall_forall in *. auto.
  - rewrite fold_and in *. rewrite Forall_forall in *. auto.
  - destruct r; [destruct F|exact Logic.I].
Qed.
Lemma builtin_settled : settled_reg builtin_aliases.
Proof. repeat (constructor; [apply settled_node; [reflexivity|constructor]|]). constructor. Qed.
