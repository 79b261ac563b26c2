(** alias_dict on documents of a type (proofs only). *)
From Coq Require Import String Ascii List ZArith QArith Bool Lia.
From Verif Require Import PyVal PyValFacts RType Regex RegexFacts Registry FromDict ToDict
  FromDictFacts RoundTrip SpecTypes RegistryFacts Nullable NullableFacts Equality SpecCompact
  Compact CompactDocs CompactRead CompactClean CompactMain.
Import ListNotations.
Open Scope nat_scope.
Open Scope string_scope.
Open Scope list_scope.

(** ** One key *)
Definition one (rec : list (string * pyval) -> M pyval) (j : pyval) : M pyval :=
  match j with PDict td => rec td | _ => ret j end.
Definition slot (rec : list (string * pyval) -> M pyval) (j : pyval) : M pyval :=
  match j with PList l => (l' <- mmap (one rec) l ;; ret (PList l'))%mon | _ => one rec j end.
Definition alias_keys (rec : list (string * pyval) -> M pyval) (d : list (string * pyval)) : M (list (string * pyval)) :=
  (d <- alias_key rec "values" d ;; d <- alias_key rec "keys" d ;; d <- alias_key rec "fields" d ;; alias_key rec "types" d)%mon.

Lemma dset_get {V} k (v : V) d : dget k d = Some v -> dset k v d = d.
Proof.
  induction d as [|[k' v'] d IH]; cbn; [discriminate|]. destruct (String.eqb_spec k k') as [->|]; intros E; [congruence|]. f_equal. auto.
Qed.
Lemma key_slot rec k d v v' R : dget k d = Some v -> slot rec v R = (R, Ok v') -> alias_key rec k d R = (R, Ok (dset k v' d)).
Proof.
  intros E H. unfold alias_key. rewrite E. destruct v; cbn [slot one] in H;
    try (unfold ret in *; injection H as <-; now rewrite dset_get by auto).
  - unfold mbind, one in *. destruct (mmap _ _ R) as [R1 [l'|]]; [|discriminate]. injection H as -> <-. reflexivity.
  - unfold mbind. now rewrite H.
Qed.
Lemma key_none rec k d R : dget k d = None -> alias_key rec k d R = (R, Ok d).
Proof. intros E. unfold alias_key. now rewrite E. Qed.
Lemma slot_no_document rec v R : no_document v -> slot rec v R = (R, Ok v).
Proof.
  destruct v; cbn [no_document]; try tauto; try reflexivity. intros H.
  assert (X : mmap (one rec) l R = (R, Ok l)); [|unfold slot, mbind; now rewrite X].
  induction l as [|x l IH]; auto. specialize (IH (fun d I => H d (or_intror I))).
  assert (Y : one rec x R = (R, Ok x)) by (destruct x; try reflexivity; exfalso; eapply H; now left).
  cbn. unfold mbind. now rewrite Y, IH.
Qed.
Lemma key_app rec k a tl R : ~ In k (dkeys tl) ->
  alias_key rec k (a ++ tl) R = let (R', r) := alias_key rec k a R in (R', (d <- r ;; Ok (d ++ tl))%res).
Proof.
  intros K. apply dget_None in K. unfold alias_key. rewrite dget_app. destruct (dget k a) as [v|] eqn:E; [|now rewrite K].
  assert (X : forall v', dset k v' (a ++ tl) = dset k v' a ++ tl).
  { intros v'. revert E. clear. induction a as [|[k0 v0] a IH]; [discriminate|]. cbn. destruct (String.eqb k k0); auto. intros E. now rewrite IH. }
  destruct v as [| | | | |l|td]; try reflexivity.
  - unfold mbind. destruct (mmap _ _ R) as [R1 [l'|]]; [|reflexivity]. cbn. now rewrite X.
  - unfold mbind. destruct (rec td R) as [R1 [l'|]]; [|reflexivity]. cbn. now rewrite X.
Qed.
Lemma keys_app rec a tl R R' a' : (forall k, In k child_keys -> ~ In k (dkeys tl)) -> alias_keys rec a R = (R', Ok a') ->
  alias_keys rec (a ++ tl) R = (R', Ok (a' ++ tl)).
Proof.
  intros K. unfold alias_keys, mbind. rewrite key_app by (apply K; cbn; tauto).
  destruct (alias_key rec "values" a R) as [R1 [d1|]]; [|discriminate]. cbn [rbind].
  rewrite key_app by (apply K; cbn; tauto). destruct (alias_key rec "keys" d1 R1) as [R2 [d2|]]; [|discriminate]. cbn [rbind].
  rewrite key_app by (apply K; cbn; tauto). destruct (alias_key rec "fields" d2 R2) as [R3 [d3|]]; [|discriminate]. cbn [rbind].
  rewrite key_app by (apply K; cbn; tauto). intros ->. reflexivity.
Qed.
Lemma mmap_F2 {A B} (f : A -> M B) R l l' : Forall2 (fun x y => f x R = (R, Ok y)) l l' -> mmap f l R = (R, Ok l').
Proof. induction 1 as [|x y l l' H F IH]; auto. cbn. unfold mbind. now rewrite H, IH. Qed.

(** Attributes under the keys of children hold no documents. *)

Lemma other_key rec b t js k R : node_ok t -> plain_attributes t -> In k child_keys -> ~ In k (reserved t) ->
  alias_key rec k (entries b t js) R = (R, Ok (entries b t js)).
Proof.
  intros N P I NR. destruct (dget k (entries b t js)) as [v|] eqn:E; [|now apply key_none].
  rewrite (key_slot rec k _ v v R E); [now rewrite dset_get|]. apply slot_no_document. apply (P k); auto.
  apply dget_In in E. unfold entries in E. destruct E as [[= <- _]|E]; [cbn in I; intuition discriminate|].
  assert (X : forall k', In k' (dkeys (own b t js)) -> In k' (reserved t)).
  { intros k' J. apply own_keys in J. exact J. }
  rewrite in_app_iff in E. destruct E as [E|E]; [|exfalso; apply NR, X; apply (in_map fst) in E; exact E].
  unfold commons in E. rewrite !in_app_iff in E.
  assert (Y : forall b' k' d' v', In (k, v) (ent b' k' d' v') -> k = k').
  { intros b' k' d' v' J. apply (in_map fst) in J. now apply ent_keys in J. }
  destruct E as [E|[E|[E|E]]]; auto; exfalso.
  - destruct (is_proxy t); [destruct E|]. apply Y in E. subst. cbn in I. intuition discriminate.
  - apply Y in E. subst. cbn in I. intuition discriminate.
  - apply Y in E. subst. cbn in I. intuition discriminate.
Qed.

Section Alias.
Variable ref : string -> rtype -> Prop.
Hypothesis ref_word : forall a t, ref a t -> ~ In a type_words.
Hypothesis ref_def : forall a t, ref a t -> defined_aliases t = [].
Variable cl : bool.
Notation dict_of := (dict_of ref cl).
Notation doc_of := (doc_of ref cl).
Notation kid_of := (kid_of ref cl).

Section Node.
Variable rec : list (string * pyval) -> M pyval.
Variable R : registry.

Lemma alias_node b t js js1 js2 : node_ok t -> plain_attributes t -> length js = length (children t) ->
  Forall2 (fun j j' => one rec j R = (R, Ok j')) js js1 -> Forall2 (fun j j' => slot rec j R = (R, Ok j')) js js2 ->
  alias_keys rec (entries b t js) R = (R, Ok (entries b t (match t with TStruct _ _ | TUnion _ _ => js1 | _ => js2 end))).
Proof.
  intros N P L F1 F2. unfold alias_keys, mbind.
  assert (O : forall js k, In k child_keys -> ~ In k (reserved t) -> alias_key rec k (entries b t js) R = (R, Ok (entries b t js)))
    by (intros; now apply other_key).
  assert (S : forall js k v v', In k (reserved t) -> dget k (own b t js) = Some v -> slot rec v R = (R, Ok v') ->
    alias_key rec k (entries b t js) R = (R, Ok (("type", head_name t) :: commons b t ++ dset k v' (own b t js)))).
  { intros js0 k v v' I E H. rewrite <- set_own by auto. apply (key_slot rec k _ v v' R); auto. rewrite get_own; auto. }
  destruct t as [c|c|c x s|c x|c x v|c x v|c x l v|c x y|c fs|c s|c us|c r]; cbn [children List.length] in L;
    try (destruct js; [|discriminate]; inversion F2; subst; repeat (rewrite O by (cbn; intuition discriminate)); reflexivity).
  - destruct js as [|j [|]]; try discriminate. inversion F2 as [|? j' ? ? E F']; subst. inversion F'; subst.
    rewrite (S _ "values" j j'); [|cbn; tauto|reflexivity|auto].
    change (("type", head_name (TList c x l v)) :: commons b (TList c x l v) ++ dset "values" j' (own b (TList c x l v) [j]))
      with (entries b (TList c x l v) [j']).
    repeat (rewrite O by (cbn; intuition discriminate)). reflexivity.
  - destruct js as [|j1 [|j2 [|]]]; try discriminate. inversion F2 as [|? j1' ? ? E1 F']; subst. inversion F' as [|? j2' ? ? E2 F'']; subst. inversion F''; subst.
    rewrite (S _ "values" j2 j2'); [|cbn; tauto|reflexivity|auto].
    change (("type", head_name (TMap c x y)) :: commons b (TMap c x y) ++ dset "values" j2' (own b (TMap c x y) [j1; j2]))
      with (entries b (TMap c x y) [j1; j2']).
    rewrite (S _ "keys" j1 j1'); [|cbn; tauto|reflexivity|auto].
    change (("type", head_name (TMap c x y)) :: commons b (TMap c x y) ++ dset "keys" j1' (own b (TMap c x y) [j1; j2']))
      with (entries b (TMap c x y) [j1'; j2']).
    repeat (rewrite O by (cbn; intuition discriminate)). reflexivity.
  - repeat (rewrite O by (cbn; intuition discriminate)).
    rewrite (S _ "fields" (PList js) (PList js1)); [|cbn; tauto|reflexivity|unfold slot, mbind; now rewrite (mmap_F2 _ _ _ _ F1)].
    change (("type", head_name (TStruct c fs)) :: commons b (TStruct c fs) ++ dset "fields" (PList js1) (own b (TStruct c fs) js))
      with (entries b (TStruct c fs) js1).
    repeat (rewrite O by (cbn; intuition discriminate)). reflexivity.
  - repeat (rewrite O by (cbn; intuition discriminate)).
    rewrite (S _ "types" (PList js) (PList js1)); [|cbn; tauto|reflexivity|unfold slot, mbind; now rewrite (mmap_F2 _ _ _ _ F1)].
    reflexivity.
Qed.
End Node.

(** ** Documents that are lists *)
Lemma list_doc l x : twf x -> doc_of (PList l) x -> exists b c ts, x = TUnion c ts /\ commons b x = [] /\ Forall2 kid_of l ts.
Proof.
  intros W (nd & [= <-] & D). remember [("type", PStr "union"); ("types", PList l)] as nd eqn:E.
  pose proof (nodes_here _ _ W) as N.
  destruct D as [b t js F|a t H _|c xs js _ _ _ F|c x nd H0 H1 EA EL ED U NN ND D].
  - destruct (head_str t N) as (s & Eh & Us & _). unfold entries in E. injection E as E1 E2. rewrite E1 in Eh. injection Eh as <-.
    specialize (Us eq_refl). destruct t as [| | | | | | | | | |c ts|]; try discriminate. cbn [own] in E2.
    apply (app_inj_tail (commons b (TUnion c ts)) []) in E2 as [E2 E3]. injection E3 as <-. exists b, c, ts. auto.
  - discriminate.
  - injection E as _ E. pose proof (tail_length c) as L. rewrite E in L. cbn in L. lia.
  - exfalso. destruct (tail_last c) as (q & Eq). rewrite Eq, app_assoc in E.
    apply (app_inj_tail _ [("type", PStr "union")]) in E as [_ E]. discriminate.
Qed.
Lemma list_kid l b c ts : commons b (TUnion c ts) = [] -> Forall2 kid_of l ts -> kid_of (PList l) (TUnion c ts).
Proof.
  intros E F. split; [|discriminate]. exists [("type", PStr "union"); ("types", PList l)]. split; auto.
  replace [("type", PStr "union"); ("types", PList l)] with (entries b (TUnion c ts) l); [now apply do_node|].
  unfold entries. rewrite E. reflexivity.
Qed.

Definition safe1 (j : pyval) (x : rtype) : Prop :=
  match j with PDict d => kwarg "alias" PNone d <> PNone \/ defined_aliases x = [] | _ => True end.
Definition safe (j : pyval) (x : rtype) : Prop :=
  safe1 j x /\ match j, x with PList l, TUnion _ ts => Forall2 safe1 l ts | _, _ => True end.
Lemma defs_kids x : defined_aliases x = [] -> Forall (fun y => defined_aliases y = []) (children x).
Proof.
  rewrite defined_app. intros E. apply app_eq_nil in E as [E _]. induction (children x) as [|y l IH]; constructor; cbn in E; apply app_eq_nil in E as [E1 E2]; auto.
Qed.
Lemma safe1_none j x : defined_aliases x = [] -> safe1 j x.
Proof. destruct j; cbn; auto. Qed.
Lemma safe_none j x : twf x -> kid_of j x -> defined_aliases x = [] -> safe j x.
Proof.
  intros W K E. split; [now apply safe1_none|]. destruct j; auto. destruct K as [K _]. destruct (list_doc _ _ W K) as (b & c & ts & -> & _ & F).
  apply defs_kids in E. cbn in E. clear -F E. revert E. induction F; intros E; constructor; inversion E; subst; auto using safe1_none.
Qed.

(** What the recursive calls do. *)
Definition rec_ok (n : nat) (R : registry) : Prop := forall td x, twf x -> nodes (alias_ok cl) x ->
  dict_of td x -> (cl = true -> x <> bare_null) -> psize (PDict td) <= n -> kwarg "alias" PNone td <> PNone \/ defined_aliases x = [] ->
  exists nd, alias_dict_f n td R = (R, Ok (PDict nd)) /\ dict_of nd x.
Lemma one_ok n R j x : rec_ok n R -> twf x -> nodes (alias_ok cl) x -> kid_of j x -> safe1 j x -> psize j <= n ->
  exists j', one (alias_dict_f n) j R = (R, Ok j') /\ kid_of j' x.
Proof.
  intros H W A K S L. destruct j as [| | | | | |td]; try (eexists; split; [reflexivity|exact K]).
  destruct K as [(nd & [= <-] & D) B]. assert (NB : cl = true -> x <> bare_null) by (intros C ->; specialize (B C eq_refl); discriminate).
  destruct (H td x W A D NB L S) as (nd & E & D'). exists (PDict nd). split; auto. split; [exists nd; auto|]. intros C ->. exfalso. now apply (NB C).
Qed.
Lemma ones_ok n R l ts : rec_ok n R -> Forall twf ts -> Forall (nodes (alias_ok cl)) ts -> Forall2 kid_of l ts -> Forall2 safe1 l ts ->
  (forall j, In j l -> psize j <= n) -> exists l', Forall2 (fun j j' => one (alias_dict_f n) j R = (R, Ok j')) l l' /\ Forall2 kid_of l' ts.
Proof.
  intros H W A F. revert W A. induction F as [|j x l ts K F IH]; intros W A S L.
  - exists []. split; constructor.
  - inversion W; subst. inversion A; subst. inversion S; subst. destruct (one_ok n R j x) as (j' & E & K'); auto. { apply L. now left. }
    destruct IH as (l' & E' & F'); auto. { intros; apply L; now right. } exists (j' :: l'). split; constructor; auto.
Qed.
Lemma slot_ok n R j x : rec_ok n R -> twf x -> nodes (alias_ok cl) x -> kid_of j x -> safe j x -> psize j <= n ->
  exists j', slot (alias_dict_f n) j R = (R, Ok j') /\ kid_of j' x.
Proof.
  intros H W A K [S1 S2] L. destruct j; try (now apply one_ok).
  destruct K as [K B]. destruct (list_doc _ _ W K) as (b & c & ts & -> & E & F).
  destruct (ones_ok n R l ts H (Forall_twf_children _ W) (nodes_children _ _ A) F S2) as (l' & M & F').
  - intros j I. apply lsize_In in I. rewrite psize_list in L. lia.
  - exists (PList l'). split; [unfold slot, mbind; now rewrite (mmap_F2 _ _ _ _ M)|]. now apply list_kid with b.
Qed.
Lemma slots_ok n R l ts : rec_ok n R -> Forall twf ts -> Forall (nodes (alias_ok cl)) ts -> Forall2 kid_of l ts -> Forall2 safe l ts ->
  (forall j, In j l -> psize j <= n) -> exists l', Forall2 (fun j j' => slot (alias_dict_f n) j R = (R, Ok j')) l l' /\ Forall2 kid_of l' ts.
Proof.
  intros H W A F. revert W A. induction F as [|j x l ts K F IH]; intros W A S L.
  - exists []. split; constructor.
  - inversion W; subst. inversion A; subst. inversion S; subst. destruct (slot_ok n R j x) as (j' & E & K'); auto. { apply L. now left. }
    destruct IH as (l' & E' & F'); auto. { intros; apply L; now right. } exists (j' :: l'). split; constructor; auto.
Qed.
Lemma keys_ok n R b t js : rec_ok n R -> twf t -> nodes (alias_ok cl) t -> plain_attributes t -> Forall2 kid_of js (children t) -> Forall2 safe js (children t) ->
  (forall j, In j js -> psize j <= n) -> exists js', alias_keys (alias_dict_f n) (entries b t js) R = (R, Ok (entries b t js')) /\ Forall2 kid_of js' (children t).
Proof.
  intros H W A P F S L. pose proof (Forall_twf_children _ W) as WC. pose proof (nodes_children _ _ A) as AC.
  destruct (slots_ok n R _ _ H WC AC F S L) as (l2 & M2 & F2).
  destruct (ones_ok n R _ _ H WC AC F) as (l1 & M1 & F1); auto. { eapply F2_impl; [|exact S]. intros ? ? []; auto. }
  rewrite (alias_node _ R b t js l1 l2); auto; [|now apply nodes_here in W|now apply F2_length in F].
  destruct t; eauto.
Qed.
End Alias.
