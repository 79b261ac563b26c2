(** clean_dict on clean documents (proofs only). *)
From Coq Require Import String Ascii List ZArith QArith Bool Lia.
From Verif Require Import PyVal PyValFacts RType Registry FromDict ToDict FromDictFacts RoundTrip CompactDocs CompactRead CompactClean CompactAlias SpecTidy.
Import ListNotations.
Open Scope nat_scope.
Open Scope string_scope.
Open Scope list_scope.

(** What clean_dict leaves. *)
Inductive clean_form : pyval -> Prop :=
| cf_str s : ~ In s ["list"; "map"; "union"] -> clean_form (PStr s)
| cf_list l : Forall clean_form l -> clean_form (PList l)
| cf_dict nd nm : dget "type" nd = Some (PStr nm) -> strip_defaults nm nd = nd -> 2 <= length nd ->
    (nm = "list" \/ nm = "map" -> exists v, dget "values" nd = Some v /\ clean_form v) ->
    (nm = "map" -> exists v, dget "keys" nd = Some v /\ clean_form v) ->
    (nm = "struct" -> forall v, dget "fields" nd = Some v -> exists l, v = PList l /\ Forall clean_form l) ->
    (nm = "union" -> exists l, dget "types" nd = Some (PList l) /\ Forall clean_form l /\ 3 <= length nd /\
       (In (PStr "null") l -> dget "default" nd = None)) ->
    clean_form (PDict nd).

Lemma null_in l : py_str_in "null" (PList l) = Ok true <-> In (PStr "null") l.
Proof.
  cbn. split.
  - intros [= E]. apply existsb_exists in E as (x & I & E). apply py_eq_str_inv in E. now subst.
  - intros I. f_equal. apply existsb_exists. exists (PStr "null"). split; auto.
Qed.
Lemma null_notin l : ~ In (PStr "null") l -> py_str_in "null" (PList l) = Ok false.
Proof.
  intros N. destruct (existsb (fun x => py_eq x (PStr "null")) l) eqn:E; cbn; rewrite E; auto.
  exfalso. apply N, null_in. cbn. now rewrite E.
Qed.
Lemma dmem_get {V} k (d : list (string * V)) : dmem k d = match dget k d with Some _ => true | None => false end.
Proof. reflexivity. Qed.

Lemma list_fixed n l : Forall (fun x => clean_dict_f n x = Ok x) l -> rmap (clean_dict_f n) l = Ok l.
Proof. intros F. apply rmap_Ok. induction F; constructor; auto. Qed.

Lemma str_in_In s l : str_in s l = true <-> In s l.
Proof.
  unfold str_in. rewrite existsb_exists. split.
  - intros (x & I & E). apply String.eqb_eq in E. now subst.
  - intros I. exists s. split; auto. apply String.eqb_refl.
Qed.

Lemma clean_fixed n : forall j, clean_form j -> psize j <= n -> clean_dict_f n j = Ok j.
Proof.
  induction n as [|n IH]; intros j C S; [destruct j; cbn in S; lia|]. destruct C as [s NS|l F|nd nm T ST L CV CK CF CU].
  - cbn -[String.eqb strip_defaults]. unfold clean_body, kwarg. cbn [dget]. rewrite String.eqb_refl.
    assert (E : strip_defaults s [("type", PStr s)] = [("type", PStr s)]).
    { apply strip_keep. cbn. intros k [<-|[]]. apply default_none. cbn. intuition discriminate. }
    rewrite E. assert (N1 : str_in s ["list"; "map"] = false).
    { apply not_true_is_false. rewrite str_in_In. intros I. apply NS. cbn in *. tauto. }
    assert (N2 : String.eqb s "map" = false) by (apply String.eqb_neq; intros ->; apply NS; cbn; auto).
    assert (N3 : String.eqb s "union" = false) by (apply String.eqb_neq; intros ->; apply NS; cbn; auto).
    assert (SG : sugar [("type", PStr s)] = Ok [("type", PStr s)]).
    { unfold sugar. change (kwarg "type" PNone [("type", PStr s)]) with (PStr s). cbn [py_eq]. rewrite N3. reflexivity. }
    rewrite N1, N2, N3. cbn [rbind]. destruct (String.eqb s "struct"); cbn [rbind]; [change (dget "fields" [("type", PStr s)]) with (@None pyval); cbn [rbind]|];
      rewrite SG; reflexivity.
  - assert (R : rmap (clean_dict_f n) l = Ok l).
    { apply list_fixed. rewrite Forall_forall in *. intros x I. apply IH; auto. apply lsize_In in I. rewrite psize_list in S. lia. }
    change (clean_dict_f (Datatypes.S n) (PList l)) with
      (d <- (l' <- rmap (clean_dict_f n) l ;; Ok [("type", PStr "union"); ("types", PList l')]) ;; d <- sugar d ;; Ok (shorten d))%res.
    rewrite R. cbn [rbind]. unfold sugar. cbn [kwarg dget]. change (dmem "default" [("type", PStr "union"); ("types", PList l)]) with false.
    destruct (py_str_in "null" (PList l)) as [[]|e] eqn:X; [| |discriminate]; cbn; cbn in X; injection X as ->; reflexivity.
  - assert (SZ : forall k v, dget k nd = Some v -> psize v <= n).
    { intros k v E. apply dsize_dget in E. rewrite psize_dict in S. lia. }
    assert (SL : forall k l x, dget k nd = Some (PList l) -> In x l -> psize x <= n).
    { intros k l x E I. apply SZ in E. apply lsize_In in I. rewrite psize_list in E. lia. }
    assert (B : clean_body (clean_dict_f n) nd = Ok nd).
    { unfold clean_body, kwarg. rewrite T, ST.
      assert (E1 : (if str_in nm ["list"; "map"] then match dget "values" nd with None => Err AssertionError
                 | Some v => (v' <- clean_dict_f n v ;; Ok (dset "values" v' nd)) end else Ok nd)%res = Ok nd).
      { destruct (str_in nm _) eqn:E; auto. apply str_in_In in E. destruct CV as (v & G & C); [cbn in E; intuition|].
        rewrite G, (IH v C) by eauto. cbn. f_equal. now apply dset_get. }
      rewrite E1. cbn [rbind]. clear E1.
      assert (E1 : (if String.eqb nm "map" then match dget "keys" nd with None => Err KeyError
                 | Some v => (v' <- clean_dict_f n v ;; Ok (dset "keys" v' nd)) end else Ok nd)%res = Ok nd).
      { destruct (String.eqb_spec nm "map"); auto. destruct CK as (v & G & C); auto.
        rewrite G, (IH v C) by eauto. cbn. f_equal. now apply dset_get. }
      rewrite E1. cbn [rbind]. clear E1.
      assert (E1 : (if String.eqb nm "struct" then match dget "fields" nd with None => Ok nd
                 | Some v => (l <- py_iter v ;; l' <- rmap (clean_dict_f n) l ;; Ok (dset "fields" (PList l') nd)) end else Ok nd)%res = Ok nd).
      { destruct (String.eqb_spec nm "struct"); auto. destruct (dget "fields" nd) as [v|] eqn:G; auto.
        destruct (CF e v eq_refl) as (l & -> & F). cbn [py_iter rbind]. rewrite list_fixed; [cbn [rbind]; f_equal; now apply dset_get|].
        rewrite Forall_forall in *. intros x I. apply IH; eauto. }
      rewrite E1. cbn [rbind]. clear E1.
      destruct (String.eqb_spec nm "union"); auto. destruct (CU e) as (l & G & F & _ & _). rewrite G. cbn [py_iter rbind].
      rewrite list_fixed; [cbn [rbind]; f_equal; now apply dset_get|]. rewrite Forall_forall in *. intros x I. apply IH; eauto. }
    cbn [clean_dict_f clean_input]. rewrite dmem_get, T. cbn [rbind]. rewrite B. cbn [rbind].
    assert (SG : sugar nd = Ok nd).
    { unfold sugar, kwarg. rewrite T. destruct (py_eq (PStr nm) (PStr "union")) eqn:E; [|reflexivity]. cbn in E. apply String.eqb_eq in E.
      destruct (CU E) as (l & G & _ & _ & D). cbn [negb]. rewrite G. destruct (py_str_in "null" (PList l)) as [[]|e] eqn:I; [| |discriminate].
      - apply null_in in I. cbn [rbind andb]. rewrite dmem_get, (D I). reflexivity.
      - reflexivity. }
    rewrite SG. cbn [rbind]. f_equal. unfold shorten, kwarg. rewrite T.
    replace (Nat.eqb (length nd) 1) with false by (symmetry; apply Nat.eqb_neq; lia).
    destruct (py_eq (PStr nm) (PStr "union")) eqn:E; cbn [andb]; auto. cbn in E. apply String.eqb_eq in E.
    destruct (CU E) as (l & _ & _ & L3 & _). replace (Nat.eqb (length nd) 2) with false by (symmetry; apply Nat.eqb_neq; lia). reflexivity.
Qed.

(** ** Dictionaries *)
Definition keep (nm : string) (kv : string * pyval) : bool :=
  match dget (fst kv) (param_defaults nm) with None => true | Some v => negb (py_eq v (snd kv)) end.
Lemma strip_all nm d : strip_defaults nm d = d <-> Forall (fun kv => keep nm kv = true) d.
Proof.
  unfold strip_defaults. change (fun kv : string * pyval => match dget (fst kv) (param_defaults nm) with None => true | Some v => negb (py_eq v (snd kv)) end) with (keep nm).
  split.
  - intros E. rewrite <- E. apply Forall_forall. intros kv I. now apply filter_In in I.
  - induction 1 as [|kv d K F IH]; cbn; auto. now rewrite K, IH.
Qed.
Lemma strip_In nm d kv : In kv (strip_defaults nm d) <-> In kv d /\ keep nm kv = true.
Proof. apply filter_In. Qed.
Lemma strip_strip nm d : strip_defaults nm (strip_defaults nm d) = strip_defaults nm d.
Proof. apply strip_all, Forall_forall. intros kv I. now apply strip_In in I. Qed.
Lemma keep_free nm k v : ~ In k ["alias"; "logical"; "doc"; "signed"; "bytes"; "variable"; "length"; "fields"] -> keep nm (k, v) = true.
Proof. intros N. unfold keep. cbn. now rewrite default_none. Qed.
Lemma strip_get nm d k : ~ In k ["alias"; "logical"; "doc"; "signed"; "bytes"; "variable"; "length"; "fields"] -> dget k (strip_defaults nm d) = dget k d.
Proof.
  intros N. induction d as [|[k' v'] d IH]; auto. cbn. fold (keep nm (k', v')). destruct (String.eqb_spec k k') as [<-|NE].
  - unfold keep. cbn. rewrite default_none by auto. cbn. now rewrite String.eqb_refl.
  - destruct (match dget k' (param_defaults nm) with None => true | Some v => negb (py_eq v v') end); cbn; auto. apply String.eqb_neq in NE. now rewrite NE.
Qed.
Lemma dset_In {V} k (v : V) d kv : In kv (dset k v d) -> In kv d \/ kv = (k, v).
Proof.
  induction d as [|[k' v'] d IH]; cbn; [intros [<-|[]]; auto|]. destruct (String.eqb_spec k k') as [<-|NE]; cbn; intros [<-|I]; auto.
  destruct (IH I); auto.
Qed.
Lemma dget_set {V} k k' (v : V) d : dget k (dset k' v d) = if String.eqb k k' then Some v else dget k d.
Proof.
  induction d as [|[x y] d IH]; cbn; auto. destruct (String.eqb_spec k' x) as [<-|NE]; cbn.
  - now destruct (String.eqb k k').
  - destruct (String.eqb_spec k x) as [<-|]; auto. destruct (String.eqb_spec k k'); congruence.
Qed.
Lemma strip_dset nm k v d : strip_defaults nm d = d -> keep nm (k, v) = true -> strip_defaults nm (dset k v d) = dset k v d.
Proof.
  rewrite !strip_all, !Forall_forall. intros F K kv I. destruct (dset_In _ _ _ _ I) as [I2| ->]; auto.
Qed.
Lemma dupd_other {V} (e : list (string * V)) : forall d k, ~ In k (dkeys e) -> dget k (dupd d e) = dget k d.
Proof.
  induction e as [|[k' v'] e IH]; intros d k N; auto. cbn in *. unfold dupd in *. cbn. rewrite IH by tauto. rewrite dget_set. destruct (String.eqb_spec k k'); auto. exfalso. apply N. auto.
Qed.
Lemma dupd_In {V} (e : list (string * V)) : forall d kv, In kv (dupd d e) -> In kv d \/ In kv e.
Proof.
  induction e as [|[k' v'] e IH]; intros d kv I; auto. unfold dupd in *. cbn in *. destruct (IH _ _ I) as [J|J]; auto.
  destruct (dset_In _ _ _ _ J) as [J2|J2]; auto.
Qed.
Lemma dset_keys {V} k (v : V) d x : In x (dkeys (dset k v d)) <-> x = k \/ In x (dkeys d).
Proof.
  induction d as [|[k' v'] d IH]; cbn; [intuition|]. destruct (String.eqb_spec k k') as [<-|NE]; cbn; [intuition|].
  unfold dkeys in IH. rewrite IH. intuition.
Qed.
Lemma dupd_keys {V} (e : list (string * V)) : forall d x, In x (dkeys (dupd d e)) <-> In x (dkeys d) \/ In x (dkeys e).
Proof.
  induction e as [|[k' v'] e IH]; intros d x; [cbn; intuition|].
  change (dupd d ((k', v') :: e)) with (dupd (dset k' v' d) e). rewrite IH, dset_keys. change (dkeys ((k', v') :: e)) with (k' :: dkeys e). cbn [In]. intuition.
Qed.
Lemma keys_length {V} (ks : list string) (d : list (string * V)) : NoDup ks -> (forall k, In k ks -> In k (dkeys d)) -> length ks <= length d.
Proof. intros N I. replace (length d) with (length (dkeys d)) by apply map_length. now apply NoDup_incl_length. Qed.

(** ** clean_dict *)
Definition good (j j' : pyval) : Prop :=
  clean_form j' /\ (j' = PStr "null" -> null_doc j) /\
  (forall nd l, j' = PDict nd -> dget "type" nd = Some (PStr "union") -> dget "types" nd = Some (PList l) -> In (PStr "null") l -> nullable_doc j).

Lemma F2_In_lr {A B} (P Q : A -> B -> Prop) l l' : Forall2 P l l' -> (forall x y, In x l -> In y l' -> P x y -> Q x y) -> Forall2 Q l l'.
Proof.
  induction 1 as [|x y l l' H F IH]; intros K; constructor.
  - apply K; cbn; auto.
  - apply IH. intros. apply K; cbn; auto.
Qed.

Section Body.
Variable rec : pyval -> res pyval.
Hypothesis rec_str : forall s x, rec (PStr s) = Ok x -> good (PStr s) x.

Lemma body_form d nm d1 : dget "type" d = Some (PStr nm) ->
  (forall x x', child_doc nm d x -> rec x = Ok x' -> good x x') ->
  (nm = "union" -> exists l, dget "types" d = Some (PList l)) ->
  clean_body rec d = Ok d1 ->
  dget "type" d1 = Some (PStr nm) /\ strip_defaults nm d1 = d1 /\
  (nm = "list" \/ nm = "map" -> exists v, dget "values" d1 = Some v /\ clean_form v) /\
  (nm = "map" -> exists v, dget "keys" d1 = Some v /\ clean_form v) /\
  (nm = "struct" -> forall v, dget "fields" d1 = Some v -> exists l, v = PList l /\ Forall clean_form l) /\
  (nm = "union" -> exists l l', dget "types" d = Some (PList l) /\ dget "types" d1 = Some (PList l') /\ Forall2 good l l') /\
  (nm = "union" -> dget "default" d1 = dget "default" d) /\
  (nm = "null" -> d1 = strip_defaults nm d).
Proof.
  intros T CH UT. unfold clean_body, kwarg. rewrite T.
  pose proof (strip_strip nm d) as SS. pose proof (fun k => strip_get nm d k) as G. remember (strip_defaults nm d) as d0 eqn:E0.
  assert (T0 : dget "type" d0 = Some (PStr nm)) by (rewrite G; auto; cbn; intuition discriminate).
  assert (G1 : dget "values" d0 = dget "values" d) by (apply G; cbn; intuition discriminate).
  assert (G2 : dget "keys" d0 = dget "keys" d) by (apply G; cbn; intuition discriminate).
  assert (G3 : dget "types" d0 = dget "types" d) by (apply G; cbn; intuition discriminate).
  assert (G4 : dget "default" d0 = dget "default" d) by (apply G; cbn; intuition discriminate).
  assert (G5 : forall v, dget "fields" d0 = Some v -> In ("fields", v) d).
  { intros v H. apply dget_In in H. rewrite E0 in H. now apply strip_In in H. }
  clear E0 G.
  assert (KV : forall v, keep nm ("values", v) = true) by (intros; apply keep_free; cbn; intuition discriminate).
  assert (KK : forall v, keep nm ("keys", v) = true) by (intros; apply keep_free; cbn; intuition discriminate).
  assert (KT : forall v, keep nm ("types", v) = true) by (intros; apply keep_free; cbn; intuition discriminate).
  destruct (String.eqb_spec nm "list") as [->|NL].
  { cbn [str_in existsb String.eqb Ascii.eqb Bool.eqb orb]. destruct (dget "values" d0) as [v|] eqn:V; [|discriminate]. cbn.
    destruct (rec v) as [v'|] eqn:R; [|discriminate]. cbn. intros [= <-].
    destruct (CH v v') as (C & _); auto. { apply child_values; auto. }
    split; [rewrite dget_set; exact T0|]. split; [now apply strip_dset|]. split; [intros _; exists v'; rewrite dget_set; auto|].
    repeat split; intros; discriminate. }
  destruct (String.eqb_spec nm "map") as [->|NM].
  { cbn [str_in existsb String.eqb Ascii.eqb Bool.eqb orb]. destruct (dget "values" d0) as [v|] eqn:V; [|discriminate]. cbn.
    destruct (rec v) as [v'|] eqn:R; [|discriminate]. cbn. rewrite dget_set. cbn. destruct (dget "keys" d0) as [k|] eqn:K; [|discriminate].
    destruct (rec k) as [k'|] eqn:R2; [|discriminate]. cbn. intros [= <-].
    destruct (CH v v') as (C & _); auto. { apply child_values; auto. }
    destruct (CH k k') as (C2 & _); auto. { now apply child_keys. }
    split; [rewrite !dget_set; exact T0|]. split; [apply strip_dset; auto; now apply strip_dset|]. split; [intros _; exists v'; rewrite !dget_set; auto|].
    split; [intros _; exists k'; rewrite !dget_set; auto|].
    repeat split; intros; discriminate. }
  assert (E1 : str_in nm ["list"; "map"] = false).
  { apply not_true_is_false. rewrite str_in_In. cbn. intuition congruence. }
  rewrite E1. cbn [rbind]. clear E1.
  destruct (String.eqb_spec nm "struct") as [->|NS].
  { cbn [String.eqb Ascii.eqb Bool.eqb]. destruct (dget "fields" d0) as [v|] eqn:V; cbn [rbind].
    - destruct (py_iter v) as [l|] eqn:PI; [|discriminate]. cbn [rbind]. destruct (rmap rec l) as [l'|] eqn:R; [|discriminate]. cbn. intros [= <-].
      apply rmap_Ok in R.
      assert (C : Forall clean_form l').
      { apply Forall_forall. intros x' I. destruct (F2_In_r _ _ _ _ R I) as (x & Ix & Rx).
        destruct v; cbn in PI; try discriminate; injection PI as <-.
        - apply in_map_iff in Ix as (s0 & <- & _). now apply rec_str in Rx as [].
        - destruct (CH x x') as [C _]; auto. eapply child_fields; eauto.
        - apply in_map_iff in Ix as (s0 & <- & _). now apply rec_str in Rx as []. }
      split; [rewrite dget_set; exact T0|]. split; [now apply strip_dset|]. split; [intros [|]; discriminate|]. split; [discriminate|].
      split; [intros _ v0; rewrite dget_set; cbn; intros [= <-]; eauto|]. repeat split; intros; discriminate.
    - intros [= <-]. split; [exact T0|]. split; auto. split; [intros [|]; discriminate|]. split; [discriminate|].
      split; [intros _ v0; rewrite V; discriminate|]. repeat split; intros; discriminate. }
  cbn [rbind]. destruct (String.eqb_spec nm "union") as [->|NU].
  { destruct (UT eq_refl) as (l & V). rewrite G3, V. cbn [py_iter rbind]. destruct (rmap rec l) as [l'|] eqn:R; [|discriminate]. cbn [rbind]. intros [= <-].
    apply rmap_Ok in R. split; [rewrite dget_set; exact T0|]. split; [now apply strip_dset|]. split; [intros [|]; discriminate|]. split; [discriminate|]. split; [discriminate|].
    split; [|split; [rewrite dget_set; exact (fun _ => G4)|discriminate]].
    intros _. exists l, l'. split; auto. rewrite dget_set. split; auto. eapply F2_In_lr; [exact R|].
    intros x x' I _ Rx. apply CH; auto. eapply child_types; eauto. }
  intros [= <-]. split; auto. split; auto. repeat split; intros; try tauto; subst; try congruence.
Qed.
End Body.

(** What the sugar adds. *)
Definition sugar_attrs (d : list (string * pyval)) : list (string * pyval) :=
  filter (fun kv => negb (is_none (snd kv)))
    [("alias", kwarg "alias" PNone d); ("default", kwarg "default" PNone d); ("doc", kwarg "doc" PNone d);
     ("logical", kwarg "logical" PNone d); ("name", kwarg "name" PNone d); ("optional", PBool true)].
Lemma attrs_keys d k : In k (dkeys (sugar_attrs d)) -> In k ["alias"; "default"; "doc"; "logical"; "name"; "optional"].
Proof.
  unfold sugar_attrs, dkeys. rewrite in_map_iff. intros ([k' v] & <- & I). apply filter_In in I as [I _].
  cbn in I. cbn. intuition congruence.
Qed.
Lemma attrs_optional d : In "optional" (dkeys (sugar_attrs d)).
Proof. unfold sugar_attrs, dkeys. apply in_map_iff. exists ("optional", PBool true). split; auto. apply filter_In. cbn. auto 8. Qed.
Lemma attrs_keep nm d kv : In kv (sugar_attrs d) -> keep nm kv = true.
Proof.
  unfold sugar_attrs. intros I. apply filter_In in I as [I N]. destruct kv as [k v]. cbn in N.
  assert (NP : py_eq PNone v = false) by (destruct v; auto; discriminate).
  cbn in I. destruct I as [[= <- <-]|[[= <- <-]|[[= <- <-]|[[= <- <-]|[[= <- <-]|[[= <- <-]|[]]]]]]];
    try (apply keep_free; cbn; intuition discriminate); unfold keep; cbn [fst snd]; rewrite default_base by (cbn; tauto); now rewrite NP.
Qed.
Lemma attrs_default d : kwarg "default" PNone d = PNone -> ~ In "default" (dkeys (sugar_attrs d)).
Proof.
  intros E. unfold sugar_attrs. rewrite E. unfold dkeys. rewrite in_map_iff. intros ([k v] & X & I). cbn in X. subst k.
  apply filter_In in I as [I N]. cbn in I, N. destruct I as [[= <-]|[[= <-]|[[= <-]|[[= <-]|[[= <-]|[[= <-]|[]]]]]]]; try discriminate.
Qed.
Lemma upd_strip nm d a : strip_defaults nm d = d -> strip_defaults nm (dupd d (sugar_attrs a)) = dupd d (sugar_attrs a).
Proof.
  rewrite !strip_all, !Forall_forall. intros F kv I. apply dupd_In in I as [I|I]; auto. eapply attrs_keep; eauto.
Qed.
Lemma upd_get d a k : ~ In k ["alias"; "default"; "doc"; "logical"; "name"; "optional"] -> dget k (dupd d (sugar_attrs a)) = dget k d.
Proof. intros N. apply dupd_other. intros I. apply N. eapply attrs_keys; eauto. Qed.
Lemma key_get {V} k (v : V) d : dget k d = Some v -> In k (dkeys d).
Proof. intros E. apply dget_In in E. apply (in_map fst) in E. exact E. Qed.

(** Adding the attributes of an optional union to a clean document. *)
Lemma form_upd nd a : clean_form (PDict nd) ->
  (forall l, dget "type" nd = Some (PStr "union") -> dget "types" nd = Some (PList l) -> In (PStr "null") l -> kwarg "default" PNone a = PNone) ->
  clean_form (PDict (dupd nd (sugar_attrs a))).
Proof.
  intros C NU. inversion C as [| |? nm T S L CV CK CF CU]; subst.
  apply cf_dict with nm.
  - rewrite upd_get; auto. cbn. intuition discriminate.
  - now apply upd_strip.
  - apply (keys_length ["type"; "optional"]); [repeat constructor; cbn; intuition discriminate|].
    intros k [<-|[<-|[]]]; apply dupd_keys; [left; eapply key_get; eauto|right; apply attrs_optional].
  - rewrite upd_get; auto. cbn. intuition discriminate.
  - rewrite upd_get; auto. cbn. intuition discriminate.
  - rewrite upd_get; auto. cbn. intuition discriminate.
  - intros ->. destruct (CU eq_refl) as (l & G & F & L3 & D). exists l. split; [rewrite upd_get; auto; cbn; intuition discriminate|].
    split; auto. split.
    + apply (keys_length ["type"; "types"; "optional"]); [repeat constructor; cbn; intuition discriminate|].
      intros k [<-|[<-|[<-|[]]]]; apply dupd_keys; [left; eapply key_get; eauto|left; eapply key_get; eauto|right; apply attrs_optional].
    + intros I. rewrite dupd_other; auto. apply attrs_default. eauto.
Qed.

Lemma form_short d nm : dget "type" d = Some (PStr nm) -> strip_defaults nm d = d -> 
  (nm = "list" \/ nm = "map" -> exists v, dget "values" d = Some v /\ clean_form v) ->
  (nm = "map" -> exists v, dget "keys" d = Some v /\ clean_form v) ->
  (nm = "struct" -> forall v, dget "fields" d = Some v -> exists l, v = PList l /\ Forall clean_form l) ->
  (nm = "union" -> exists l, dget "types" d = Some (PList l) /\ Forall clean_form l /\
       (In (PStr "null") l -> dget "default" d = None)) ->
  clean_form (shorten d) /\ (shorten d = PStr "null" -> nm = "null" /\ d = [("type", PStr "null")]) /\ (forall nd, shorten d = PDict nd -> nd = d).
Proof.
  intros T S CV CK CF CU. unfold shorten, kwarg. rewrite T. destruct (Nat.eqb_spec (length d) 1) as [L1|L1].
  - assert (D : d = [("type", PStr nm)]).
    { destruct d as [|[k v] [|]]; try discriminate. cbn in T. destruct k as [|c k]; [discriminate|]. destruct (String.eqb "type" (String c k)) eqn:E; cbn in E; rewrite E in T; [|discriminate].
      change (String.eqb "type" (String c k) = true) in E. apply String.eqb_eq in E. congruence. }
    split; [|split; [intros [= ->]; auto|intros nd H; discriminate H]]. constructor. cbn. intros [<-|[<-|[<-|[]]]]; subst.
    + destruct CV as (v & G & _); auto. discriminate.
    + destruct CV as (v & G & _); auto. discriminate.
    + destruct CU as (v & G & _); auto. discriminate.
  - destruct (py_eq (PStr nm) (PStr "union")) eqn:E; cbn [andb]; cbn in E; [apply String.eqb_eq in E|apply String.eqb_neq in E].
    + destruct (CU E) as (l & G & F & D). destruct (Nat.eqb_spec (length d) 2) as [L2|L2].
      * rewrite G. split; [now constructor|split; [intros H; discriminate H|intros nd H; discriminate H]].
      * split; [|split; [discriminate|congruence]]. assert (L : 2 <= length d).
        { apply (keys_length ["type"; "types"]); [repeat constructor; cbn; intuition discriminate|]. intros k [<-|[<-|[]]]; eapply key_get; eauto. }
        apply cf_dict with nm; auto. intros _. exists l. repeat split; auto. lia.
    + split; [|split; [discriminate|congruence]]. apply cf_dict with nm; auto; [|intros; contradiction].
      assert (1 <= length d); [|lia]. apply (keys_length ["type"]); [repeat constructor; cbn; auto|]. intros k [<-|[]]; eapply key_get; eauto.
Qed.

Lemma null_child l l' : Forall2 good l l' -> In (PStr "null") l' -> exists x, In x l /\ null_doc x.
Proof. intros F I. destruct (F2_In_r _ _ _ _ F I) as (x & Ix & _ & N & _). exists x. auto. Qed.
Lemma remove_split l : In (PStr "null") l -> exists a b, l = a ++ PStr "null" :: b /\ remove_first "null" l = a ++ b /\ ~ In (PStr "null") a.
Proof.
  induction l as [|x l IH]; [intros []|]. intros I. cbn [remove_first]. destruct (py_eq x (PStr "null")) eqn:E.
  - apply py_eq_str_inv in E. subst. exists [], l. auto.
  - assert (N : x <> PStr "null") by (intros ->; discriminate). destruct I as [I|I]; [congruence|]. destruct (IH I) as (a & b & -> & -> & Na).
    exists (x :: a), b. repeat split; auto. cbn. intros [J|J]; auto.
Qed.
Lemma ddel_all nm k d : strip_defaults nm d = d -> strip_defaults nm (ddel k d) = ddel k d.
Proof. rewrite !strip_all, !Forall_forall. intros F kv I. apply F. apply filter_In in I. apply I. Qed.

Lemma shorten_form nd : clean_form (PDict nd) -> shorten nd = PDict nd.
Proof.
  intros C. inversion C as [| |? nm T S L CV CK CF CU]; subst. unfold shorten, kwarg. rewrite T.
  destruct (Nat.eqb_spec (length nd) 1); [lia|]. destruct (py_eq (PStr nm) (PStr "union")) eqn:E; auto. apply py_eq_str_inv in E. injection E as ->.
  destruct (CU eq_refl) as (l & _ & _ & L3 & _). destruct (Nat.eqb_spec (length nd) 2); [lia|]. reflexivity.
Qed.
Lemma form_name s a : clean_form (PStr s) -> clean_form (PDict (dupd [("type", PStr s)] (sugar_attrs a))).
Proof.
  intros C. inversion C as [? NS| |]; subst. cbn in NS.
  apply cf_dict with s.
  - rewrite upd_get; auto. cbn. intuition discriminate.
  - apply upd_strip. apply strip_keep. cbn. intros k [<-|[]]. apply default_none. cbn. intuition discriminate.
  - apply (keys_length ["type"; "optional"]); [repeat constructor; cbn; intuition discriminate|].
    intros k [<-|[<-|[]]]; apply dupd_keys; [left; cbn; auto|right; apply attrs_optional].
  - intros [-> | ->]; exfalso; tauto.
  - intros ->; exfalso; tauto.
  - intros -> v. rewrite upd_get; [discriminate|cbn; intuition discriminate].
  - intros ->; exfalso; tauto.
Qed.

Lemma clean_good n : forall j j', tidy j -> clean_dict_f n j = Ok j' -> good j j'.
Proof.
  induction n as [|n IH]; intros j j' TD; [discriminate|].
  assert (RS : forall s x, clean_dict_f n (PStr s) = Ok x -> good (PStr s) x) by (intros s x; apply IH; constructor).
  cbn [clean_dict_f]. destruct TD as [s|l F|d nm T CH UT|d l l0 T U F].
  - cbn [clean_input rbind]. intros H. apply rbind_Ok in H as (d1 & B & H).
    destruct (string_dec s "union") as [->|NU].
    { cbn in B. discriminate. }
    destruct (body_form _ RS [("type", PStr s)] s d1) as (T1 & S1 & C1 & C2 & C3 & _ & _ & C4); auto; try contradiction.
    { intros x x' K. exfalso. destruct K as [_ G|_ G|l _ G _|l _ G _]; try discriminate. destruct G as [[=]|[]]. }
    assert (SG : sugar d1 = Ok d1).
    { unfold sugar, kwarg. rewrite T1. cbn [py_eq]. apply String.eqb_neq in NU. now rewrite NU. }
    rewrite SG in H. cbn [rbind] in H. injection H as <-.
    destruct (form_short d1 s) as (A1 & A2 & A3); auto; try contradiction. split; auto. split.
    + intros E. left. destruct (A2 E) as [-> _]. auto.
    + intros nd l0 E G. apply A3 in E. subst. rewrite T1 in G. congruence.
  - cbn [clean_input rbind]. intros H. apply rbind_Ok in H as (d1 & B & H).
    change (clean_body (clean_dict_f n) [("type", PStr "union"); ("types", PList l)]) with
      (l' <- rmap (clean_dict_f n) l ;; Ok [("type", PStr "union"); ("types", PList l')])%res in B.
    apply rbind_Ok in B as (l' & R & [= <-]). apply rmap_Ok in R. rewrite Forall_forall in F.
    assert (SG : sugar [("type", PStr "union"); ("types", PList l')] = Ok [("type", PStr "union"); ("types", PList l')]).
    { unfold sugar. change (dmem "default" [("type", PStr "union"); ("types", PList l')]) with false. cbn [kwarg dget]. cbn. now rewrite andb_false_r. }
    rewrite SG in H. cbn in H. injection H as <-. split; [|split; intros; discriminate]. constructor. apply Forall_forall. intros x' I.
    destruct (F2_In_r _ _ _ _ R I) as (x & Ix & Rx). apply (IH x x'); auto.
  - cbn [clean_input]. rewrite dmem_get, T. cbn [rbind]. intros H. apply rbind_Ok in H as (d1 & B & H).
    destruct (body_form _ RS d nm d1) as (T1 & S1 & C1 & C2 & C3 & C4 & C5 & C6); auto.
    { intros E. destruct (UT E) as (l & G & _). eauto. }
    apply rbind_Ok in H as (d2 & SG & [= <-]).
    destruct (string_dec nm "union") as [->|NU].
    2:{ assert (d2 = d1); [|subst].
        { unfold sugar, kwarg in SG. rewrite T1 in SG. cbn [py_eq] in SG. apply String.eqb_neq in NU. rewrite NU in SG. cbn in SG. congruence. }
        destruct (form_short d1 nm) as (A1 & A2 & A3); auto; try contradiction. split; auto. split.
        - intros E. destruct (A2 E) as [-> D1]. right. exists d. split; auto. split; auto. rewrite (C6 eq_refl) in D1. intros k v I.
          destruct (keep "null" (k, v)) eqn:K.
          + left. assert (J : In (k, v) (strip_defaults "null" d)) by now apply strip_In. rewrite D1 in J. destruct J as [[= <- _]|[]]. auto.
          + right. unfold keep in K. cbn [fst snd] in K. destruct (dget k (param_defaults "null")) as [v0|] eqn:G; [|discriminate].
            apply dget_In in G. cbn in G. apply negb_false_iff in K. destruct G as [[= <- <-]|[[= <- <-]|[[= <- <-]|[]]]]; apply py_eq_none_inv in K; cbn; auto.
        - intros nd l0 E G. apply A3 in E. subst. rewrite T1 in G. congruence. }
    destruct (C4 eq_refl) as (l & l' & G & G1 & F). destruct (UT eq_refl) as (l0 & G0 & DT). rewrite G in G0. injection G0 as <-.
    assert (FC : Forall clean_form l').
    { apply Forall_forall. intros x' I. destruct (F2_In_r _ _ _ _ F I) as (x & _ & C & _). auto. }
    unfold sugar in SG. unfold kwarg at 1 in SG. rewrite T1, G1 in SG. cbn [py_eq String.eqb Ascii.eqb Bool.eqb negb] in SG.
    destruct (py_str_in "null" (PList l')) as [has|e] eqn:HN; [|discriminate]. cbn [rbind] in SG.
    destruct (has && dmem "default" d1) eqn:HD; cbn [negb] in SG.
    2:{ injection SG as <-. assert (DN : In (PStr "null") l' -> dget "default" d1 = None).
        { intros I. apply null_in in I. rewrite I in HN. injection HN as <-. cbn in HD. rewrite dmem_get in HD. now destruct (dget "default" d1). }
        destruct (form_short d1 "union") as (A1 & A2 & A3); auto; try discriminate; [intros _; eauto|]. split; auto. split.
        - intros E. now destruct (A2 E).
        - intros nd l1 E G2 G3 I. apply A3 in E. subst nd. rewrite G1 in G3. injection G3 as <-. destruct (null_child _ _ F I) as (x & Ix & Nx).
          exists d, l, x. auto. }
    apply andb_true_iff in HD as [-> HD]. apply null_in in HN. destruct (null_child _ _ F HN) as (x0 & Ix0 & Nx0).
    assert (ND : nullable_doc (PDict d)) by (exists d, l, x0; auto).
    assert (DD : forall v, kwarg "default" PNone d1 = v -> v <> PNone -> dget "default" d = Some v).
    { intros v E NE. rewrite <- (C5 eq_refl). unfold kwarg in E. destruct (dget "default" d1); congruence. }
    set (d3 := ddel "name" (ddel "doc" (ddel "default" (ddel "logical" (ddel "alias" d1))))) in SG.
    assert (T3 : dget "type" d3 = Some (PStr "union")) by (unfold d3; rewrite !dget_ddel; exact T1).
    assert (G3 : dget "types" d3 = Some (PList l')) by (unfold d3; rewrite !dget_ddel; exact G1).
    assert (D3 : dget "default" d3 = None) by (unfold d3; rewrite !dget_ddel; reflexivity).
    assert (S3 : strip_defaults "union" d3 = d3) by (unfold d3; now do 5 apply ddel_all).
    clearbody d3. destruct (Nat.eqb_spec (length d3) 2) as [L2|L2]; cbn [negb] in SG.
    2:{ injection SG as <-. destruct (form_short d3 "union") as (A1 & A2 & A3); auto; try discriminate; [intros [|]; discriminate|intros _; eauto|]. split; auto. split; auto.
        intros E. now destruct (A2 E). }
    fold (sugar_attrs d1) in SG. destruct (remove_split _ HN) as (a & b & El & Er & Na). rewrite Er in SG.
    assert (FR : Forall clean_form (a ++ b)).
    { rewrite El in FC. apply Forall_app in FC as [FA FB]. inversion FB; subst. apply Forall_app. auto. }
    assert (ONE : kwarg "default" PNone d1 <> PNone -> ~ In (PStr "null") (a ++ b)).
    { intros NE I. destruct (DT _ (DD _ eq_refl NE) NE) as [U _]. apply in_app_or in I as [I|I]; [contradiction|].
      rewrite El in F. apply Forall2_app_inv_r in F as (la & lb & Fa & Fb & ->). inversion Fb as [|x y lb' b' Hx Fb']; subst.
      destruct (null_child _ _ Fb' I) as (y & Iy & Ny). apply (U la x lb' y); auto. destruct Hx as (_ & N & _). auto. }
    assert (SHORT : forall e, dget "type" e = Some (PStr "union") -> dget "types" e = Some (PList (a ++ b)) -> dget "default" e = None -> strip_defaults "union" e = e ->
      good (PDict d) (shorten (dupd e (sugar_attrs d1)))).
    { intros e Te Ge De Se. destruct (form_short (dupd e (sugar_attrs d1)) "union") as (A1 & A2 & A3); try discriminate.
      - rewrite upd_get; auto. cbn. intuition discriminate.
      - now apply upd_strip.
      - intros [|]; discriminate.
      - intros _. exists (a ++ b). split; [rewrite upd_get; auto; cbn; intuition discriminate|]. split; auto. intros I.
        rewrite dupd_other; auto. apply attrs_default. destruct (kwarg "default" PNone d1) eqn:E; auto; exfalso; apply ONE; auto; discriminate.
      - split; auto. split; auto. intros E. now destruct (A2 E). }
    assert (SH : good (PDict d) (shorten (dupd (dset "types" (PList (a ++ b)) d3) (sugar_attrs d1)))).
    { apply SHORT; rewrite ?dget_set; auto. apply strip_dset; auto. }
    assert (NEST : forall nd e, a ++ b = [e] -> clean_form (PDict nd) ->
       (forall l, dget "type" nd = Some (PStr "union") -> dget "types" nd = Some (PList l) -> In (PStr "null") l -> e = PDict nd) ->
       good (PDict d) (PDict (dupd nd (sugar_attrs d1)))).
    { intros nd e Eab C K. split; [|split; [discriminate|auto]]. apply form_upd; auto. intros l1 Tn Gn In1. specialize (K l1 Tn Gn In1). subst e.
      assert (X : kwarg "default" PNone d1 <> PNone -> False); [|destruct (kwarg "default" PNone d1); auto; exfalso; apply X; discriminate].
      intros NE. destruct (DT _ (DD _ eq_refl NE) NE) as [_ U].
      destruct a as [|a0 [|]]; try (destruct b; discriminate); cbn in Eab; subst; cbn in F;
      try (injection Eab as -> ->); inversion F as [|y0 ? ly ? H0 F1]; subst; inversion F1 as [|y1 ? ly1 ? H1 F2]; subst; inversion F2; subst.
      + apply (U y0 y1); auto; [destruct H0 as (_ & N0 & _); auto|destruct H1 as (_ & _ & N1); now apply (N1 nd l1)].
      + apply (U y1 y0); auto; [destruct H1 as (_ & N0 & _); auto|destruct H0 as (_ & _ & N1); now apply (N1 nd l1)]. }
    destruct (a ++ b) as [|nested [|]] eqn:Eab; try (injection SG as <-; exact SH).
    destruct (is_none (kwarg "alias" PNone d1) && is_none (kwarg "logical" PNone d1)); [|injection SG as <-; exact SH].
    inversion FR as [|? ? CN _]; subst. destruct nested as [| | | |s| |nd]; try discriminate; injection SG as <-.
    + assert (CD : clean_form (PDict (dupd [("type", PStr s)] (sugar_attrs d1)))) by now apply form_name.
      rewrite (shorten_form _ CD). split; auto. split; auto. discriminate.
    + assert (GD : good (PDict d) (PDict (dupd nd (sugar_attrs d1)))) by (apply (NEST nd (PDict nd)); auto).
      rewrite shorten_form; auto. apply GD.
  - cbn [clean_input]. rewrite dmem_get, T. cbn [rbind]. intros H. apply rbind_Ok in H as (d1 & B & H).
    unfold clean_body, kwarg in B. rewrite T, U in B. cbn [py_iter rbind] in B. apply rbind_Ok in B as (l' & R & [= <-]). apply rmap_Ok in R. rewrite Forall_forall in F.
    assert (SG : sugar [("type", PStr "union"); ("types", PList l')] = Ok [("type", PStr "union"); ("types", PList l')]).
    { unfold sugar. change (dmem "default" [("type", PStr "union"); ("types", PList l')]) with false. cbn [kwarg dget]. cbn. now rewrite andb_false_r. }
    rewrite SG in H. cbn in H. injection H as <-. split; [|split; intros; discriminate]. constructor. apply Forall_forall. intros x' I.
    destruct (F2_In_r _ _ _ _ R I) as (x & Ix & Rx). apply (IH x x'); auto.
Qed.

Lemma clean_again j j' : tidy j -> clean_dict j = Ok j' -> clean_dict j' = Ok j'.
Proof. intros T H. apply clean_good in H as [C _]; auto. unfold clean_dict. now apply clean_fixed. Qed.
