(** Documents written by to_dict with clean and alias (proofs only). *)
From Coq Require Import String Ascii List ZArith QArith Bool Lia.
From Verif Require Import PyVal PyValFacts RType Regex RegexFacts Registry FromDict ToDict
  FromDictFacts RoundTrip SpecTypes RegistryFacts Nullable NullableFacts Equality SpecCompact.
Import ListNotations.
Open Scope nat_scope.
Open Scope string_scope.
Open Scope list_scope.

(** ** Entries of a document *)
Definition ent (b : bool) (k : string) (dflt v : pyval) : list (string * pyval) :=
  if b && py_eq dflt v then [] else [(k, v)].
Definition commons (b : bool) (t : rtype) : list (string * pyval) :=
  let c := get_c t in
  (if is_proxy t then [] else ent b "alias" PNone (c_alias c)) ++
  ent b "logical" PNone (c_logical c) ++ ent b "doc" PNone (c_doc c) ++ c_extra c.
Definition head_name (t : rtype) : pyval :=
  match t with TProxy c _ => c_alias c | _ => PStr (type_name t) end.
Definition own (b : bool) (t : rtype) (js : list pyval) : list (string * pyval) :=
  match t, js with
  | TInt _ x s, _ => ("bits", x) :: ent b "signed" (PBool true) s
  | TFloat _ x, _ => [("bits", x)]
  | TString _ x v, _ | TBytes _ x v, _ => ent b "bytes" PNone x ++ ent b "variable" (PBool true) v
  | TList _ _ l v, j :: _ => ("values", j) :: ent b "length" PNone l ++ ent b "variable" (PBool true) v
  | TMap _ _ _, k :: v :: _ => [("keys", k); ("values", v)]
  | TStruct _ _, _ => [("fields", PList js)]
  | TEnum _ s, _ => [("symbols", s)]
  | TUnion _ _, _ => [("types", PList js)]
  | _, _ => []
  end.
Definition entries (b : bool) (t : rtype) (js : list pyval) : list (string * pyval) :=
  ("type", head_name t) :: commons b t ++ own b t js.

Lemma ent_keys b k d v k' : In k' (dkeys (ent b k d v)) -> k' = k.
Proof. unfold ent. destruct (_ && _); cbn; [tauto|intros [<-|[]]; auto]. Qed.
Lemma commons_keys b t k : In k (dkeys (commons b t)) ->
  (k = "alias" /\ is_proxy t = false) \/ k = "logical" \/ k = "doc" \/ In k (dkeys (c_extra (get_c t))).
Proof.
  unfold commons. rewrite !dkeys_app, !in_app_iff. intros [H|[H|[H|H]]]; auto.
  - destruct (is_proxy t) eqn:P; [destruct H|]. apply ent_keys in H. auto.
  - apply ent_keys in H. auto.
  - apply ent_keys in H. auto.
Qed.
Lemma own_keys b t js k : In k (dkeys (own b t js)) -> In k (reserved t).
Proof.
  destruct t; cbn [own reserved]; try (destruct js as [|j1 js]); try (destruct js as [|j2 js]);
    unfold dkeys; cbn [map fst In]; rewrite ?map_app, ?in_app_iff; try tauto;
    intros H; repeat match goal with
    | H : In _ (map fst (ent _ _ _ _)) |- _ => apply ent_keys in H
    | H : _ \/ _ |- _ => destruct H as [H|H]
    end; subst; auto.
Qed.
Lemma common_free b t k : node_ok t -> In k (std_keys ++ reserved t) -> ~ In k ["alias"; "logical"; "doc"] -> ~ In k (dkeys (commons b t)).
Proof.
  intros N I H C. apply commons_keys in C. apply (nodekey _ _ N) in I. cbn in H. intuition congruence.
Qed.
Lemma reserved_std t k : In k (reserved t) -> ~ In k ["type"; "alias"; "logical"; "doc"; "optional"].
Proof. destruct t; cbn; intuition (subst; discriminate). Qed.

Lemma dget_common b t k X : node_ok t -> In k (std_keys ++ reserved t) -> ~ In k ["alias"; "logical"; "doc"] ->
  dget k (commons b t ++ X) = dget k X.
Proof. intros N I H. rewrite dget_app. now rewrite (proj2 (dget_None _ _) (common_free b t k N I H)). Qed.
Lemma ddel_common b t k X : node_ok t -> In k (std_keys ++ reserved t) -> ~ In k ["alias"; "logical"; "doc"] ->
  ddel k (commons b t ++ X) = commons b t ++ ddel k X.
Proof. intros N I H. rewrite ddel_app. now rewrite (ddel_notin k _ (common_free b t k N I H)). Qed.

Lemma ent_cases b k v : ent b k PNone v = [] /\ v = PNone \/ ent b k PNone v = [(k, v)].
Proof.
  unfold ent. destruct (b && py_eq PNone v) eqn:E; auto. apply andb_true_iff in E as [_ E].
  apply py_eq_none_inv in E. auto.
Qed.

Lemma bind_ents taken a l dc e la ll ld :
  (la = [] /\ a = PNone \/ la = [("alias", a)]) -> (ll = [] /\ l = PNone \/ ll = [("logical", l)]) ->
  (ld = [] /\ dc = PNone \/ ld = [("doc", dc)]) ->
  (forall k, In k (dkeys e) -> ~ In k (std_keys ++ taken)) ->
  (forall k, In k taken -> ~ In k (dkeys (la ++ ll ++ ld))) ->
  bind_common taken (la ++ ll ++ ld ++ e) = Ok (mkC l a dc e).
Proof.
  intros HA HL HD HK HT. unfold bind_common.
  assert (X : forall k, In k ("self" :: "type_" :: taken) -> dmem k (la ++ ll ++ ld ++ e) = false).
  { intros k Hk. apply dmem_false. replace (la ++ ll ++ ld ++ e) with ((la ++ ll ++ ld) ++ e) by now rewrite <- !app_assoc.
    rewrite dkeys_app, in_app_iff. intros [H|H].
    - cbn [In] in Hk. destruct Hk as [<-|[<-|Hk]]; [| |exact (HT k Hk H)];
        destruct HA as [[-> _]| ->], HL as [[-> _]| ->], HD as [[-> _]| ->]; cbn in H; intuition discriminate.
    - apply (HK k H). apply in_or_app. cbn in *. tauto. }
  destruct existsb eqn:E.
  - apply existsb_exists in E as (k & Hk & Hm). rewrite X in Hm; auto. discriminate.
  - assert (F : forall k, In k ["alias"; "logical"; "doc"] -> dget k e = None).
    { intros k Hk. apply dget_None. intros H. apply (HK _ H). apply in_or_app. left. cbn in *. tauto. }
    assert (G : ddel "doc" (ddel "alias" (ddel "logical" e)) = e).
    { rewrite (ddel_notin "logical" e), (ddel_notin "alias" e), (ddel_notin "doc" e); auto; apply dget_None, F; cbn; tauto. }
    f_equal. rewrite !ddel_app, G.
    destruct HA as [[-> ->]| ->], HL as [[-> ->]| ->], HD as [[-> ->]| ->]; cbn;
      rewrite ?(F "alias"), ?(F "logical"), ?(F "doc") by (cbn; tauto); reflexivity.
Qed.
Lemma bind_commons b t : node_ok t -> is_proxy t = false -> bind_common [] (commons b t) = Ok (get_c t).
Proof.
  intros N P. unfold commons. rewrite P. rewrite (bind_ents [] (c_alias (get_c t)) (c_logical (get_c t)) (c_doc (get_c t)));
    auto using ent_cases.
  - now rewrite mkC_eta.
  - destruct N as (_ & HK & _). intros k I J. rewrite app_nil_r in J. apply (HK k I). apply in_or_app. auto.
Qed.

(** ** Reading a node *)
Definition reads (j : pyval) (t : rtype) : Prop :=
  forall R R', reg_tree t R = (R', Ok tt) -> from_dict j R = (R', Ok t).

Definition norm (b : bool) (v : pyval) : pyval := if b && py_eq (PBool true) v then PBool true else v.
Definition renew (b : bool) (t : rtype) (ts : list rtype) : rtype :=
  match t, ts with
  | TInt c x s, _ => TInt c x (norm b s)
  | TString c x v, _ => TString c x (norm b v)
  | TBytes c x v, _ => TBytes c x (norm b v)
  | TList c _ l v, x :: _ => TList c x l (norm b v)
  | TMap c _ _, x :: y :: _ => TMap c x y
  | TStruct c _, _ => TStruct c ts
  | TUnion c _, _ => TUnion c ts
  | TProxy c _, _ => TProxy c None
  | _, _ => t
  end.

Lemma kw_true b v : kwarg "signed" (PBool true) (ent b "signed" (PBool true) v) = norm b v /\
  kwarg "variable" (PBool true) (ent b "variable" (PBool true) v) = norm b v.
Proof. unfold ent, norm, kwarg. destruct (b && py_eq (PBool true) v); auto. Qed.
Lemma ent_true b k v : ent b k (PBool true) v = [] \/ ent b k (PBool true) v = [(k, v)].
Proof. unfold ent. destruct (_ && _); auto. Qed.

Lemma reads_intro D t : dget "type" D <> None -> dget "type" D <> Some PNone -> dget "optional" D = None ->
  validate t = Ok tt ->
  (forall R R', reg_tree t R = (R', Ok tt) -> exists R1, built from_dict D R R1 t /\ reg_node t R1 = (R', Ok tt)) ->
  reads (PDict D) t.
Proof.
  intros T1 T2 O V H R R' G. destruct (H _ _ G) as (R1 & B & G1).
  apply from_dict_inv. apply (Parsed (PDict D) R R' t D D R1); auto.
  - unfold kwarg. destruct (dget "type" D); congruence.
  - now apply desugar_noopt.
  - now apply reg_node_eq.
Qed.
Lemma mmap_reads js ts : Forall2 reads js ts -> forall R R', reg_list ts R = (R', Ok tt) -> mmap from_dict js R = (R', Ok ts).
Proof.
  induction 1 as [|j t js ts Hj Hjs IH]; intros R R' G.
  - cbn in *. apply ret_Ok in G as [-> _]. reflexivity.
  - cbn [reg_list] in G. apply mbind_Ok in G as (R1 & [] & G1 & G2). apply mmap_Ok_cons. exists R1, t, ts. auto.
Qed.

Lemma ddel_type b t js : node_ok t -> ddel "type" (entries b t js) = commons b t ++ own b t js.
Proof.
  intros N. unfold entries. cbn [ddel filter fst]. rewrite String.eqb_refl. cbn [negb].
  change (ddel "type" (commons b t ++ own b t js) = commons b t ++ own b t js).
  apply ddel_notin. rewrite dkeys_app, in_app_iff. intros [H|H].
  - revert H. apply common_free; auto; cbn; intuition discriminate.
  - apply own_keys, reserved_std in H. apply H. cbn. auto.
Qed.
Lemma entries_opt b t js : node_ok t -> dget "optional" (entries b t js) = None.
Proof.
  intros N. apply dget_None. unfold entries. cbn [dkeys map fst]. fold (dkeys (commons b t ++ own b t js)).
  intros [H|H]; [discriminate|]. rewrite dkeys_app, in_app_iff in H. destruct H as [H|H].
  - revert H. apply common_free; auto; cbn; intuition discriminate.
  - apply own_keys, reserved_std in H. apply H. cbn. auto 6.
Qed.

Ltac rsv := cbn; tauto.
Ltac nin := cbn; intuition discriminate.
Ltac getc N := rewrite dget_common; [|exact N|rsv|nin].
Ltac delc N := repeat (rewrite ddel_common; [|exact N|rsv|nin]).

Lemma node_reads b t js ts : node_ok t -> length ts = length (children t) -> Forall2 reads js ts ->
  validate (renew b t ts) = Ok tt -> reads (PDict (entries b t js)) (renew b t ts).
Proof.
  intros N L F V.
  assert (T0 : head_name t <> PNone).
  { destruct t; cbn; try discriminate. destruct N as (_ & _ & _ & _ & _ & _ & _ & _ & _ & a & -> & _). discriminate. }
  apply reads_intro; [cbn; discriminate|cbn; congruence|now apply entries_opt|exact V|].
  intros R R' G. pose proof (ddel_type b t js N) as DT.
  assert (C0 : is_proxy t = false -> bind_common [] (commons b t ++ []) = Ok (get_c t)).
  { intros P. rewrite app_nil_r. now apply bind_commons. }
  destruct t as [c|c|c x s|c x|c x v|c x v|c x l v|c x y|c fs|c s|c us|c r]; cbn [children length] in L;
    cbn [renew] in *.
  - exists R. split; [|exact G]. apply b_null; [reflexivity|]. rewrite DT. apply C0; auto.
  - exists R. split; [|exact G]. apply b_bool; [reflexivity|]. rewrite DT. apply C0; auto.
  - exists R. split; [|exact G]. apply b_int'; [reflexivity| | |]; rewrite DT.
    + getc N. reflexivity.
    + delc N. cbn [own]. destruct (ent_true b "signed" s) as [-> | ->]; apply C0; auto.
    + unfold kwarg. getc N. exact (proj1 (kw_true b s)).
  - exists R. split; [|exact G]. apply b_float; [reflexivity| |]; rewrite DT.
    + getc N. reflexivity.
    + delc N. apply C0; auto.
  - assert (E : rename_bytes (commons b (TString c x v) ++ own b (TString c x v) js) =
      commons b (TString c x v) ++ ent b "variable" (PBool true) v ++ ent b "bytes_" PNone x).
    { unfold rename_bytes. getc N. cbn [own]. destruct (ent_cases b "bytes" x) as [[E1 E2]|E1].
      - unfold ent in *. destruct (b && py_eq PNone x); [|discriminate]. cbn [app]. rewrite app_nil_r.
        destruct (b && py_eq (PBool true) v); reflexivity.
      - rewrite E1. cbn [app dget String.eqb Ascii.eqb Bool.eqb]. delc N. cbn [ddel filter fst String.eqb Ascii.eqb Bool.eqb negb].
        rewrite dset_app_r; [|apply common_free; [exact N|rsv|nin]].
        f_equal. unfold ent in *. destruct (b && py_eq PNone x); [discriminate|].
        destruct (b && py_eq (PBool true) v); reflexivity. }
    exists R. split; [|exact G]. apply b_string'; [reflexivity| | |]; rewrite DT, E.
    + delc N. destruct (ent_true b "variable" v) as [-> | ->]; destruct (ent_cases b "bytes_" x) as [[-> _]| ->]; apply C0; auto.
    + unfold kwarg. getc N. destruct (ent_true b "variable" v) as [-> | ->]; destruct (ent_cases b "bytes_" x) as [[-> ->]| ->]; reflexivity.
    + unfold kwarg. getc N. rewrite dget_app. destruct (kw_true b v) as [_ K]. unfold kwarg in K.
      destruct (dget "variable" (ent b "variable" (PBool true) v)); auto.
      destruct (ent_cases b "bytes_" x) as [[-> ->]| ->]; auto.
  - assert (E : rename_bytes (commons b (TBytes c x v) ++ own b (TBytes c x v) js) =
      commons b (TBytes c x v) ++ ent b "variable" (PBool true) v ++ ent b "bytes_" PNone x).
    { unfold rename_bytes. getc N. cbn [own]. destruct (ent_cases b "bytes" x) as [[E1 E2]|E1].
      - unfold ent in *. destruct (b && py_eq PNone x); [|discriminate]. cbn [app]. rewrite app_nil_r.
        destruct (b && py_eq (PBool true) v); reflexivity.
      - rewrite E1. cbn [app dget String.eqb Ascii.eqb Bool.eqb]. delc N. cbn [ddel filter fst String.eqb Ascii.eqb Bool.eqb negb].
        rewrite dset_app_r; [|apply common_free; [exact N|rsv|nin]].
        f_equal. unfold ent in *. destruct (b && py_eq PNone x); [discriminate|].
        destruct (b && py_eq (PBool true) v); reflexivity. }
    exists R. split; [|exact G]. apply b_bytes'; [reflexivity| | |]; rewrite DT, E.
    + delc N. destruct (ent_true b "variable" v) as [-> | ->]; destruct (ent_cases b "bytes_" x) as [[-> _]| ->]; apply C0; auto.
    + unfold kwarg. getc N. destruct (ent_true b "variable" v) as [-> | ->]; destruct (ent_cases b "bytes_" x) as [[-> ->]| ->]; reflexivity.
    + unfold kwarg. getc N. rewrite dget_app. destruct (kw_true b v) as [_ K]. unfold kwarg in K.
      destruct (dget "variable" (ent b "variable" (PBool true) v)); auto.
      destruct (ent_cases b "bytes_" x) as [[-> ->]| ->]; auto.
  - destruct ts as [|y [|]]; try discriminate. inversion F as [|j ? ? ? Fj F']; subst. inversion F'; subst.
    cbn [reg_tree] in G. apply mbind_Ok in G as (R1 & [] & G1 & G2). exists R1. split; [|exact G2].
    eapply (b_list' _ _ _ _ c j); [reflexivity| |apply Fj; exact G1| | |]; rewrite DT; cbn [own].
    + getc N. reflexivity.
    + delc N. cbn [ddel filter fst String.eqb Ascii.eqb Bool.eqb negb].
      destruct (ent_true b "variable" v) as [-> | ->]; destruct (ent_cases b "length" l) as [[-> _]| ->]; apply C0; auto.
    + unfold kwarg. delc N. getc N.
      destruct (ent_true b "variable" v) as [-> | ->]; destruct (ent_cases b "length" l) as [[-> ->]| ->]; reflexivity.
    + unfold kwarg. delc N. getc N. destruct (kw_true b v) as [_ K]. unfold kwarg in K.
      destruct (ent_true b "variable" v) as [E | E]; rewrite E in *; destruct (ent_cases b "length" l) as [[-> ->]| ->]; exact K.
  - destruct ts as [|y1 [|y2 [|]]]; try discriminate. inversion F as [|j1 ? ? ? Fj1 F']; subst. inversion F' as [|j2 ? ? ? Fj2 F'']; subst. inversion F''; subst.
    cbn [reg_tree] in G. apply mbind_Ok in G as (R2 & [] & G1 & G2). apply mbind_Ok in G1 as (R1 & [] & G1 & G1').
    exists R2. split; [|exact G2].
    eapply (b_map _ _ _ R1 _ c j1 j2); [reflexivity| | |apply Fj1; exact G1|apply Fj2; exact G1'|]; rewrite DT; cbn [own].
    + getc N. reflexivity.
    + getc N. reflexivity.
    + delc N. apply C0; auto.
  - cbn [reg_tree] in G. rewrite reg_list_eq in G. apply mbind_Ok in G as (R1 & [] & G1 & G2). exists R1. split; [|exact G2].
    eapply (b_struct _ _ _ _ c js); [reflexivity| |apply mmap_reads with (ts := ts); eauto|]; rewrite DT; cbn [own].
    + unfold kwarg. getc N. reflexivity.
    + delc N. apply C0; auto.
  - exists R. split; [|exact G]. apply b_enum; [reflexivity| |]; rewrite DT; cbn [own].
    + getc N. reflexivity.
    + delc N. apply C0; auto.
  - cbn [reg_tree] in G. rewrite reg_list_eq in G. apply mbind_Ok in G as (R1 & [] & G1 & G2). exists R1. split; [|exact G2].
    eapply (b_union _ _ _ _ c (PList js) js); [reflexivity| |reflexivity|apply mmap_reads with (ts := ts); eauto|]; rewrite DT; cbn [own].
    + getc N. reflexivity.
    + delc N. apply C0; auto.
  - pose proof N as (ND & HK & _ & _ & _ & _ & _ & _ & _ & a & Ea & Hw). cbn [get_c] in *.
    exists R. split; [|exact G].
    replace (TProxy c None) with (TProxy (mkC (c_logical c) (PStr a) (c_doc c) (c_extra c)) None)
      by (rewrite <- Ea, mkC_eta; reflexivity).
    refine (b_proxy _ _ R (mkC (c_logical c) PNone (c_doc c) (c_extra c)) a _ Hw _).
    + unfold tn, entries. cbn. now rewrite Ea.
    + rewrite DT. cbn [own]. rewrite app_nil_r. unfold commons. cbn [is_proxy get_c].
      apply (bind_ents ["alias"; "registry"] PNone (c_logical c) (c_doc c)); auto using ent_cases.
      * intros k I J. apply (HK k I). cbn in *. tauto.
      * intros k I J. cbn [app] in J. rewrite dkeys_app, in_app_iff in J.
        destruct J as [J|J]; apply ent_keys in J; subst; cbn in I; intuition discriminate.
Qed.
