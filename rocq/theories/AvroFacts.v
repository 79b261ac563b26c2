(** Facts about the Avro converter. *)
From Coq Require Import String Ascii List NArith ZArith QArith Bool Lia.
From Verif Require Import PyVal PyValFacts RType Registry FromDict FromDictFacts RegexFacts RegistryFacts
  SpecTypes Avro SpecAvro.
Import ListNotations.
Open Scope nat_scope.
Open Scope string_scope.
Open Scope list_scope.

(** ** Recursion fuel of the reader *)
Definition avro_kids (P : pyval -> Prop) (d : list (string * pyval)) : Prop :=
  (forall k v, dget k d = Some v -> P v) /\
  (forall k v l x, dget k d = Some v -> py_iter v = Ok l -> In x l -> P x).

Lemma avro_body_ext rec1 rec2 d h R :
  avro_kids (fun x => forall ns R, rec1 x ns R = rec2 x ns R) d ->
  avro_body rec1 d h R = avro_body rec2 d h R.
Proof.
  intros [K1 K2].
  assert (MM : forall k v l R, dget k d = Some v -> py_iter v = Ok l ->
    mmap (fun t => rec1 t (a_ns h)) l R = mmap (fun t => rec2 t (a_ns h)) l R).
  { intros k v l R0 E I. apply mmap_ext. intros x R1 IN. apply (K2 k v l x E I IN). }
  unfold avro_body. destruct (dget "type" d) as [ty|] eqn:T; auto.
  destruct ty as [| | | |s|l|e]; [reflexivity|reflexivity|reflexivity|reflexivity| | |].
  - repeat match goal with |- (if String.eqb s ?x then _ else _) _ = _ => destruct (String.eqb s x) end; auto.
    + destruct (dget "fields" d) as [v|] eqn:E; auto.
      unfold mbind, lift. destruct (py_iter v) as [l|] eqn:I; auto. rewrite (MM _ _ _ _ E I). auto.
    + destruct (dget "items" d) as [v|] eqn:E; auto. unfold mbind. rewrite (K1 _ _ E). auto.
    + destruct (dget "values" d) as [v|] eqn:E; auto. unfold mbind. rewrite (K1 _ _ E). auto.
    + destruct (dget "types" d) as [v|] eqn:E; auto.
      unfold mbind, lift. destruct (py_iter v) as [l|] eqn:I; auto. rewrite (MM _ _ _ _ E I). auto.
  - unfold mbind. rewrite (MM "type" (PList l) l R T eq_refl). auto.
  - unfold mbind. rewrite (K1 _ _ T). auto.
Qed.

Lemma avro_parse_fuel : forall n m j ns R, psize j <= n -> psize j <= m ->
  avro_parse_f n j ns R = avro_parse_f m j ns R.
Proof.
  induction n as [|n IH]; intros m j ns R H1 H2; [pose proof (psize_pos j); lia|].
  destruct m as [|m]; [pose proof (psize_pos j); lia|].
  cbn [avro_parse_f].
  assert (D : forall d, psize (PDict d) <= S n /\ psize (PDict d) <= S m \/ (exists s, d = [("type", PStr s)]) ->
    (h <- lift (avro_parse_head d ns) ;;
     (let lo := kwarg "logicalType" PNone d in
      if truthy lo then lift (avro_parse_logical lo d (a_attrs h)) else avro_body (avro_parse_f n) d h))%mon R =
    (h <- lift (avro_parse_head d ns) ;;
     (let lo := kwarg "logicalType" PNone d in
      if truthy lo then lift (avro_parse_logical lo d (a_attrs h)) else avro_body (avro_parse_f m) d h))%mon R).
  { intros d [[L1 L2]|[s ->]].
    - rewrite psize_dict in L1, L2. unfold mbind, lift. destruct (avro_parse_head d ns) as [h|e]; auto.
      cbv zeta. destruct (truthy _); auto. apply avro_body_ext. split.
      + intros k v E ns' R'. apply dsize_dget in E. apply IH; lia.
      + intros k v l x E I IN ns' R'. apply dsize_dget in E. pose proof (py_iter_size _ _ _ I IN). apply IH; lia.
    - unfold mbind, lift. destruct (avro_parse_head _ ns) as [h|e]; reflexivity. }
  destruct j; try reflexivity. apply D. left. auto.
Qed.

Lemma avro_parse_unfold j ns R : avro_parse j ns R =
  match j with
  | PStr s => (h <- lift (avro_parse_head [("type", PStr s)] ns) ;;
               avro_body avro_parse [("type", PStr s)] h)%mon R
  | PDict d => (h <- lift (avro_parse_head d ns) ;;
         let lo := kwarg "logicalType" PNone d in
         if truthy lo then lift (avro_parse_logical lo d (a_attrs h))
         else avro_body avro_parse d h)%mon R
  | PList l =>
          (if existsb (fun k => existsb (fun x => py_eq x (PStr k)) l) ["doc"; "namespace"; "name"; "default"]
          then fail TypeError else fail AttributeError) R
  | _ => fail TypeError R
  end.
Proof.
  unfold avro_parse at 1. pose proof (psize_pos j). destruct (psize j) as [|n] eqn:E; [lia|]. clear H.
  destruct j as [| | | |s|l|d]; try reflexivity.
  - cbn [avro_parse_f]. unfold mbind, lift. destruct (avro_parse_head _ ns) as [h|e]; auto.
    cbv zeta. destruct (truthy _); auto. rewrite psize_dict in E. apply avro_body_ext. split.
    + intros k v H ns' R'. apply dsize_dget in H. apply avro_parse_fuel; lia.
    + intros k v l x H I IN ns' R'. apply dsize_dget in H. pose proof (py_iter_size _ _ _ I IN).
      apply avro_parse_fuel; lia.
Qed.

(** ** Computations that register given names *)
Definition yields {A} (m : M A) (F : list string) (x : A) : Prop :=
  forall R, NoDup (dkeys R) ->
    (NoDup (dkeys R ++ F) /\ exists R', m R = (R', Ok x) /\ dkeys R' = dkeys R ++ F) \/
    (~ NoDup (dkeys R ++ F) /\ exists R', m R = (R', Err ValueError)).

Lemma yields_ret {A} (x : A) : yields (ret x) [] x.
Proof. intros R N. left. rewrite app_nil_r. split; [exact N|]. exists R. auto. Qed.

Lemma NoDup_app_l {A} (l l' : list A) : NoDup (l ++ l') -> NoDup l.
Proof.
  induction l as [|x l IH]; intros H; [constructor|]. inversion H; subst. constructor; auto.
  intros I. apply H2. apply in_or_app; auto.
Qed.

Lemma yields_bind {A B} (m : M A) (f : A -> M B) F G x y :
  yields m F x -> yields (f x) G y -> yields (mbind m f) (F ++ G) y.
Proof.
  intros Hm Hf R N. unfold mbind. destruct (Hm R N) as [(N1 & R1 & E & K)|(N1 & R1 & E)]; rewrite E.
  - rewrite app_assoc, <- K. rewrite <- K in N1. destruct (Hf R1 N1) as [(N2 & R2 & E2 & K2)|(N2 & R2 & E2)].
    + left. split; auto. eauto.
    + right. split; eauto.
  - right. split; eauto. intros N2. apply N1. rewrite app_assoc in N2. now apply NoDup_app_l in N2.
Qed.

Lemma yields_ext {A} (m m' : M A) F x : (forall R, m R = m' R) -> yields m' F x -> yields m F x.
Proof. intros E H R N. rewrite E. auto. Qed.

Lemma yields_mmap {A B} (f : A -> M B) (F : A -> list string) (g : A -> B) l :
  Forall (fun a => yields (f a) (F a) (g a)) l -> yields (mmap f l) (flat_map F l) (map g l).
Proof.
  induction 1 as [|a l H _ IH]; cbn [mmap flat_map map]; [apply yields_ret|].
  apply (yields_bind _ _ _ _ _ _ H). rewrite <- (app_nil_r (flat_map F l)). apply (yields_bind _ _ _ _ _ _ IH). apply yields_ret.
Qed.

Lemma yields_register t a : c_alias (get_c t) = PStr a -> dotted_name a -> yields (avro_register t) [a] t.
Proof.
  intros E D R N. unfold avro_register. rewrite E. cbn [is_none]. unfold mbind, register_alias. rewrite E.
  destruct (dmem a R) eqn:M.
  - right. split; eauto. intros N2. apply dmem_true in M. apply NoDup_remove_2 in N2. rewrite app_nil_r in N2. auto.
  - apply alias_regex_spec in D. rewrite D. left. apply dmem_false in M. split.
    + apply NoDup_app'; auto. { repeat constructor; auto. } intros x [<-|[]]. auto.
    + eexists. split; [reflexivity|]. unfold dkeys. rewrite map_app. reflexivity.
Qed.
Lemma yields_register_none t : c_alias (get_c t) = PNone -> yields (avro_register t) [] t.
Proof. intros E. unfold avro_register. rewrite E. cbn. apply yields_ret. Qed.

(** ** The Recap type of a schema of the grammar *)
Section Tree.
  Context (ns : string).
  Definition full (s : string) : string := (ns ++ "." ++ s)%string.
  Definition alias_of (h : labels) : pyval :=
    match l_name h with Some s => PStr (full s) | None => PNone end.
  Definition doc_of (h : labels) : pyval := match l_doc h with Some s => PStr s | None => PNone end.
  Definition attrs_of (h : labels) : list (string * pyval) :=
    (match l_name h with Some s => [("name", PStr s)] | None => [] end) ++
    (match l_default h with Some v => [("default", v)] | None => [] end).
  Definition all_attrs (h : labels) : list (string * pyval) :=
    (match l_doc h with Some s => [("doc", PStr s)] | None => [] end) ++ attrs_of h.
  Definition c_of (h : labels) : common := mkC PNone (alias_of h) (doc_of h) (attrs_of h).
  Definition c_lo (h : labels) (lo : string) (x : list (string * pyval)) : common :=
    mkC (PStr lo) PNone (doc_of h) (x ++ attrs_of h).

  Definition prim_type (c : common) (s : string) : rtype :=
    if String.eqb s "null" then TNull c
    else if String.eqb s "boolean" then TBool c
    else if String.eqb s "int" then TInt c (PInt 32) (PBool true)
    else if String.eqb s "long" then TInt c (PInt 64) (PBool true)
    else if String.eqb s "float" then TFloat c (PInt 32)
    else if String.eqb s "double" then TFloat c (PInt 64)
    else if String.eqb s "bytes" then TBytes c (PInt max_len) (PBool true)
    else TString c (PInt max_len) (PBool true).
  Definition logical_type (h : labels) (l : string) : rtype :=
    let u x := [("unit", PStr x)] in
    if String.eqb l "uuid" then TString (c_lo h "build.recap.UUID" []) (PInt 36) (PBool false)
    else if String.eqb l "date" then TInt (c_lo h "build.recap.Date" (u "day")) (PInt 32) (PBool true)
    else if String.eqb l "time-millis" then TInt (c_lo h "build.recap.Time" (u "millisecond")) (PInt 32) (PBool true)
    else if String.eqb l "time-micros" then TInt (c_lo h "build.recap.Time" (u "microsecond")) (PInt 64) (PBool true)
    else if String.eqb l "timestamp-millis" then TInt (c_lo h "build.recap.Timestamp" (u "millisecond")) (PInt 64) (PBool true)
    else TInt (c_lo h "build.recap.Timestamp" (u "microsecond")) (PInt 64) (PBool true).
  Definition nested_c (h : labels) (t : rtype) : rtype :=
    let k := get_c t in
    set_c t (mkC (c_logical k) (c_alias k) (c_doc k) (dupd (c_extra k) (all_attrs h))).
  Fixpoint tree_of (a : avro) : rtype :=
    match a with
    | APrim h s => prim_type (c_of h) s
    | ALogical h _ l => logical_type h l
    | ADecimal h p s =>
        TBytes (c_lo h "build.recap.Decimal" [("precision", PInt p); ("scale", PInt s)]) (PInt max_len) (PBool false)
    | ARef h s => TProxy (mkC PNone (PStr s) (doc_of h) (attrs_of h)) None
    | AEnum h l => TEnum (c_of h) (PList l)
    | AArray h x => TList (c_of h) (tree_of x) PNone (PBool true)
    | AMap h x => TMap (c_of h) (TString c0 (PInt max_len) (PBool true)) (tree_of x)
    | ARecord h l => TStruct (c_of h) (map tree_of l)
    | AUnion h l => TUnion (c_of h) (map tree_of l)
    | ANested h x => nested_c h (tree_of x)
    end.
End Tree.

Lemma avro_ind' (P : avro -> Prop)
  (H1 : forall h s, P (APrim h s)) (H2 : forall h s l, P (ALogical h s l)) (H3 : forall h p s, P (ADecimal h p s))
  (H4 : forall h s, P (ARef h s)) (H5 : forall h l, P (AEnum h l)) (H6 : forall h a, P a -> P (AArray h a))
  (H7 : forall h a, P a -> P (AMap h a)) (H8 : forall h l, Forall P l -> P (ARecord h l))
  (H9 : forall h l, Forall P l -> P (AUnion h l)) (H10 : forall h a, P a -> P (ANested h a)) : forall a, P a.
Proof.
  fix IH 1. intros [h s|h s l|h p s|h s|h l|h a|h a|h l|h l|h a].
  - apply H1. - apply H2. - apply H3. - apply H4. - apply H5.
  - apply H6, IH. - apply H7, IH.
  - apply H8. induction l as [|x l IHl]; constructor; [apply IH|exact IHl].
  - apply H9. induction l as [|x l IHl]; constructor; [apply IH|exact IHl].
  - apply H10, IH.
Qed.

Lemma substr_char (c : ascii) (s : string) : substr_in (String c "") s = true <->
  exists a b, s = (a ++ String c b)%string.
Proof.
  induction s as [|x s IH]; cbn [substr_in String.prefix].
  - split; [discriminate|]. intros (a & b & E). destruct a; discriminate.
  - rewrite orb_true_iff, IH. split.
    + intros [H|(a & b & ->)].
      * destruct (ascii_dec c x) as [->|]; [|discriminate]. exists "", s. reflexivity.
      * exists (String x a), b. reflexivity.
    + intros (a & b & E). destruct a as [|y a]; cbn in E; injection E as -> ->.
      * left. destruct (ascii_dec c c) as [_|N]; [now destruct b|congruence].
      * right. eauto.
Qed.

Lemma all_chars_app P a b : SpecTypes.all_chars P (a ++ b)%string <-> SpecTypes.all_chars P a /\ SpecTypes.all_chars P b.
Proof. induction a as [|x a IH]; cbn; tauto. Qed.
Lemma alnum_not_dot : ~ alnum_ ".".
Proof. unfold alnum_, alpha_. cbn. lia. Qed.
Lemma identifier_no_dot s : identifier s -> substr_in "." s = false.
Proof.
  intros H. destruct (substr_in "." s) eqn:E; auto. exfalso. apply substr_char in E as (a & b & ->).
  assert (A : SpecTypes.all_chars alnum_ (a ++ String "." b)%string).
  { destruct a as [|x a]; cbn in *; destruct H as [H1 H2]; split; auto; left; auto. }
  apply all_chars_app in A as [_ [A _]]. apply alnum_not_dot, A.
Qed.
Lemma identifier_nonempty s : identifier s -> s <> "".
Proof. destruct s; cbn; [tauto|discriminate]. Qed.

Lemma concat_snoc l x : l <> [] -> String.concat "." (l ++ [x]) = (String.concat "." l ++ "." ++ x)%string.
Proof.
  induction l as [|y l IH]; [congruence|]. intros _. destruct l as [|z l].
  - reflexivity.
  - cbn [app]. cbn [app] in IH.
    change (String.concat "." (y :: z :: l ++ [x])) with (y ++ "." ++ String.concat "." (z :: l ++ [x]))%string.
    rewrite IH by discriminate.
    change (String.concat "." (y :: z :: l)) with (y ++ "." ++ String.concat "." (z :: l))%string.
    rewrite !sapp_assoc. reflexivity.
Qed.
Lemma namespace_full ns s : namespace ns -> identifier s -> dotted_name (full ns s).
Proof.
  intros (segs & L & F & ->) I. exists (segs ++ [s]). split; [rewrite app_length; cbn; lia|]. split.
  - apply Forall_app. auto.
  - unfold full. rewrite concat_snoc; auto. destruct segs; cbn in L; [lia|discriminate].
Qed.
Lemma namespace_nonempty ns : namespace ns -> ns <> "".
Proof.
  intros (segs & L & F & ->). destruct segs as [|x l]; cbn in L; [lia|].
  inversion F as [|? ? I _]; subst. rewrite concat_dots. destruct x; [destruct I|discriminate].
Qed.
