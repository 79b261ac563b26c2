(** The Avro reader against the relation of SpecAvroSchema.v (proofs only). *)
From Coq Require Import String Ascii List NArith ZArith QArith Bool Lia.
From Verif Require Import PyVal PyValFacts RType Regex Registry FromDict FromDictFacts RegexFacts RegistryFacts
  SpecTypes Avro SpecAvro AvroFacts AvroProps SpecAvroSchema.
Import ListNotations.
Open Scope nat_scope.
Open Scope string_scope.
Open Scope list_scope.

(** *** Names *)
Lemma rsplit_dot_spec s : substr_in "." s = true -> exists a b, rsplit_dot s = (a, b) /\ s = (a ++ "." ++ b)%string /\ no_dot b.
Proof.
  induction s as [|c s IH]; [discriminate|]. intros H. cbn [rsplit_dot].
  destruct (substr_in "." s) eqn:E.
  - destruct (IH eq_refl) as (a & b & -> & -> & N). exists (String c a), b. auto.
  - apply (substr_char ".") in H as (a & b & H). destruct a as [|x a]; cbn in H; injection H as -> ->.
    + exists "", b. auto.
    + exfalso. assert (X : substr_in "." (a ++ String "." b) = true) by (apply (substr_char "."); eauto). congruence.
Qed.

Definition space (d : attrs) : Prop := match dget "namespace" d with Some (PStr _) | None => True | _ => False end.

Lemma rooted_spec ns : (if truthy (PStr ns) then PStr ns else PStr "_root") = PStr (rooted ns).
Proof. unfold rooted. destruct ns; reflexivity. Qed.

(** The attributes of a head. *)
Definition given (d : attrs) (nm : option (string * string)) (k : string) : option pyval :=
  if String.eqb k "doc" then dget "doc" d else label d nm k.

Lemma head_spec d ns h : space d -> avro_parse_head d (PStr ns) = Ok h ->
  exists ns' nm, named_as ns d ns' nm /\ a_ns h = PStr ns' /\ a_alias h = full_of nm
    /\ (forall k, dget k (a_attrs h) = given d nm k) /\ NoDup (dkeys (a_attrs h)).
Proof.
  intros S H. unfold avro_parse_head in H.
  assert (N : match dget "namespace" d with Some v => v | None => PStr ns end = PStr (namespace_of ns d)).
  { unfold space, namespace_of in *. destruct (dget "namespace" d) as [[]|]; tauto. }
  cbv zeta in H. rewrite N in H.
  assert (G : forall nm a, a = (match dget "doc" d with Some v => [("doc", v)] | None => [] end)
      ++ (match nm with Some fs => [("name", PStr (snd fs))] | None => [] end)
      ++ (match dget "default" d with Some v => [("default", v)] | None => [] end) ->
      (forall k, dget k a = given d nm k) /\ NoDup (dkeys a)).
  { intros nm a ->. split.
    - intros k. unfold given, label.
      destruct (String.eqb_spec k "doc") as [->|E1]; [|destruct (String.eqb_spec k "name") as [->|E2]; [|destruct (String.eqb_spec k "default") as [->|E3]]].
      + destruct (dget "doc" d), nm, (dget "default" d); reflexivity.
      + destruct (dget "doc" d), nm, (dget "default" d); reflexivity.
      + destruct (dget "doc" d), nm, (dget "default" d); reflexivity.
      + apply String.eqb_neq in E1, E2, E3.
        destruct (dget "doc" d), nm, (dget "default" d); cbn [app dget]; rewrite ?E1, ?E2, ?E3; reflexivity.
    - destruct (dget "doc" d), nm, (dget "default" d); cbn; repeat constructor; cbn; intuition discriminate. }
  destruct (dget "name" d) as [v|] eqn:E.
  - destruct v as [| | | |s|l|e]; try discriminate H.
    + destruct (substr_in "." s) eqn:D.
      * destruct (rsplit_dot_spec s D) as (a & b & R & -> & B). rewrite R in H. rewrite rooted_spec in H.
        cbn [ns_text rbind] in H. injection H as <-. exists (rooted a), (Some ((rooted a ++ "." ++ b)%string, b)).
        split; [now constructor|]. split; [reflexivity|]. split; [reflexivity|]. apply G. reflexivity.
      * rewrite rooted_spec in H. cbn [ns_text rbind] in H. injection H as <-.
        exists (rooted (namespace_of ns d)), (Some ((rooted (namespace_of ns d) ++ "." ++ s)%string, s)).
        split; [now constructor|]. split; [reflexivity|]. split; [reflexivity|]. apply G. reflexivity.
    + destruct (existsb _ l) in H; discriminate.
    + destruct (dmem "." e) in H; discriminate.
  - injection H as <-. exists (namespace_of ns d), None. split; [now constructor|].
    split; [reflexivity|]. split; [reflexivity|]. apply G. reflexivity.
Qed.

Lemma common_spec d nm lo alias x a : (forall k, dget k a = given d nm k) ->
  dget "name" x = None -> dget "default" x = None -> dget "doc" x = None ->
  described d nm lo alias x (avro_common lo alias x a).
Proof.
  intros G X1 X2 X3. split; cbn; auto.
  - unfold kwarg. rewrite G. reflexivity.
  - intros k. rewrite dget_app, dget_ddel, G. unfold given, label.
    destruct (String.eqb_spec k "doc") as [->|E1]; [cbn; rewrite X3; reflexivity|].
    destruct (String.eqb_spec k "name") as [->|E2]; [rewrite X1; now destruct (option_map _ nm)|].
    destruct (String.eqb_spec k "default") as [->|E3]; [rewrite X2; now destruct (dget "default" d)|].
    now destruct (dget k x).
Qed.

(** *** Reading *)
Definition sound (j : pyval) : Prop := forall ns R R' t, avro_parse j (PStr ns) R = (R', Ok t) -> reads ns j t.

Lemma mmap_sound l ns : Forall sound l -> forall R R' ts,
  mmap (fun t => avro_parse t (PStr ns)) l R = (R', Ok ts) -> Forall2 (reads ns) l ts.
Proof.
  induction 1 as [|x l S _ IH]; cbn [mmap]; intros R R' ts H.
  - injection H as <- <-. constructor.
  - unfold mbind in H. destruct (avro_parse x (PStr ns) R) as [R1 [y|]] eqn:E; [|discriminate].
    destruct (mmap _ l R1) as [R2 [ys|]] eqn:E2; [|discriminate]. injection H as <- <-.
    constructor; [eapply S; eauto|eapply IH; eauto].
Qed.

Lemma register_ok t R R' t' : avro_register t R = (R', Ok t') -> t' = t.
Proof.
  unfold avro_register, mbind, ret. destruct (is_none _); [congruence|].
  destruct (register_alias t R) as [R1 [?|]]; congruence.
Qed.

Lemma as_int_spec v z : as_int v = Some z <-> int_of v z.
Proof.
  unfold int_of. destruct v as [| [] | | | | |]; cbn; split; intros H;
    repeat match goal with H : _ \/ _ |- _ => destruct H | H : _ /\ _ |- _ => destruct H end; try discriminate; try congruence.
  - injection H as <-. auto.
  - injection H as <-. auto.
  - injection H as <-. auto.
Qed.

Lemma logical_spec d lo a nm t : (forall k, dget k a = given d nm k) -> avro_parse_logical lo d a = Ok t ->
  exists l r x f c, lo = PStr l /\ logical_as d l r x f /\ described d nm (PStr r) PNone x c /\ t = f c.
Proof.
  intros G H. unfold avro_parse_logical in H. destruct lo as [| | | |s| |]; try discriminate.
  assert (Q : forall r x f, logical_as d s r x f -> dget "name" x = None -> dget "default" x = None -> dget "doc" x = None ->
    t = f (avro_common (PStr r) PNone x a) ->
    exists l r x f c, PStr s = PStr l /\ logical_as d l r x f /\ described d nm (PStr r) PNone x c /\ t = f c).
  { intros r x f L X1 X2 X3 E. exists s, r, x, f, (avro_common (PStr r) PNone x a). auto using common_spec. }
  destruct (String.eqb_spec s "decimal") as [->|].
  { destruct (dget "type" d) as [ty|] eqn:TY; [|discriminate]. destruct (dget "precision" d) as [p|] eqn:P; [|discriminate].
    injection H as <-. eapply Q; [eapply la_decimal; eauto| | | |]; reflexivity. }
  destruct (String.eqb_spec s "uuid") as [->|]; [injection H as <-; eapply Q; [apply la_uuid| | | |]; reflexivity|].
  destruct (String.eqb_spec s "date") as [->|]; [injection H as <-; eapply Q; [apply la_date| | | |]; reflexivity|].
  destruct (String.eqb_spec s "time-millis") as [->|]; [injection H as <-; eapply Q; [eapply la_time; cbn; eauto| | | |]; reflexivity|].
  destruct (String.eqb_spec s "time-micros") as [->|]; [injection H as <-; eapply Q; [eapply la_time; cbn; eauto| | | |]; reflexivity|].
  destruct (String.eqb_spec s "timestamp-millis") as [->|]; [injection H as <-; eapply Q; [eapply la_timestamp; cbn; eauto| | | |]; reflexivity|].
  destruct (String.eqb_spec s "timestamp-micros") as [->|]; [injection H as <-; eapply Q; [eapply la_timestamp; cbn; eauto| | | |]; reflexivity|].
  destruct (String.eqb_spec s "duration") as [->|]; [injection H as <-; eapply Q; [apply la_duration| | | |]; reflexivity|].
  discriminate.
Qed.

(** Everything but a type given by its name. *)
Definition inner (k : string) (v : pyval) : Prop := k <> "type" \/ match v with PStr _ => False | _ => True end.

Lemma body_spec d h ns nm R R' t : (forall k v, dget k d = Some v -> inner k v -> sound v) ->
  (forall k v l, dget k d = Some v -> inner k v -> py_iter v = Ok l -> Forall sound l) ->
  a_ns h = PStr ns -> a_alias h = full_of nm -> (forall k, dget k (a_attrs h) = given d nm k) -> NoDup (dkeys (a_attrs h)) ->
  avro_body avro_parse d h R = (R', Ok t) -> reads_as ns d nm t.
Proof.
  intros K1 K2 Hn Ha G ND H. unfold avro_body in H. rewrite Hn in H.
  assert (C : described d nm PNone (full_of nm) [] (avro_common PNone (a_alias h) [] (a_attrs h))).
  { rewrite Ha. apply common_spec; auto. }
  set (c := avro_common PNone (a_alias h) [] (a_attrs h)) in *. cbv zeta in H.
  assert (U : forall l, Forall sound l -> (dget "type" d = Some (PList l)
      \/ (dget "type" d = Some (PStr "union") /\ exists v, dget "types" d = Some v /\ py_iter v = Ok l)) ->
    forall R, (ts <- mmap (fun t => avro_parse t (PStr ns)) l ;; avro_register (TUnion c ts))%mon R = (R', Ok t) -> reads_as ns d nm t).
  { intros l F W R0 E. unfold mbind in E. destruct (mmap _ l R0) as [R1 [ts|]] eqn:M; [|discriminate].
    apply register_ok in E. subst t. eapply ra_union; eauto using mmap_sound. }
  assert (P : forall s, dget "type" d = Some (PStr s) -> ~ In s avro_prims -> ~ complex s d -> forall R,
    (p <- (if substr_in "." s then ret s else (n <- lift (ns_text (PStr ns)) ;; ret (n ++ "." ++ s)%string)) ;;
     ret (TProxy (mkC PNone (PStr p) (kwarg "doc" PNone (a_attrs h)) (ddel "doc" (a_attrs h))) None))%mon R = (R', Ok t) -> reads_as ns d nm t).
  { intros s T N1 N2 R0 E.
    assert (X : t = TProxy (mkC PNone (PStr (refers ns s)) (kwarg "doc" PNone (a_attrs h)) (ddel "doc" (a_attrs h))) None).
    { unfold refers. unfold mbind, ret, lift in E. destruct (substr_in "." s); cbn in E; injection E as _ <-; reflexivity. }
    subst t. eapply ra_reference; eauto.
    exact (common_spec d nm PNone (PStr (refers ns s)) [] (a_attrs h) G eq_refl eq_refl eq_refl). }
  destruct (dget "type" d) as [ty|] eqn:T; [|discriminate].
  destruct ty as [| | | |s|l|e]; try discriminate H.
  - assert (PR : forall s' t0 R0, s = s' -> primitive s' c = Some t0 -> avro_register t0 R0 = (R', Ok t) -> reads_as ns d nm t).
    { intros s' t0 R0 -> Pr E. apply register_ok in E. subst. eapply ra_primitive; eauto. }
    destruct (String.eqb_spec s "null"); [eapply PR; eauto; reflexivity|].
    destruct (String.eqb_spec s "boolean"); [eapply PR; eauto; reflexivity|].
    destruct (String.eqb_spec s "int"); [eapply PR; eauto; reflexivity|].
    destruct (String.eqb_spec s "long"); [eapply PR; eauto; reflexivity|].
    destruct (String.eqb_spec s "float"); [eapply PR; eauto; reflexivity|].
    destruct (String.eqb_spec s "double"); [eapply PR; eauto; reflexivity|].
    destruct (String.eqb_spec s "bytes"); [eapply PR; eauto; reflexivity|].
    assert (NC : forall k, In (s, k) needs -> dget k d = None -> ~ complex s d).
    { intros k I E (k' & v & I' & E' & _). cbn in I, I'.
      assert (k = k') by (repeat destruct I as [I|I]; try contradiction; injection I as <- <-;
        repeat destruct I' as [I'|I']; try contradiction; congruence). congruence. }
    assert (NP : s <> "string" -> ~ In s avro_prims).
    { intros N8 I. cbn in I. intuition congruence. }
    destruct (String.eqb_spec s "fixed") as [->|].
    { destruct (dget "size" d) as [n'|] eqn:S.
      - destruct (as_int n') as [z|] eqn:Z.
        + destruct (Z.leb z max_len) eqn:L.
          * apply register_ok in H. subst t. eapply ra_fixed with (z := z); eauto; [apply as_int_spec; exact Z|]. apply Z.leb_le in L. exact L.
          * eapply P; eauto; [apply NP; discriminate|]. intros (k & v & I & E & F).
            cbn in I. repeat destruct I as [I|I]; try contradiction; try discriminate. injection I as <-.
            rewrite S in E. injection E as <-. destruct (F eq_refl) as (z' & Hz & Lz). apply as_int_spec in Hz.
            rewrite Z in Hz. injection Hz as <-. apply Z.leb_gt in L. unfold longest, max_len in *. lia.
        + eapply P; eauto; [apply NP; discriminate|]. intros (k & v & I & E & F).
          cbn in I. repeat destruct I as [I|I]; try contradiction; try discriminate. injection I as <-.
          rewrite S in E. injection E as <-. destruct (F eq_refl) as (z' & Hz & Lz). apply as_int_spec in Hz. congruence.
      - eapply P; eauto; [apply NP; discriminate|]. eapply NC; eauto. cbn; auto. }
    destruct (String.eqb_spec s "string"); [eapply PR; eauto; reflexivity|].
    destruct (String.eqb_spec s "record") as [->|].
    { destruct (dget "fields" d) as [v|] eqn:S.
      - unfold mbind, lift in H. destruct (py_iter v) as [l|] eqn:I; [|discriminate].
        destruct (mmap _ l R) as [R1 [fs|]] eqn:M; [|discriminate]. apply register_ok in H. subst t.
        eapply ra_record; eauto. eapply mmap_sound; eauto. eapply K2; eauto. left; discriminate.
      - eapply P; eauto. eapply NC; eauto. cbn; auto 10. }
    destruct (String.eqb_spec s "enum") as [->|].
    { destruct (dget "symbols" d) as [v|] eqn:S.
      - apply register_ok in H. subst t. eapply ra_enum; eauto.
      - eapply P; eauto. eapply NC; eauto. cbn; auto 10. }
    destruct (String.eqb_spec s "array") as [->|].
    { destruct (dget "items" d) as [v|] eqn:S.
      - unfold mbind in H. destruct (avro_parse v (PStr ns) R) as [R1 [i|]] eqn:M; [|discriminate].
        apply register_ok in H. subst t. eapply ra_array; eauto. eapply K1; eauto. left; discriminate.
      - eapply P; eauto. eapply NC; eauto. cbn; auto 10. }
    destruct (String.eqb_spec s "map") as [->|].
    { destruct (dget "values" d) as [v|] eqn:S.
      - unfold mbind in H. destruct (avro_parse v (PStr ns) R) as [R1 [i|]] eqn:M; [|discriminate].
        apply register_ok in H. subst t. eapply ra_map; eauto. eapply K1; eauto. left; discriminate.
      - eapply P; eauto. eapply NC; eauto. cbn; auto 10. }
    destruct (String.eqb_spec s "union") as [->|].
    { destruct (dget "types" d) as [v|] eqn:S.
      - unfold mbind at 1 in H. unfold lift in H. destruct (py_iter v) as [l|] eqn:I; [|discriminate].
        eapply U; [eapply K2; eauto; left; discriminate| |eauto]. eauto.
      - eapply P; eauto. eapply NC; eauto. cbn; auto 10. }
    eapply P; eauto. intros (k & v & I & _). cbn in I. intuition congruence.
  - apply (U l) with (R := R); auto. apply (K2 "type" (PList l)); auto. right; exact I.
  - unfold mbind in H. destruct (avro_parse (PDict e) (PStr ns) R) as [R1 [t0|]] eqn:M; [|discriminate].
    injection H as <- <-. eapply ra_definition; eauto; [eapply K1; eauto; right; exact I|].
    intros k. rewrite dget_dupd by auto. rewrite G. unfold given. reflexivity.
Qed.

Theorem parse_sound : forall j, namespaced j -> sound j.
Proof.
  intros j. remember (psize j) as n eqn:N. revert j N.
  induction n as [n IH] using (well_founded_induction lt_wf). intros j -> NS ns R R' t H.
  assert (D : forall d, namespaced (PDict d) -> (forall k v, dget k d = Some v -> inner k v -> psize v < psize j) ->
    (h <- lift (avro_parse_head d (PStr ns)) ;;
         let lo := kwarg "logicalType" PNone d in
         if truthy lo then lift (avro_parse_logical lo d (a_attrs h))
         else avro_body avro_parse d h)%mon R = (R', Ok t) -> reads ns (PDict d) t).
  { intros d N L E. inversion N as [d' S F| |v C]; subst; [|contradiction]. unfold mbind, lift in E.
    destruct (avro_parse_head d (PStr ns)) as [h|] eqn:Hd; [|discriminate].
    destruct (head_spec _ _ _ S Hd) as (ns' & nm & NM & A1 & A2 & A3 & A4). cbv zeta in E.
    unfold kwarg in E. destruct (dget "logicalType" d) as [lo|] eqn:LT.
    - destruct (truthy lo) eqn:TR.
      + injection E as <- E. destruct (logical_spec _ _ _ nm _ A3 E) as (l & r & x & f & c & -> & LA & DE & ->).
        eapply reads_logical; eauto.
      + eapply reads_object; eauto; [now rewrite LT|]. eapply (body_spec d h ns' nm R R'); [| |exact A1|exact A2|exact A3|exact A4|exact E].
        * intros k v G W. eapply IH; eauto.
        * intros k v l G W I. apply Forall_forall. intros y IN. pose proof (py_iter_size _ _ _ I IN). specialize (L _ _ G W).
          apply (IH (psize y)); [lia|reflexivity|]. specialize (F _ _ G). destruct v; cbn in I; try discriminate; injection I as <-.
          -- apply in_map_iff in IN as (? & <- & _). now constructor.
          -- inversion F as [|l' FL|v' C]; subst; [|contradiction]. rewrite Forall_forall in FL. auto.
          -- apply in_map_iff in IN as (? & <- & _). now constructor.
    - cbn [truthy] in E. eapply reads_object; eauto; [now rewrite LT|]. eapply (body_spec d h ns' nm R R'); [| |exact A1|exact A2|exact A3|exact A4|exact E].
      + intros k v G W. eapply IH; eauto.
      + intros k v l G W I. apply Forall_forall. intros y IN. pose proof (py_iter_size _ _ _ I IN). specialize (L _ _ G W).
        apply (IH (psize y)); [lia|reflexivity|]. specialize (F _ _ G). destruct v; cbn in I; try discriminate; injection I as <-.
        * apply in_map_iff in IN as (? & <- & _). now constructor.
        * inversion F as [|l' FL|v' C]; subst; [|contradiction]. rewrite Forall_forall in FL. auto.
        * apply in_map_iff in IN as (? & <- & _). now constructor. }
  rewrite avro_parse_unfold in H. destruct j as [| | | |s|l|d]; try discriminate H.
  - constructor. apply (D [("type", PStr s)]); auto.
    + constructor; [exact I|]. intros k v E. cbn [dget] in E. destruct (String.eqb k "type"); [|discriminate].
      injection E as <-. now constructor.
    + intros k v E W. cbn [dget] in E. destruct (String.eqb_spec k "type") as [->|]; [|discriminate].
      injection E as <-. destruct W as [W|W]; [congruence|contradiction].
  - destruct (existsb _ _) in H; discriminate.
  - apply D; auto. intros k v E _. rewrite psize_dict. apply dsize_dget in E. lia.
Qed.

(** *** Every schema whose names are new is read *)
Lemma F2_len {A B} (P : A -> B -> Prop) l l' : Forall2 P l l' -> length l = length l'.
Proof. induction 1; cbn; auto. Qed.

Lemma last_dot a a' b b' : (a ++ "." ++ b = a' ++ "." ++ b')%string -> no_dot b -> no_dot b' -> a = a' /\ b = b'.
Proof.
  revert a'. induction a as [|c a IH]; intros a' E N N'; destruct a' as [|c' a']; cbn in E.
  - injection E as E. auto.
  - injection E as <- E. exfalso. unfold no_dot in N. rewrite E in N.
    assert (X : substr_in "." (a' ++ String "." b') = true) by (apply (substr_char "."); eauto). congruence.
  - injection E as -> E. exfalso. unfold no_dot in N'. rewrite <- E in N'.
    assert (X : substr_in "." (a ++ String "." b) = true) by (apply (substr_char "."); eauto). congruence.
  - injection E as <- E. destruct (IH a') as [-> ->]; auto.
Qed.
Lemma dot_in a b : substr_in "." (a ++ "." ++ b) = true.
Proof. apply (substr_char "."). exists a, b. reflexivity. Qed.
Lemma named_fun ns d n1 m1 n2 m2 : named_as ns d n1 m1 -> named_as ns d n2 m2 -> n1 = n2 /\ m1 = m2.
Proof.
  assert (D : forall a b, no_dot (a ++ "." ++ b) -> False).
  { intros a b N. unfold no_dot in N. rewrite dot_in in N. discriminate. }
  intros [] []; try congruence; auto; try (rewrite H in H1; injection H1 as <-; auto; exfalso; eapply D; eauto; fail).
  - rewrite H in H1. injection H1 as E. destruct (last_dot _ _ _ _ E) as [-> ->]; auto.
Qed.
Lemma head_complete d ns ns' nm : space d -> named_as ns d ns' nm -> exists h, avro_parse_head d (PStr ns) = Ok h
  /\ a_ns h = PStr ns' /\ a_alias h = full_of nm.
Proof.
  intros S N. assert (E : exists h, avro_parse_head d (PStr ns) = Ok h).
  { unfold avro_parse_head.
    assert (NS : match dget "namespace" d with Some v => v | None => PStr ns end = PStr (namespace_of ns d)).
    { unfold space, namespace_of in *. destruct (dget "namespace" d) as [[]|]; tauto. }
    cbv zeta. rewrite NS. destruct N as [E|b E D|a b E D]; rewrite E; [eauto| |].
    - rewrite D, rooted_spec. cbn [ns_text rbind]. eauto.
    - rewrite dot_in.
      destruct (rsplit_dot _). rewrite rooted_spec. cbn [ns_text rbind]. eauto. }
  destruct E as [h E]. destruct (head_spec _ _ _ S E) as (n1 & m1 & N1 & A1 & A2 & _).
  destruct (named_fun _ _ _ _ _ _ N N1) as [-> ->]. eauto.
Qed.

Definition record_type (t : rtype) : bool := match t with TStruct _ _ => true | _ => false end.
Definition complete (j : pyval) : Prop := forall ns R t l, reads ns j t -> gives t l -> NoDup (dkeys R ++ l) -> Forall dotted_name l ->
  exists R' t', avro_parse j (PStr ns) R = (R', Ok t') /\ record_type t' = record_type t /\ gives t' l /\ dkeys R' = dkeys R ++ l.

Lemma mmap_complete js ns : Forall complete js -> forall ts, Forall2 (reads ns) js ts -> forall ls R, Forall2 gives ts ls ->
  NoDup (dkeys R ++ List.concat ls) -> Forall dotted_name (List.concat ls) ->
  exists R' ts', mmap (fun t => avro_parse t (PStr ns)) js R = (R', Ok ts') /\ Forall2 gives ts' ls /\ dkeys R' = dkeys R ++ List.concat ls.
Proof.
  induction 1 as [|j js C _ IH]; intros ts F; inversion F; subst; intros ls R G ND DN; inversion G; subst; cbn [List.concat] in *.
  - exists R, []. cbn. rewrite app_nil_r. auto.
  - apply Forall_app in DN as [D1 D2]. rewrite app_assoc in ND.
    edestruct C as (R1 & t1 & P1 & _ & G1 & K1); eauto; [eapply NoDup_app_l; eauto|].
    rewrite <- K1 in ND. destruct (IH _ H3 _ R1 H5 ND D2) as (R2 & ts2 & P2 & G2 & K2).
    exists R2, (t1 :: ts2). cbn [mmap]. unfold mbind. rewrite P1, P2. split; [reflexivity|]. split; [now constructor|].
    rewrite K2, K1, app_assoc. reflexivity.
Qed.

Definition own (nm : option (string * string)) : list string := match nm with Some (f, _) => [f] | None => [] end.
Lemma register_complete t nm R : c_alias (get_c t) = full_of nm -> NoDup (dkeys R ++ own nm) -> Forall dotted_name (own nm) ->
  exists R', avro_register t R = (R', Ok t) /\ dkeys R' = dkeys R ++ own nm.
Proof.
  intros A ND DN. unfold avro_register. rewrite A. destruct nm as [[f s]|]; cbn [full_of is_none own] in *.
  - unfold mbind, register_alias. rewrite A. inversion DN as [|? ? Df _]; subst. apply alias_regex_spec in Df.
    destruct (dmem f R) eqn:M.
    + exfalso. apply NoDup_remove_2 in ND. rewrite app_nil_r in ND. apply ND. now apply dmem_true.
    + rewrite Df. eexists. split; [reflexivity|]. unfold dkeys. rewrite map_app. reflexivity.
  - exists R. rewrite app_nil_r. auto.
Qed.

Lemma gives_inv t l nm : gives t l -> is_proxy t = false -> c_alias (get_c t) = full_of nm ->
  exists ls, Forall2 gives (children t) ls /\ l = List.concat ls ++ own nm.
Proof.
  intros G P A. inversion G as [t' ls ow F E]; subst t' l. exists ls. split; auto. subst ow. rewrite A, P. destruct nm as [[f s]|]; reflexivity.
Qed.
Lemma gives_node t nm ls : Forall2 gives (children t) ls -> is_proxy t = false -> c_alias (get_c t) = full_of nm ->
  gives t (List.concat ls ++ own nm).
Proof.
  intros G P A. constructor; auto. rewrite A, P. destruct nm as [[f s]|]; reflexivity.
Qed.

Lemma logical_complete d l lo x f a : logical_as d l lo x f -> exists c v n s,
  avro_parse_logical (PStr l) d a = Ok match f c with TBytes c _ _ => TBytes c n v | t => t end /\ c_alias c = PNone /\ s = l.
Proof.
  intros [ty p s n v T P _ _| | |l' u b I|l' u I|v]; unfold avro_parse_logical;
    try (eexists _, PNone, PNone, _; split; [reflexivity|]; split; reflexivity).
  - cbn [String.eqb Ascii.eqb Bool.eqb]. rewrite T, P. eexists _, _, _, _. split; [reflexivity|]. split; reflexivity.
  - cbn in I. repeat destruct I as [I|I]; try contradiction; injection I as <- <- <-; (eexists _, PNone, PNone, _; split; [reflexivity|]; split; reflexivity).
  - cbn in I. repeat destruct I as [I|I]; try contradiction; injection I as <- <-; (eexists _, PNone, PNone, _; split; [reflexivity|]; split; reflexivity).
  - eexists _, _, _, _. split; [reflexivity|]. split; reflexivity.
Qed.

Lemma body_complete d h ns nm R t l : (forall k v, dget k d = Some v -> inner k v -> complete v) ->
  (forall k v l, dget k d = Some v -> inner k v -> py_iter v = Ok l -> Forall complete l) ->
  a_ns h = PStr ns -> a_alias h = full_of nm -> reads_as ns d nm t -> gives t l ->
  NoDup (dkeys R ++ l) -> Forall dotted_name l ->
  exists R' t', avro_body avro_parse d h R = (R', Ok t') /\ record_type t' = record_type t /\ gives t' l /\ dkeys R' = dkeys R ++ l.
Proof.
  intros K1 K2 Hn Ha RA G ND DN. unfold avro_body. rewrite Hn.
  assert (CA : c_alias (avro_common PNone (a_alias h) [] (a_attrs h)) = full_of nm) by exact Ha.
  set (c := avro_common PNone (a_alias h) [] (a_attrs h)) in *. cbv zeta.
  assert (LEAF : forall t', children t = [] -> is_proxy t = false -> c_alias (get_c t) = full_of nm ->
    children t' = [] -> is_proxy t' = false -> get_c t' = c -> record_type t' = record_type t ->
    exists R' t'', avro_register t' R = (R', Ok t'') /\ record_type t'' = record_type t /\ gives t'' l /\ dkeys R' = dkeys R ++ l).
  { intros t' C1 P1 A1 C2 P2 A2 RT. destruct (gives_inv _ _ _ G P1 A1) as (ls & F & ->). rewrite C1 in F. inversion F; subst.
    cbn [List.concat app] in *. rewrite <- A2 in CA. destruct (register_complete t' nm R CA ND DN) as (R' & E & K).
    exists R', t'. split; auto. split; auto. split; auto. apply (gives_node t' nm []); auto. rewrite C2. constructor. }
  assert (NODE : forall (mk : list rtype -> rtype) js ts, Forall complete js -> Forall2 (reads ns) js ts ->
    (exists ls, Forall2 gives ts ls /\ l = List.concat ls ++ own nm) ->
    (forall ts' ls, length ts' = length ts -> Forall2 gives ts' ls -> gives (mk ts') (List.concat ls ++ own nm) /\ get_c (mk ts') = c /\ record_type (mk ts') = record_type t) ->
    exists R' t', (ts <- mmap (fun t => avro_parse t (PStr ns)) js ;; avro_register (mk ts))%mon R = (R', Ok t') /\ record_type t' = record_type t /\ gives t' l /\ dkeys R' = dkeys R ++ l).
  { intros mk js ts C F (ls & GL & ->) MK. apply Forall_app in DN as [D1 D2]. rewrite app_assoc in ND.
    destruct (mmap_complete js ns C ts F ls R GL (NoDup_app_l _ _ ND) D1) as (R1 & ts' & P1 & G1 & E1).
    rewrite <- E1 in ND. destruct (MK ts' ls) as (M1 & M2 & M3); auto; [now rewrite (F2_len _ _ _ GL), (F2_len _ _ _ G1)|]. rewrite <- M2 in CA.
    destruct (register_complete (mk ts') nm R1 CA ND D2) as (R2 & P2 & E2).
    exists R2, (mk ts'). unfold mbind. rewrite P1. split; [exact P2|]. split; [exact M3|]. split; [exact M1|]. rewrite E2, E1, app_assoc. reflexivity. }
  destruct RA as [d nm s c' t T De Pr|d nm c' n z v T De S I Lz|d nm c' v js fs T De S I F|d nm c' s T De S|d nm c' j t T De S Rj
    |d nm c' k j t T De S Rj ->|d nm c' js ts T De F|d nm c' s T NP NC De|d nm e t0 t x T R0 -> X].
  - rewrite T. unfold primitive in Pr. cbn [dget] in Pr. destruct De as [_ De _ _].
    repeat match type of Pr with (if String.eqb s ?k then _ else _) = _ =>
      destruct (String.eqb_spec s k) as [->|?]; [injection Pr as <-; apply LEAF; auto|] end. discriminate.
  - rewrite T. apply as_int_spec in I. destruct De as [_ De _ _]. cbn [String.eqb Ascii.eqb Bool.eqb]. rewrite S, I.
    destruct (Z.leb_spec z max_len); [|change max_len with longest in *; lia]. apply LEAF; auto.
  - rewrite T. destruct De as [_ De _ _]. cbn [String.eqb Ascii.eqb Bool.eqb]. rewrite S. unfold mbind at 1, lift. rewrite I.
    apply (NODE (TStruct c) js fs); auto.
    + apply (K2 "fields" v); auto. left; discriminate.
    + exact (gives_inv (TStruct c' fs) _ _ G eq_refl De).
    + intros ts' ls _ GL. split; [|auto]. apply gives_node; auto.
  - rewrite T. destruct De as [_ De _ _]. cbn [String.eqb Ascii.eqb Bool.eqb]. rewrite S. apply LEAF; auto.
  - rewrite T. destruct De as [_ De _ _]. cbn [String.eqb Ascii.eqb Bool.eqb]. rewrite S.
    edestruct (NODE (fun ts => TList c (hd t ts) PNone (PBool true)) [j] [t]) as (R' & t' & P' & RT' & G' & E').
    + constructor; [|constructor]. apply (K1 "items" j); auto. left; discriminate.
    + repeat constructor; auto.
    + exact (gives_inv (TList c' t PNone (PBool true)) _ _ G eq_refl De).
    + intros ts' ls L GL. split; [|auto]. apply gives_node; auto. destruct ts' as [|t' []]; try discriminate. exact GL.
    + exists R', t'. split; auto. rewrite <- P'. cbn [mmap]. unfold mbind. destruct (avro_parse j (PStr ns) R) as [R1 [y|]]; reflexivity.
  - rewrite T. destruct De as [_ De _ _]. cbn [String.eqb Ascii.eqb Bool.eqb]. rewrite S.
    edestruct (NODE (fun ts => TMap c (TString c0 (PInt max_len) (PBool true)) (hd t ts)) [j] [t]) as (R' & t' & P' & RT' & G' & E').
    + constructor; [|constructor]. apply (K1 "values" j); auto. left; discriminate.
    + repeat constructor; auto.
    + destruct (gives_inv (TMap c' (TString c0 (PInt longest) (PBool true)) t) _ _ G eq_refl De) as (ls & GL & E).
      cbn [children] in GL. inversion GL as [|? l1 ? ls' G1 GL']; subst. exists ls'. split; auto.
      inversion G1 as [? lk ow FK EK]; subst. inversion FK; subst. reflexivity.
    + intros ts' ls L GL. split; [|auto]. destruct ts' as [|t' []]; try discriminate. cbn [hd].
      apply (gives_node (TMap c _ t') nm ([] :: ls)); auto. constructor; auto. apply (gives_intro _ [] []); constructor.
    + exists R', t'. split; auto. rewrite <- P'. cbn [mmap]. unfold mbind. destruct (avro_parse j (PStr ns) R) as [R1 [y|]]; reflexivity.
  - assert (W : forall K3 : Forall complete js, exists R' t', (ts <- mmap (fun t => avro_parse t (PStr ns)) js ;; avro_register (TUnion c ts))%mon R = (R', Ok t')
      /\ record_type t' = false /\ gives t' l /\ dkeys R' = dkeys R ++ l).
    { intros K3. destruct De as [_ De _ _]. apply (NODE (TUnion c) js ts); auto.
      - exact (gives_inv (TUnion c' ts) _ _ G eq_refl De).
      - intros ts' ls _ GL. split; [|auto]. apply gives_node; auto. }
    destruct T as [T|(T & v & TT & I)].
    + rewrite T. apply W. apply (K2 "type" (PList js)); auto. right; exact Logic.I.
    + rewrite T. cbn [String.eqb Ascii.eqb Bool.eqb]. rewrite TT. unfold mbind at 1, lift. rewrite I. apply W.
      apply (K2 "types" v); auto. left; discriminate.
  - destruct De as [_ De _ _].
    assert (W : exists R' t', (p <- (if substr_in "." s then ret s else (n <- lift (ns_text (PStr ns)) ;; ret (n ++ "." ++ s)%string)) ;;
       ret (TProxy (mkC PNone (PStr p) (kwarg "doc" PNone (a_attrs h)) (ddel "doc" (a_attrs h))) None))%mon R = (R', Ok t')
      /\ record_type t' = false /\ gives t' l /\ dkeys R' = dkeys R ++ l).
    { inversion G as [? ls ow GL EL]; subst. inversion GL; subst. cbn [List.concat app get_c is_proxy] in *. rewrite De, app_nil_r.
      unfold mbind, ret, lift. destruct (substr_in "." s); cbn; eexists _, _; (split; [reflexivity|]); (split; [reflexivity|]); (split; [|reflexivity]);
        apply (gives_intro _ [] []); constructor. }
    rewrite T. cbn in NP.
    assert (N : forall k, In k avro_prims -> String.eqb s k = false).
    { intros k I. apply String.eqb_neq. intros ->. apply NP. exact I. }
    rewrite (N "null"), (N "boolean"), (N "int"), (N "long"), (N "float"), (N "double"), (N "bytes"), (N "string") by (cbn; tauto).
    assert (Q : forall k, In (s, k) needs -> s <> "fixed" -> dget k d = None).
    { intros k I NF. destruct (dget k d) as [v|] eqn:E; auto. exfalso. apply NC. exists k, v. repeat split; auto. congruence. }
    destruct (String.eqb_spec s "fixed") as [->|NF].
    { destruct (dget "size" d) as [n|] eqn:S; auto. destruct (as_int n) as [z|] eqn:Z; auto. destruct (Z.leb_spec z max_len); auto.
      exfalso. apply NC. exists "size", n. split; [cbn; auto|]. split; auto. intros _. exists z. split; [now apply as_int_spec|]. exact H. }
    destruct (String.eqb_spec s "record") as [->|]; [rewrite (Q "fields"); cbn; auto 10|].
    destruct (String.eqb_spec s "enum") as [->|]; [rewrite (Q "symbols"); cbn; auto 10|].
    destruct (String.eqb_spec s "array") as [->|]; [rewrite (Q "items"); cbn; auto 10|].
    destruct (String.eqb_spec s "map") as [->|]; [rewrite (Q "values"); cbn; auto 10|].
    destruct (String.eqb_spec s "union") as [->|]; [rewrite (Q "types"); cbn; auto 10|]. exact W.
  - rewrite T. assert (G0 : gives t0 l).
    { inversion G as [? ls ow GL EL]; subst. destruct t0; constructor; auto. }
    destruct (K1 "type" (PDict e) T (or_intror Logic.I) ns R t0 l R0 G0 ND DN) as (R' & t' & P' & RT' & G' & E').
    unfold mbind. rewrite P'. eexists _, _. split; [reflexivity|]. split; [destruct t0, t'; auto|]. split; auto.
    inversion G' as [? ls ow GL EL]; subst. destruct t'; constructor; auto.
Qed.

Theorem parse_complete : forall j, namespaced j -> complete j.
Proof.
  intros j. remember (psize j) as n eqn:N. revert j N.
  induction n as [n IH] using (well_founded_induction lt_wf). intros j -> NS ns R t l RD G ND DN.
  assert (D : forall d, namespaced (PDict d) -> (forall k v, dget k d = Some v -> inner k v -> psize v < psize j) ->
    reads ns (PDict d) t ->
    exists R' t', (h <- lift (avro_parse_head d (PStr ns)) ;;
         let lo := kwarg "logicalType" PNone d in
         if truthy lo then lift (avro_parse_logical lo d (a_attrs h))
         else avro_body avro_parse d h)%mon R = (R', Ok t') /\ record_type t' = record_type t /\ gives t' l /\ dkeys R' = dkeys R ++ l).
  { intros d N L E. inversion N as [d' S F| |v C]; subst; [|contradiction].
    assert (K : forall ns' nm, named_as ns d ns' nm -> exists h, avro_parse_head d (PStr ns) = Ok h /\ a_ns h = PStr ns' /\ a_alias h = full_of nm)
      by (intros; now apply head_complete).
    inversion E as [|? ns' nm ? NM LO RA|? ns' nm lg lo x c f NM LO LA DE]; subst; destruct (K _ _ NM) as (h & Hd & A1 & A2);
      unfold mbind, lift; rewrite Hd; cbv zeta.
    - replace (truthy (kwarg "logicalType" PNone d)) with false by (unfold kwarg; destruct (dget "logicalType" d); auto).
      apply (body_complete d h ns' nm R t l); auto.
      + intros k v GV W. apply (IH (psize v)); eauto.
      + intros k v js GV W I. apply Forall_forall. intros y IN. pose proof (py_iter_size _ _ _ I IN). specialize (L _ _ GV W).
        apply (IH (psize y)); [lia|reflexivity|]. specialize (F _ _ GV). destruct v; cbn in I; try discriminate; injection I as <-.
        * apply in_map_iff in IN as (? & <- & _). now constructor.
        * inversion F as [|l' FL|v' C]; subst; [|contradiction]. rewrite Forall_forall in FL. auto.
        * apply in_map_iff in IN as (? & <- & _). now constructor.
    - unfold kwarg. rewrite LO.
      assert (l = []) as ->.
      { inversion G as [? ls ow GL EL]; subst. destruct DE as [_ DA _ _]. destruct LA; cbn in GL; inversion GL; subst; cbn; rewrite DA; reflexivity. }
      assert (TR : truthy (PStr lg) = true) by (destruct LA as [| | |? ? ? I|? ? I|]; try reflexivity; cbn in I;
        repeat destruct I as [I|I]; try contradiction; injection I; intros; subst; reflexivity).
      rewrite TR. destruct (logical_complete d lg lo x f (a_attrs h) LA) as (c' & v & n' & s' & -> & CA & _).
      eexists _, _. split; [reflexivity|]. rewrite app_nil_r. split; [destruct LA; reflexivity|]. split; auto.
      destruct LA; cbn; apply (gives_intro _ [] []); try constructor; cbn; rewrite CA; reflexivity. }
  rewrite avro_parse_unfold. destruct RD as [s t RD|d ns' nm t NM LO RA|d ns' nm lg lo x c t NM LO LA DE].
  - apply (D [("type", PStr s)]); auto.
    + constructor; [exact I|]. intros k v E. cbn [dget] in E. destruct (String.eqb k "type"); [|discriminate].
      injection E as <-. now constructor.
    + intros k v E W. cbn [dget] in E. destruct (String.eqb_spec k "type") as [->|]; [|discriminate].
      injection E as <-. destruct W as [W|W]; [congruence|contradiction].
  - apply D; auto; [|now apply (reads_object ns d ns' nm t)]. intros k v E _. rewrite psize_dict. apply dsize_dget in E. lia.
  - apply D; auto; [|now apply (reads_logical ns d ns' nm lg lo x c t)]. intros k v E _. rewrite psize_dict. apply dsize_dget in E. lia.
Qed.

(** *** The names of what is read are registered *)
Definition adds (R R' : registry) (t : rtype) : Prop := exists l, gives t l /\ dkeys R' = dkeys R ++ l /\ Forall dotted_name l
  /\ (NoDup (dkeys R) -> NoDup (dkeys R')).
Definition registers (j : pyval) : Prop := forall ns R R' t, avro_parse j ns R = (R', Ok t) -> adds R R' t.

Lemma mmap_registers js ns : Forall registers js -> forall R R' ts, mmap (fun t => avro_parse t ns) js R = (R', Ok ts) ->
  exists ls, Forall2 gives ts ls /\ dkeys R' = dkeys R ++ List.concat ls /\ Forall dotted_name (List.concat ls) /\ (NoDup (dkeys R) -> NoDup (dkeys R')).
Proof.
  induction 1 as [|j js C _ IH]; cbn [mmap]; intros R R' ts H.
  - injection H as <- <-. exists []. cbn. rewrite app_nil_r. auto.
  - unfold mbind in H. destruct (avro_parse j ns R) as [R1 [y|]] eqn:E; [|discriminate].
    destruct (mmap _ js R1) as [R2 [ys|]] eqn:E2; [|discriminate]. injection H as <- <-.
    destruct (C _ _ _ _ E) as (l & G & K & D & N). destruct (IH _ _ _ E2) as (ls & G2 & K2 & D2 & N2).
    exists (l :: ls). cbn [List.concat]. rewrite K2, K, app_assoc. repeat split; auto; [apply Forall_app; auto|].
    intros ND. apply N in ND. apply N2 in ND. rewrite K2, K in ND. exact ND.
Qed.

Lemma register_adds t R0 R R' t' ls : is_proxy t = false -> avro_register t R = (R', Ok t') -> Forall2 gives (children t) ls ->
  dkeys R = dkeys R0 ++ List.concat ls -> Forall dotted_name (List.concat ls) -> (NoDup (dkeys R0) -> NoDup (dkeys R)) -> adds R0 R' t'.
Proof.
  intros P H G K D N. pose proof (register_ok _ _ _ _ H) as ->. unfold avro_register in H.
  destruct (c_alias (get_c t)) as [| | | |a| |] eqn:A; cbn [is_none] in H; unfold mbind, register_alias in H; rewrite ?A in H; try discriminate.
  - injection H as <-. exists (List.concat ls ++ []). split; [constructor; auto; now rewrite A|]. rewrite app_nil_r. auto.
  - destruct (dmem a R) eqn:M; [discriminate|]. destruct (re_match alias_regex a) eqn:RM; [|discriminate]. injection H as <-.
    apply alias_regex_spec in RM. exists (List.concat ls ++ [a]). split; [constructor; auto; now rewrite A, P|].
    split; [unfold dkeys in *; rewrite map_app, K, app_assoc; reflexivity|]. split; [apply Forall_app; auto|].
    intros ND. unfold dkeys. rewrite map_app. apply NoDup_app'; auto; [repeat constructor; auto|]. intros x [<-|[]] I.
    assert (X : dmem a R = true) by (apply dmem_true; exact I). congruence.
Qed.

Lemma proxy_adds R c r : adds R R (TProxy c r).
Proof.
  exists []. rewrite app_nil_r. repeat split; auto. apply (gives_intro _ [] []); [constructor|]. cbn. now destruct (c_alias c).
Qed.
Lemma none_adds R t : children t = [] -> c_alias (get_c t) = PNone -> adds R R t.
Proof.
  intros C A. exists []. rewrite app_nil_r. repeat split; auto. apply (gives_intro _ [] []); [rewrite C; constructor|]. now rewrite A.
Qed.

Lemma other_key k v : String.eqb k "type" = false -> inner k v.
Proof. intros E. left. now apply String.eqb_neq. Qed.
Lemma body_registers d h R R' t : (forall k v, dget k d = Some v -> inner k v -> registers v) ->
  (forall k v l, dget k d = Some v -> inner k v -> py_iter v = Ok l -> Forall registers l) ->
  avro_body avro_parse d h R = (R', Ok t) -> adds R R' t.
Proof.
  intros K1 K2 H. unfold avro_body in H.
  set (c := avro_common PNone (a_alias h) [] (a_attrs h)) in *. cbv zeta in H.
  assert (LEAF : forall t0, children t0 = [] -> is_proxy t0 = false -> avro_register t0 R = (R', Ok t) -> adds R R' t).
  { intros t0 C P E. apply (register_adds t0 R R R' t []); auto.
    - rewrite C. apply Forall2_nil.
    - cbn. now rewrite app_nil_r.
    - cbn. constructor. }
  assert (U : forall l, Forall registers l -> (ts <- mmap (fun t => avro_parse t (a_ns h)) l ;; avro_register (TUnion c ts))%mon R = (R', Ok t) -> adds R R' t).
  { intros l F E. unfold mbind in E. destruct (mmap _ l R) as [R1 [ts|]] eqn:M; [|discriminate].
    destruct (mmap_registers _ _ F _ _ _ M) as (ls & G & K & D & N). apply (register_adds (TUnion c ts) R R1 R' t ls); auto. }
  assert (P : forall s, (p <- (if substr_in "." s then ret s else (n <- lift (ns_text (a_ns h)) ;; ret (n ++ "." ++ s)%string)) ;;
     ret (TProxy (mkC PNone (PStr p) (kwarg "doc" PNone (a_attrs h)) (ddel "doc" (a_attrs h))) None))%mon R = (R', Ok t) -> adds R R' t).
  { intros s E. unfold mbind, ret, lift in E. destruct (substr_in "." s); [|destruct (ns_text (a_ns h)) as [n|]; [|discriminate]];
      injection E as <- <-; apply proxy_adds. }
  destruct (dget "type" d) as [[| | | |s|l|e]|] eqn:T; try discriminate H.
  - repeat match type of H with (if String.eqb s ?k then _ else _) _ = _ => destruct (String.eqb_spec s k) as [->|?]; [try (eapply LEAF; [| |exact H]; reflexivity)|] end.
    + destruct (dget "size" d) as [sz|] eqn:S; [|now apply (P "fixed")]. destruct (as_int sz) as [z|]; [|now apply (P "fixed")].
      destruct (Z.leb z max_len); [|now apply (P "fixed")]. eapply LEAF; [| |exact H]; reflexivity.
    + destruct (dget "fields" d) as [v|] eqn:S; [|now apply (P "record")]. unfold mbind, lift in H. destruct (py_iter v) as [l|] eqn:I; [|discriminate].
      destruct (mmap _ l R) as [R1 [fs|]] eqn:M; [|discriminate].
      destruct (mmap_registers _ _ (K2 "fields" v l S (other_key "fields" v eq_refl) I) _ _ _ M) as (ls & G & K & D & N).
      apply (register_adds (TStruct c fs) R R1 R' t ls); auto.
    + destruct (dget "symbols" d) as [v|] eqn:S; [|now apply (P "enum")]. eapply LEAF; [| |exact H]; reflexivity.
    + destruct (dget "items" d) as [v|] eqn:S; [|now apply (P "array")]. unfold mbind in H.
      destruct (avro_parse v (a_ns h) R) as [R1 [i|]] eqn:M; [|discriminate].
      destruct (K1 "items" v S (other_key "items" v eq_refl) _ _ _ _ M) as (l & G & K & D & N).
      apply (register_adds (TList c i PNone (PBool true)) R R1 R' t [l]); auto; cbn [List.concat]; rewrite ?app_nil_r; auto. repeat constructor; auto.
    + destruct (dget "values" d) as [v|] eqn:S; [|now apply (P "map")]. unfold mbind in H.
      destruct (avro_parse v (a_ns h) R) as [R1 [i|]] eqn:M; [|discriminate].
      destruct (K1 "values" v S (other_key "values" v eq_refl) _ _ _ _ M) as (l & G & K & D & N).
      apply (register_adds (TMap c (TString c0 (PInt max_len) (PBool true)) i) R R1 R' t [[]; l]); auto; cbn [List.concat app]; rewrite ?app_nil_r; auto.
      constructor; [apply (gives_intro _ [] []); constructor|]. repeat constructor; auto.
    + destruct (dget "types" d) as [v|] eqn:S; [|now apply (P "union")]. unfold mbind at 1 in H. unfold lift in H. destruct (py_iter v) as [l|] eqn:I; [|discriminate].
      apply (U l); auto. apply (K2 "types" v); auto. left; discriminate.
    + now apply (P s).
  - apply (U l); auto. apply (K2 "type" (PList l)); auto. right; exact Logic.I.
  - unfold mbind in H. destruct (avro_parse (PDict e) (a_ns h) R) as [R1 [t0|]] eqn:M; [|discriminate]. injection H as <- <-.
    destruct (K1 "type" (PDict e) T (or_intror Logic.I) _ _ _ _ M) as (l & G & K & D & N). exists l. repeat split; auto.
    inversion G as [? ls ow GL EL]; subst. destruct t0; constructor; auto.
Qed.

Theorem parse_registers : forall j, registers j.
Proof.
  intros j. remember (psize j) as n eqn:N. revert j N.
  induction n as [n IH] using (well_founded_induction lt_wf). intros j -> ns R R' t H.
  assert (D : forall d, (forall k v, dget k d = Some v -> inner k v -> psize v < psize j) -> forall h,
    (let lo := kwarg "logicalType" PNone d in
         if truthy lo then lift (avro_parse_logical lo d (a_attrs h))
         else avro_body avro_parse d h)%mon R = (R', Ok t) -> adds R R' t).
  { intros d L h E. cbv zeta in E. destruct (truthy _).
    - unfold lift in E. injection E as <- E. unfold avro_parse_logical in E. destruct (kwarg "logicalType" PNone d); try discriminate.
      repeat match type of E with (if String.eqb ?s ?k then _ else _) = _ => destruct (String.eqb s k) end; try discriminate;
        try (injection E as <-; apply none_adds; reflexivity).
      destruct (dget "type" d); [|discriminate]. destruct (dget "precision" d); [|discriminate]. injection E as <-. apply none_adds; reflexivity.
    - apply (body_registers d h R R' t); auto.
      + intros k v GV W. apply (IH (psize v)); eauto.
      + intros k v js GV W I. apply Forall_forall. intros y IN. pose proof (py_iter_size _ _ _ I IN). specialize (L _ _ GV W).
        apply (IH (psize y)); [lia|reflexivity]. }
  rewrite avro_parse_unfold in H. destruct j as [| | | |s|l|d]; try discriminate H.
  - unfold mbind, lift in H. destruct (avro_parse_head _ ns) as [h|]; [|discriminate]. apply (D [("type", PStr s)]) with (h := h); auto.
    intros k v E W. cbn [dget] in E. destruct (String.eqb_spec k "type") as [->|]; [|discriminate].
    injection E as <-. destruct W as [W|W]; [congruence|contradiction].
  - destruct (existsb _ _) in H; discriminate.
  - unfold mbind at 1 in H. unfold lift at 1 in H. destruct (avro_parse_head d ns) as [h|]; [|discriminate]. apply (D d) with (h := h); auto.
    intros k v E _. rewrite psize_dict. apply dsize_dget in E. lia.
Qed.

(** *** Writing *)
Lemma head_written c d : sized_alias c -> avro_head c = Ok d -> NoDup (dkeys d) /\ forall k, dget k d =
  dget k ((if truthy (c_doc c) then [("doc", c_doc c)] else []) ++
  (match dget "name" (c_extra c) with Some n => if truthy n then [("name", n)] else [] | None => [] end) ++
  (match dget "default" (c_extra c) with Some v => [("default", v)] | None => [] end) ++
  (match c_alias c with PStr a => if substr_in "." a then [("aliases", PList [PStr a])] else [] | _ => [] end)).
Proof.
  intros S H. unfold avro_head, kwarg in H.
  assert (E : d = (if truthy (c_doc c) then [("doc", c_doc c)] else []) ++
  (match dget "name" (c_extra c) with Some n => if truthy n then [("name", n)] else [] | None => [] end) ++
  (match dget "default" (c_extra c) with Some v => [("default", v)] | None => [] end) ++
  (match c_alias c with PStr a => if substr_in "." a then [("aliases", PList [PStr a])] else [] | _ => [] end)).
  { destruct S as [S|[a S]]; rewrite S in *.
    - cbn [truthy] in H. injection H as <-.
      destruct (truthy (c_doc c)), (dget "name" (c_extra c)) as [n|], (dget "default" (c_extra c)) as [v|]; try destruct (truthy n); reflexivity.
    - destruct a as [|x a].
      + cbn [truthy] in H. injection H as <-.
        destruct (truthy (c_doc c)), (dget "name" (c_extra c)) as [n|], (dget "default" (c_extra c)) as [v|]; try destruct (truthy n); reflexivity.
      + cbn [truthy py_str_in rbind] in H. destruct (substr_in "." (String x a)); injection H as <-;
        destruct (truthy (c_doc c)), (dget "name" (c_extra c)) as [n|], (dget "default" (c_extra c)) as [v|]; try destruct (truthy n); reflexivity. }
  split; [|intros k; now rewrite E]. rewrite E.
  destruct (truthy (c_doc c)), (dget "name" (c_extra c)) as [n|], (dget "default" (c_extra c)) as [v|]; try destruct (truthy n);
    destruct (c_alias c); try destruct (substr_in _ _); cbn; repeat constructor; cbn; intuition discriminate.
Qed.

Definition head_of (t : rtype) (d : attrs) : Prop := forall k, dget k d = dget k (written_labels t).
Definition body_keys : list string :=
  ["type"; "logicalType"; "precision"; "scale"; "size"; "fields"; "symbols"; "items"; "values"].
Lemma labels_free t k : In k body_keys -> dget k (written_labels t) = None.
Proof.
  intros I. apply dget_None. intros H. unfold written_labels in H.
  assert (J : In k ["doc"; "name"; "default"; "aliases"]).
  { destruct (truthy (c_doc (get_c t))), (dget "name" (c_extra (get_c t))) as [n|], (dget "default" (c_extra (get_c t))) as [v|]; try destruct (truthy n);
    destruct t; try match type of H with context [match c_alias ?c with _ => _ end] => destruct (c_alias c); try destruct (substr_in _ _) end; cbn in H; cbn; intuition. }
  cbn in I, J. intuition congruence.
Qed.

Lemma short_writes t d : writes t (PDict d) -> writes t (avro_short d).
Proof.
  intros W. unfold avro_short. destruct (Nat.eqb_spec (length d) 1) as [L|]; auto.
  destruct d as [|[k v] [|]]; cbn in L; try discriminate. cbn [dget].
  destruct (String.eqb_spec "type" k) as [<-|]; auto. destruct v; auto. now constructor.
Qed.

Lemma written t d b : written_as t b -> head_of t d -> NoDup (dkeys b) -> incl (dkeys b) body_keys -> writes t (avro_short (dupd d b)).
Proof.
  intros W H N I. apply short_writes. econstructor; eauto. intros k. rewrite dget_dupd, dget_app, <- H by auto.
  destruct (dget k b) as [v|] eqn:E; [|now destruct (dget k d)].
  rewrite H, labels_free; auto. apply I. apply dget_In_key in E. exact E.
Qed.

Lemma py_eq_str v s : py_eq v (PStr s) = true -> v = PStr s.
Proof. destruct v as [|[]| | |x| |]; cbn; try discriminate. intros H. apply String.eqb_eq in H. now subst. Qed.
Lemma unit_spec c u : py_eq (kwarg "unit" PNone (c_extra c)) (PStr u) = true <-> has_unit c u.
Proof.
  unfold has_unit, kwarg. destruct (dget "unit" (c_extra c)) as [v|]; split; try discriminate.
  - intros H. f_equal. now apply py_eq_str.
  - intros H. injection H as ->. cbn. apply String.eqb_refl.
Qed.

Ltac branches H :=
  repeat match type of H with
  | (if ?b then _ else _) = _ => let B := fresh "B" in destruct b eqn:B
  end; try discriminate H;
  repeat match goal with
  | B : (_ && _)%bool = true |- _ => apply andb_prop in B as [? ?]
  | B : Z.leb _ _ = true |- _ => apply Z.leb_le in B
  | B : String.eqb _ _ = true |- _ => apply String.eqb_eq in B; subst
  | B : negb ?b = true |- _ => apply negb_true_iff in B; subst
  end.

Lemma logical_written t b : avro_logical t = Ok b -> logical_body t b.
Proof.
  intros H. unfold avro_logical in H. cbv zeta in H.
  destruct t as [| |c n s| |c n v|c n v| | | | | |]; try discriminate H; cbn [get_c] in H.
  - destruct c as [lo al dc ex]. destruct lo as [| | | |lo| |]; try discriminate H. destruct s as [|[]| | | | |]; try discriminate H.
    destruct (as_int n) as [z|] eqn:Z; [|discriminate]. apply as_int_spec in Z. cbn [c_extra] in H.
    assert (U : forall u, py_eq (kwarg "unit" PNone ex) (PStr u) = true -> has_unit (mkC (PStr lo) al dc ex) u) by (intros u E; apply unit_spec; exact E).
    branches H; injection H as <-.
    + eapply lb_date; eauto.
    + eapply lb_time_millis; eauto.
    + eapply lb_time_micros; eauto.
    + eapply lb_timestamp; eauto. cbn; auto.
    + eapply lb_timestamp; eauto. cbn; auto.
  - destruct c as [lo al dc ex]. destruct lo as [| | | |lo| |]; try discriminate H.
    destruct (as_int n) as [z|] eqn:Z; [|discriminate]. apply as_int_spec in Z.
    branches H; injection H as <-. eapply lb_uuid; eauto.
  - destruct c as [lo al dc ex]. destruct lo as [| | | |lo| |]; try discriminate H.
    assert (U : forall u, py_eq (kwarg "unit" PNone ex) (PStr u) = true -> has_unit (mkC (PStr lo) al dc ex) u) by (intros u E; apply unit_spec; exact E).
    cbn [c_extra] in H.
    destruct (as_int n) as [z|] eqn:Z.
    + apply as_int_spec in Z. destruct v as [|v| | | | |]; try discriminate H.
      branches H; injection H as <-.
      * unfold kwarg. destruct (dget "precision" ex) as [p|] eqn:P; [|discriminate].
        refine (lb_decimal (mkC (PStr "build.recap.Decimal") al dc ex) n z v p eq_refl Z _ P _); auto.
        destruct p as [|[]|q| | | |]; try discriminate; eexists; unfold int_of; eauto.
      * eapply lb_duration; eauto.
    + destruct v as [|[]| | | | |]; try discriminate H. branches H; injection H as <-. eapply lb_duration; eauto.
Qed.

Lemma written_logical t b : logical_body t b -> avro_logical t = Ok b.
Proof.
  intros H. assert (U : forall c u, has_unit c u -> py_eq (kwarg "unit" PNone (c_extra c)) (PStr u) = true) by (intros; now apply unit_spec).
  assert (U' : forall c u u', has_unit c u -> u <> u' -> py_eq (kwarg "unit" PNone (c_extra c)) (PStr u') = false).
  { intros c u u' E N. destruct (py_eq (kwarg _ _ _) (PStr u')) eqn:Q; auto. apply unit_spec in Q. unfold has_unit in *. congruence. }
  destruct H as [c n z v p L I B P Q|c n L E Un|c n z L I B|c n z L I B Un|c n z L I B Un|c n z u l L I B Hu Un|c n z v L I B];
    destruct c as [lo al dc ex]; cbn [c_logical] in L; subst lo;
    try (assert (Un1 := U _ _ Un)); try (assert (Un2 := fun u' => U' _ _ u' Un)); cbn [c_extra] in *;
    unfold avro_logical; cbv zeta; cbn [get_c c_extra];
    try (change longest with max_len in B); try (apply as_int_spec in I; rewrite I); try (apply Z.leb_le in B; rewrite B); cbn [String.eqb Ascii.eqb Bool.eqb andb].
  - rewrite P. destruct Q as (q & [->|[[-> _]|[-> _]]]); unfold kwarg; rewrite P; reflexivity.
  - destruct (as_int n) as [z|] eqn:Z.
    + rewrite andb_false_r. cbn [andb]. rewrite E, Un1. reflexivity.
    + rewrite E, Un1. reflexivity.
  - reflexivity.
  - rewrite Un1. reflexivity.
  - rewrite (Un2 "millisecond") by discriminate. rewrite Un1, !andb_false_r. reflexivity.
  - destruct Hu as [Hu|[Hu|[]]]; injection Hu as <- <-; rewrite !andb_false_r.
    + rewrite Un1. reflexivity.
    + rewrite (Un2 "millisecond") by discriminate. rewrite Un1. reflexivity.
  - reflexivity.
Qed.

Lemma head_nonproxy t d : is_proxy t = false -> sized_alias (get_c t) -> avro_head (get_c t) = Ok d -> head_of t d.
Proof.
  intros P S H k. destruct (head_written _ _ S H) as [_ E]. rewrite E. unfold written_labels. destruct t; try reflexivity. discriminate.
Qed.
Lemma head_total c : sized_alias c -> exists d, avro_head c = Ok d.
Proof.
  intros [S|[a S]]; unfold avro_head; rewrite S; [cbn [truthy]; eauto|]. destruct (truthy (PStr a)); [|eauto]. cbn. eauto.
Qed.

Lemma precision_spec z (s : bool) p : (32 < z)%Z -> int_precision z s = Ok p ->
  (10 ^ p <= 2 ^ (z - if s then 1 else 0) < 10 ^ (p + 1))%Z /\ (0 <= p < 4300)%Z.
Proof.
  intros Z H. unfold int_precision in H.
  set (k := (2 ^ (z - if s then 1 else 0))%Z) in *.
  assert (K : (0 < k)%Z) by (apply Z.pow_pos_nonneg; destruct s; lia).
  destruct (digits_ok k K) as (G & A & B).
  destruct (Z.ltb_spec max_str_digits (digits k)) as [L|L]; [discriminate|]. injection H as <-. unfold max_str_digits in L.
  split; [|lia]. split; auto. now replace (digits k - 1 + 1)%Z with (digits k) by lia.
Qed.
Lemma spec_precision z (s : bool) p : (32 < z)%Z -> (10 ^ p <= 2 ^ (z - if s then 1 else 0) < 10 ^ (p + 1))%Z -> (0 <= p < 4300)%Z ->
  exists q, int_precision z s = Ok q.
Proof.
  intros Z [A B] P. unfold int_precision. set (k := (2 ^ (z - if s then 1 else 0))%Z) in *.
  assert (K : (0 < k)%Z) by (apply Z.pow_pos_nonneg; destruct s; lia).
  destruct (digits_ok k K) as (G & A' & B').
  destruct (Z.ltb_spec max_str_digits (digits k)) as [L|L]; [|eauto]. exfalso. unfold max_str_digits in L.
  assert (X : (10 ^ (p + 1) <= 10 ^ (digits k - 1))%Z) by (apply Z.pow_le_mono_r; lia). lia.
Qed.

Section Tree.
  Variables (prox : rtype -> res pyval) (R : registry).

  Lemma fields_writes fs : Forall (fun t => proper t -> forall v, avro_tree prox R t = Ok v -> writes t v) fs -> Forall proper fs -> forall l,
    (fix go (l : list rtype) : res (list pyval) :=
                  match l with
                  | [] => Ok []
                  | x :: xs => (y <- avro_tree prox R x ;; y <- avro_field y ;; ys <- go xs ;; Ok (y :: ys))%res
                  end) fs = Ok l -> exists os, l = map PDict os /\ Forall2 (fun f o => writes f (PDict o)) fs os.
  Proof.
    induction fs as [|x fs IH]; intros F P l H.
    - injection H as <-. exists []. auto.
    - inversion F; inversion P; subst. apply rbind_Ok in H as (y & E & H). apply rbind_Ok in H as (o & O & H). apply rbind_Ok in H as (os & Es & H).
      injection H as <-. destruct (IH H3 H7 _ Es) as (os' & -> & F2). assert (W := H2 H6 _ E).
      destruct y as [| | | |s| |d]; try discriminate O; injection O as <-.
      + exists ([("type", PStr s)] :: os'). split; auto. constructor; auto. inversion W; auto.
      + exists (d :: os'). split; auto.
  Qed.
  Lemma members_writes ts : Forall (fun t => proper t -> forall v, avro_tree prox R t = Ok v -> writes t v) ts -> Forall proper ts -> forall l,
    (fix go (l : list rtype) : res (list pyval) :=
                  match l with
                  | [] => Ok []
                  | x :: xs => (y <- avro_tree prox R x ;; ys <- go xs ;; Ok (y :: ys))%res
                  end) ts = Ok l -> Forall2 writes ts l.
  Proof.
    induction ts as [|x ts IH]; intros F P l H.
    - injection H as <-. constructor.
    - inversion F; inversion P; subst. apply rbind_Ok in H as (y & E & H). apply rbind_Ok in H as (os & Es & H).
      injection H as <-. constructor; auto.
  Qed.

  Lemma proxy_written c r a d x : c_alias c = PStr a -> substr_in "." a = true -> avro_head c = Ok d ->
    forall k, dget k (ddel "aliases" (dset "type" x d)) = dget k (written_labels (TProxy c r) ++ [("type", x)]).
  Proof.
    intros A AD D k. destruct (head_written c d) as [_ E]; auto; [right; eauto|].
    rewrite dget_ddel, dget_dset, E. unfold written_labels. cbn [get_c]. rewrite A, AD.
    destruct (String.eqb_spec k "aliases") as [->|N1].
    { destruct (truthy (c_doc c)), (dget "name" (c_extra c)) as [n|], (dget "default" (c_extra c)); try destruct (truthy n); reflexivity. }
    destruct (String.eqb_spec k "type") as [->|N2].
    { destruct (truthy (c_doc c)), (dget "name" (c_extra c)) as [n|], (dget "default" (c_extra c)); try destruct (truthy n); reflexivity. }
    apply String.eqb_neq in N1, N2. rewrite !dget_app. cbn [dget]. rewrite N1, N2.
    repeat match goal with |- context [dget k ?l] => destruct (dget k l) end; reflexivity.
  Qed.

  Lemma tree_logical t lo : c_logical (get_c t) = PStr lo ->
    avro_tree prox R t = (d <- avro_head (get_c t) ;; l <- avro_logical t ;; Ok (avro_short (dupd d l)))%res.
  Proof. intros L. destruct t; cbn [avro_tree]; cbn [get_c] in L; rewrite ?L; try reflexivity; cbn [get_c]; rewrite L; reflexivity. Qed.

  Ltac keys := cbn; repeat constructor; cbn; intuition discriminate.
  Ltac inc := intros ? I'; cbn in I'; cbn; tauto.

  Lemma logical_facts t b : logical_body t b -> is_proxy t = false /\ NoDup (dkeys b) /\ incl (dkeys b) body_keys
    /\ exists lo, c_logical (get_c t) = PStr lo.
  Proof. intros []; (split; [reflexivity|]); (split; [keys|]); (split; [inc|]); eauto. Qed.

  Lemma logical_or c : (exists lo, c_logical c = PStr lo) \/ not_logical c.
  Proof. unfold not_logical. destruct (c_logical c); try (right; intros; discriminate). eauto. Qed.
  Lemma tree_writes_logical t lo v : sized_alias (get_c t) -> c_logical (get_c t) = PStr lo -> avro_tree prox R t = Ok v -> writes t v.
  Proof.
    intros S L H. rewrite (tree_logical t lo L) in H. apply rbind_Ok in H as (d & D & H). apply rbind_Ok in H as (b & B & H).
    injection H as <-. apply logical_written in B. destruct (logical_facts _ _ B) as (P & N & I & _).
    apply written; auto; [now constructor|now apply head_nonproxy].
  Qed.
  Lemma not_logical_match c {A} (f : string -> A) (x : A) : not_logical c -> match c_logical c with PStr s => f s | _ => x end = x.
  Proof. unfold not_logical. destruct (c_logical c); auto. intros N. now destruct (N s). Qed.
  Theorem tree_writes t : proper t -> forall v, avro_tree prox R t = Ok v -> writes t v.
  Proof.
    induction t as [c|c|c b s|c b|c b va|c b va|c v l va IH|c k v IHk IHv|c fs IH|c s|c ts IH|c r] using rtype_ind';
      intros P u H; inversion P as [? S PX F]; subst; cbn [get_c] in S;
      destruct (logical_or c) as [[lo L]|L]; try (eapply tree_writes_logical; eauto; fail);
      cbn [children] in F; cbn [avro_tree get_c] in H; apply rbind_Ok in H as (d & D & H); cbv zeta in H; rewrite not_logical_match in H by auto.
    - injection H as <-. apply (written _ d [("type", PStr "null")]); [now constructor|now apply head_nonproxy|keys|inc].
    - injection H as <-. apply (written _ d [("type", PStr "boolean")]); [now constructor|now apply head_nonproxy|keys|inc].
    - destruct (as_int b) as [z|] eqn:Z; [|discriminate]. destruct s as [|s| | | | |]; try discriminate H. apply as_int_spec in Z.
      assert (W : forall bd, int_body z s bd -> NoDup (dkeys bd) -> incl (dkeys bd) body_keys -> writes (TInt c b (PBool s)) (avro_short (dupd d bd))).
      { intros bd IB N I. apply written; auto; [solve [econstructor; eauto]|now apply head_nonproxy]. }
      destruct (s && Z.leb z 32)%bool eqn:B1.
      { injection H as <-. apply andb_prop in B1 as [-> B1]. apply Z.leb_le in B1. apply (W [("type", PStr "int")]); [now constructor|keys|inc]. }
      destruct ((Z.leb z 32 && negb s) || (Z.leb z 64 && s))%bool eqn:B2.
      { injection H as <-. apply (W [("type", PStr "long")]); [|keys|inc]. constructor.
        destruct s, (Z.leb_spec z 32), (Z.leb_spec z 64); try discriminate; lia. }
      apply rbind_Ok in H as (p & IP & H). injection H as <-.
      assert (B3 : (if s then 64 < z else 32 < z)%Z).
      { destruct s, (Z.leb_spec z 32), (Z.leb_spec z 64); try discriminate; lia. }
      apply precision_spec in IP as [I1 I2]; [|destruct s; lia].
      apply (W [("type", PStr "bytes"); ("logicalType", PStr "decimal"); ("precision", PInt p)]); [now constructor|keys|inc].
    - destruct (as_int b) as [z|] eqn:Z; [|discriminate]. apply as_int_spec in Z.
      destruct (Z.leb_spec z 32).
      { injection H as <-. apply (written _ d [("type", PStr "float")]); [solve [econstructor; eauto]|now apply head_nonproxy|keys|inc]. }
      destruct (Z.leb_spec z 64); [|discriminate].
      injection H as <-. apply (written _ d [("type", PStr "double")]); [solve [econstructor; eauto]|now apply head_nonproxy|keys|inc].
    - destruct (as_int b) as [z|] eqn:Z; [|discriminate]. apply as_int_spec in Z.
      destruct (Z.leb_spec z max_len); [|discriminate]. change max_len with longest in *.
      injection H as <-. apply (written _ d [("type", PStr "string")]); [solve [econstructor; eauto]|now apply head_nonproxy|keys|inc].
    - destruct (as_int b) as [z|] eqn:Z; [|discriminate]. apply as_int_spec in Z.
      destruct va as [|[]| | | | |]; try discriminate H; (destruct (Z.leb_spec z max_len); [|discriminate]); change max_len with longest in *; injection H as <-.
      + apply (written _ d [("type", PStr "bytes")]); [solve [econstructor; eauto]|now apply head_nonproxy|keys|inc].
      + apply (written _ d [("type", PStr "fixed"); ("size", b)]); [solve [econstructor; eauto]|now apply head_nonproxy|keys|inc].
    - apply rbind_Ok in H as (i & E & H). injection H as <-. inversion F; subst.
      apply (written _ d [("type", PStr "array"); ("items", i)]); [solve [econstructor; eauto]|now apply head_nonproxy|keys|inc].
    - destruct k as [| | | |kc n kv| | | | | | |]; try discriminate H.
      apply rbind_Ok in H as (i & E & H). injection H as <-. inversion F as [|? ? _ F2]; inversion F2; subst.
      apply (written _ d [("type", PStr "map"); ("values", i)]); [solve [econstructor; eauto]|now apply head_nonproxy|keys|inc].
    - apply rbind_Ok in H as (l & E & H). injection H as <-. destruct (fields_writes fs IH F _ E) as (os & -> & W).
      apply (written _ d [("type", PStr "record"); ("fields", PList (map PDict os))]); [solve [econstructor; eauto]|now apply head_nonproxy|keys|inc].
    - destruct s; try discriminate H. injection H as <-.
      apply (written _ d [("type", PStr "enum"); ("symbols", PList l)]); [solve [econstructor; eauto]|now apply head_nonproxy|keys|inc].
    - apply rbind_Ok in H as (l & E & H). injection H as <-. pose proof (members_writes ts IH F _ E) as W.
      apply (written _ d [("type", PList l)]); [solve [econstructor; eauto]|now apply head_nonproxy|keys|inc].
    - destruct PX as (a & A & AD). rewrite A, AD in H. cbn [negb] in H. injection H as <-.
      apply short_writes. apply writes_object with (b := [("type", PStr a)]); [now constructor|].
      now apply proxy_written with (a := a).
  Qed.

  (** Every type with a schema is written. *)
  Lemma writes_body t j : writes t j -> exists b, written_as t b.
  Proof. intros W. induction W; eauto. Qed.
  Lemma logical_tree t b d : logical_body t b -> avro_head (get_c t) = Ok d -> exists v, avro_tree prox R t = Ok v.
  Proof.
    intros B D. destruct (logical_facts _ _ B) as (_ & _ & _ & lo & L). rewrite (tree_logical t lo L), D. apply written_logical in B.
    cbn [rbind]. rewrite B. cbn [rbind]. eauto.
  Qed.

  Lemma fields_written fs : Forall (fun t => proper t -> forall j, writes t j -> exists v, avro_tree prox R t = Ok v) fs -> Forall proper fs ->
    forall os, Forall2 (fun f o => writes f (PDict o)) fs os -> exists l,
    (fix go (l : list rtype) : res (list pyval) :=
                  match l with
                  | [] => Ok []
                  | x :: xs => (y <- avro_tree prox R x ;; y <- avro_field y ;; ys <- go xs ;; Ok (y :: ys))%res
                  end) fs = Ok l.
  Proof.
    intros IH P os W. induction W as [|f o fs os W0 W IHW]; [eauto|]. inversion IH; inversion P; subst.
    edestruct H1 as [v V]; eauto. destruct IHW as [l L]; auto. rewrite V. cbn [rbind]. pose proof (tree_writes f H5 v V) as Wv.
    destruct Wv; cbn [avro_field rbind]; rewrite L; cbn [rbind]; eauto.
  Qed.
  Lemma members_written ts : Forall (fun t => proper t -> forall j, writes t j -> exists v, avro_tree prox R t = Ok v) ts -> Forall proper ts ->
    forall os, Forall2 writes ts os -> exists l,
    (fix go (l : list rtype) : res (list pyval) :=
                  match l with
                  | [] => Ok []
                  | x :: xs => (y <- avro_tree prox R x ;; ys <- go xs ;; Ok (y :: ys))%res
                  end) ts = Ok l.
  Proof.
    intros IH P os W. induction W as [|f o fs os W0 W IHW]; [eauto|]. inversion IH; inversion P; subst.
    edestruct H1 as [v V]; eauto. destruct IHW as [l L]; auto. rewrite V. cbn [rbind]. rewrite L. cbn [rbind]. eauto.
  Qed.

  Theorem writes_tree t : proper t -> forall j, writes t j -> exists v, avro_tree prox R t = Ok v.
  Proof.
    induction t as [c|c|c b s|c b|c b va|c b va|c v l va IH|c k v IHk IHv|c fs IH|c s|c ts IH|c r] using rtype_ind';
      intros P j W; inversion P as [? S PX F]; subst; cbn [get_c] in S; destruct (head_total _ S) as [d D];
      apply writes_body in W as [bd W]; inversion W; subst;
      try (eapply logical_tree; eauto; fail); cbn [children] in F;
      match goal with N : not_logical _ |- _ => cbn [avro_tree get_c]; rewrite D; cbn [rbind]; cbv zeta; rewrite not_logical_match by exact N end;
      try (eexists; reflexivity);
      repeat match goal with H : int_of _ _ |- _ => apply as_int_spec in H; rewrite H end;
      try (destruct (Z.leb_spec z max_len); [eauto|]; change max_len with longest in *; lia).
    - match goal with I : int_body _ _ _ |- _ => inversion I; subst end; cbn [andb orb negb].
      + destruct (Z.leb_spec z 32); [|lia]. eauto.
      + destruct s0, (Z.leb_spec z 32), (Z.leb_spec z 64); cbn [andb orb negb]; eauto; lia.
      + destruct (spec_precision z s0 p) as [q Q]; auto; [destruct s0; lia|]. rewrite Q. cbn [rbind].
        destruct s0, (Z.leb_spec z 32), (Z.leb_spec z 64); cbn [andb orb negb]; eauto; lia.
    - destruct (Z.leb_spec z 32); [eauto|lia].
    - destruct (Z.leb_spec z 32); [lia|]. destruct (Z.leb_spec z 64); [eauto|lia].
    - inversion F; subst. edestruct IH as [i I]; eauto. rewrite I. cbn [rbind]. eauto.
    - inversion F as [|? ? _ F2]; inversion F2; subst. edestruct IHv as [i I]; eauto. rewrite I. cbn [rbind]. eauto.
    - edestruct (fields_written fs) as [m M]; eauto. rewrite M. cbn [rbind]. eauto.
    - edestruct (members_written ts) as [m M]; eauto. rewrite M. cbn [rbind]. eauto.
    - match goal with A : c_alias _ = PStr ?a, B : substr_in _ ?a = true |- _ => rewrite A, B end. cbn [negb]. eauto.
  Qed.
End Tree.

Theorem from_writes R t v : proper t -> avro_from R t = Ok v -> exists d, v = PDict d /\ writes t v.
Proof.
  intros P H. unfold avro_from in H. apply rbind_Ok in H as (u & U & H). injection H as <-.
  pose proof (tree_writes _ _ t P u U) as W. destruct W as [t s W|t b d B D]; eexists; split; try reflexivity; auto.
  econstructor; eauto.
Qed.
Theorem writes_from R t j : proper t -> writes t j -> exists v, avro_from R t = Ok v.
Proof.
  intros P W. unfold avro_from, avro_from_f. match goal with |- context [avro_tree ?p R t] => destruct (writes_tree p R t P j W) as [v ->] end. cbn [rbind]. eauto.
Qed.

Theorem to_reads j start ns R R' t : namespaced j ->
  start = PStr ns \/ (start = PNone /\ ns = "" /\ exists d nm, j = PDict d /\ dget "name" d = Some (PStr nm)) ->
  avro_to j start R = (R', Ok t) -> reads ns j t /\ exists c fs, t = TStruct c fs.
Proof.
  intros N S H. unfold avro_to in H. apply mbind_Ok in H as (R1 & u & H & K).
  assert (X : u = t /\ exists c fs, u = TStruct c fs) by (destruct u; inversion K; eauto). destruct X as [-> X]. split; auto.
  destruct S as [-> | (-> & -> & d & nm & -> & E)]; [eapply parse_sound; eauto|].
  apply (parse_sound (PDict d) N "" R R1 t). rewrite <- H. unfold avro_parse. cbn [psize].
  cbn [avro_parse_f]. replace (avro_parse_head d (PStr "")) with (avro_parse_head d PNone); [reflexivity|].
  unfold avro_parse_head. rewrite E. destruct (dget "namespace" d); destruct (substr_in "." nm); auto.
Qed.

(** Without a namespace, a named schema is read as in the null namespace. *)
Lemma start_none d nm R : dget "name" d = Some (PStr nm) -> avro_parse (PDict d) PNone R = avro_parse (PDict d) (PStr "") R.
Proof.
  intros E. rewrite !avro_parse_unfold. replace (avro_parse_head d (PStr "")) with (avro_parse_head d PNone); [reflexivity|].
  unfold avro_parse_head. rewrite E. destruct (dget "namespace" d); destruct (substr_in "." nm); auto.
Qed.
Theorem to_accepts j start ns R c fs l : namespaced j ->
  start = PStr ns \/ (start = PNone /\ ns = "" /\ exists d nm, j = PDict d /\ dget "name" d = Some (PStr nm)) ->
  reads ns j (TStruct c fs) -> gives (TStruct c fs) l -> NoDup (dkeys R ++ l) -> Forall dotted_name l ->
  exists R' t, avro_to j start R = (R', Ok t).
Proof.
  intros N S RD G ND DN.
  assert (E : avro_parse j start R = avro_parse j (PStr ns) R).
  { destruct S as [-> | (-> & -> & d & nm & -> & E)]; auto. now apply (start_none d nm). }
  unfold avro_to, mbind. rewrite E. destruct (parse_complete j N ns R _ l RD G ND DN) as (R' & t' & -> & RT & _).
  destruct t'; try discriminate. exists R'. eexists. reflexivity.
Qed.
Theorem to_registers j start R R' t : avro_to j start R = (R', Ok t) -> exists l, gives t l /\ dkeys R' = dkeys R ++ l
  /\ Forall dotted_name l /\ (NoDup (dkeys R) -> NoDup (dkeys R')).
Proof.
  intros H. unfold avro_to in H. apply mbind_Ok in H as (R1 & u & H & K). apply parse_registers in H.
  destruct u; inversion K; subst. exact H.
Qed.
