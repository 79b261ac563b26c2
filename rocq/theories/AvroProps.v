(** Lemmas behind the Avro properties. *)
From Coq Require Import String Ascii List NArith ZArith QArith Bool Lia.
From Verif Require Import PyVal PyValFacts RType Registry FromDict FromDictFacts RegexFacts RegistryFacts
  SpecTypes TypesMore RoundTrip Avro SpecAvro AvroFacts AvroMore.
Import ListNotations.
Open Scope nat_scope.
Open Scope string_scope.
Open Scope list_scope.

(** ** The grammar: reading at top level *)
Lemma head_start start ns h rest : start = PNone \/ start = PStr "" ->
  ns = "_root" -> (exists s, l_name h = Some s) -> labels_ok h ->
  (forall k, In k ["doc"; "namespace"; "name"; "default"] -> dget k rest = None) ->
  avro_parse_head (label_json false ns true h ++ rest) start =
  avro_parse_head (label_json false ns true h ++ rest) (PStr ns).
Proof.
  intros S -> [s E] L K. rewrite head_labels by (auto; discriminate).
  assert (K2 := K "namespace" ltac:(cbn; auto)).
  unfold avro_parse_head. rewrite (dget_rest _ _ _ _ _ "namespace") by discriminate. rewrite K2.
  assert (D2 : dget "name" (label_json false "_root" true h ++ rest) = Some (PStr s)).
  { unfold label_json. rewrite !dget_app, E. destruct (l_doc h); auto. }
  assert (D3 : dget "default" (label_json false "_root" true h ++ rest) = l_default h).
  { unfold label_json. rewrite !dget_app, E. assert (K4 := K "default" ltac:(cbn; auto)).
    destruct (l_doc h), (l_default h); auto. }
  assert (D1 : dget "doc" (label_json false "_root" true h ++ rest) = option_map PStr (l_doc h)).
  { unfold label_json. rewrite !dget_app, E. assert (K4 := K "doc" ltac:(cbn; auto)).
    destruct (l_doc h), (l_default h); auto. }
  rewrite D1, D2, D3. destruct L as [_ I]. rewrite (identifier_no_dot s (I s E)).
  unfold alias_of, all_attrs, attrs_of, full. rewrite E.
  destruct S as [-> | ->]; cbn [truthy String.eqb negb ns_text rbind]; destruct (l_doc h), (l_default h); reflexivity.
Qed.

Lemma read_start start ns h l R : starts start ns (ARecord h l) -> namespace ns -> avro_ok (ARecord h l) ->
  avro_parse (json false ns (ARecord h l)) start R = avro_parse (json false ns (ARecord h l)) (PStr ns) R.
Proof.
  intros [->|(E & S & NM)] N OK; auto. inversion OK; subst.
  rewrite !avro_parse_unfold. unfold json. cbn [json_entries defines avro_labels].
  rewrite (head_start start "_root" h) by (auto; intros k K; cbn in K; intuition subst; reflexivity). reflexivity.
Qed.

Lemma read_record start ns a R : is_record a -> starts start ns a -> namespace ns -> avro_ok a ->
  NoDup (dkeys R) ->
  (NoDup (dkeys R ++ full_names ns a) /\ exists R', avro_to (json false ns a) start R = (R', Ok (tree_of ns a))) \/
  (~ NoDup (dkeys R ++ full_names ns a) /\ exists R', avro_to (json false ns a) start R = (R', Err ValueError)).
Proof.
  intros I S N OK ND. destruct a as [| | | | | | |h l| |]; try destruct I.
  unfold avro_to, mbind. rewrite (read_start start ns h l R S N OK).
  destruct (read ns _ N OK R ND) as [(A & R' & E & _)|(A & R' & E)]; unfold json; rewrite E; cbn [tree_of].
  - left. split; auto. exists R'. reflexivity.
  - right. split; auto. exists R'. reflexivity.
Qed.

Lemma compact_record h l d : compact (ARecord h l) d = PDict d.
Proof. reflexivity. Qed.

Lemma record_roundtrip start ns a R : is_record a -> starts start ns a -> namespace ns -> avro_ok a -> inlined a ->
  NoDup (dkeys R ++ full_names ns a) ->
  exists R' t, avro_to (json false ns a) start R = (R', Ok t) /\ avro_from R' t = Ok (json true ns a).
Proof.
  intros I S N OK IN ND. pose proof (NoDup_app_l _ _ ND) as ND1.
  destruct (read_record start ns a R I S N OK ND1) as [(_ & R' & E)|(A & _)]; [|tauto].
  exists R', (tree_of ns a). split; auto. unfold avro_from. cbn [avro_from_f]. rewrite write by auto.
  destruct a as [| | | | | | |h l| |]; try destruct I. reflexivity.
Qed.

Lemma full_inj ns a b : full ns a = full ns b -> a = b.
Proof.
  unfold full. induction ns as [|c ns IH]; cbn; intros H.
  - congruence.
  - injection H as H. auto.
Qed.
Lemma NoDup_map {A B} (f : A -> B) l : (forall x y, f x = f y -> x = y) -> NoDup (map f l) <-> NoDup l.
Proof.
  intros I. induction l as [|x l IH]; cbn; [split; constructor|]. split; intros H; inversion H; subst; constructor; try tauto.
  - intros J. apply H2. apply in_map_iff. eauto.
  - intros J. apply in_map_iff in J as (y & E & J). apply I in E. subst. auto.
Qed.
Lemma builtin_naked a : In a (dkeys builtin_aliases) -> substr_in "." a = false.
Proof.
  intros H. assert (F : forallb (fun a => negb (substr_in "." a)) (dkeys builtin_aliases) = true) by (vm_compute; reflexivity).
  rewrite forallb_forall in F. specialize (F a H). destruct (substr_in "." a); [discriminate|auto].
Qed.
Lemma builtin_nodup : NoDup (dkeys builtin_aliases).
Proof.
  assert (N : forall l : list string, (fix go (l : list string) := match l with [] => true | x :: r => negb (str_in x r) && go r end) l = true -> NoDup l).
  { induction l as [|x l IH]; intros H; constructor.
    - apply andb_true_iff in H as [H _]. intros I. unfold str_in in H. rewrite negb_true_iff in H.
      assert (existsb (String.eqb x) l = true) by (apply existsb_exists; exists x; split; auto; apply String.eqb_refl). congruence.
    - apply andb_true_iff in H as [_ H]. auto. }
  apply N. vm_compute. reflexivity.
Qed.
Lemma fresh_names ns a : NoDup (dkeys builtin_aliases ++ full_names ns a) <-> NoDup (defined_names a).
Proof.
  unfold full_names. change (fun n : string => (ns ++ "." ++ n)%string) with (full ns). split.
  - intros H. apply (NoDup_map (full ns)); [apply full_inj|].
    revert H. generalize (dkeys builtin_aliases). induction l as [|x l IH]; cbn; auto. intros H; inversion H; auto.
  - intros H. apply NoDup_app'; [apply builtin_nodup|apply NoDup_map; auto; apply full_inj|].
    intros x I J. apply in_map_iff in I as (s & <- & _). apply builtin_naked in J. rewrite full_dotted in J. discriminate.
Qed.

(** ** Records *)
Lemma dset_len2 {V} k (v : V) k' v' d : k <> k' -> 2 <= List.length (dset k v (dset k' v' d)).
Proof.
  intros N. rewrite <- keys_len.
  assert (I1 : In k (dkeys (dset k v (dset k' v' d)))) by (apply dset_keys; auto).
  assert (I2 : In k' (dkeys (dset k v (dset k' v' d)))) by (apply dset_keys; left; apply dset_keys; auto).
  destruct (dkeys _) as [|x [|y l]]; cbn in *; [tauto| |lia]. destruct I1 as [<-|[]], I2 as [E|[]]. congruence.
Qed.
Lemma short_len d : 2 <= List.length d -> avro_short d = PDict d.
Proof. intros H. unfold avro_short. destruct (Nat.eqb_spec (List.length d) 1); [lia|auto]. Qed.

Lemma struct_unfold prox R c fs : (forall s, c_logical c <> PStr s) ->
  avro_tree prox R (TStruct c fs) =
  (d <- avro_head c ;;
   l <- rmap (fun x => (y <- avro_tree prox R x ;; avro_field y)) fs ;;
   Ok (PDict (dset "fields" (PList l) (dset "type" (PStr "record") d))))%res.
Proof.
  intros NL. cbn [avro_tree get_c]. destruct (avro_head c) as [d|e]; cbn [rbind]; auto.
  match goal with |- context [rbind (?go fs) _] => set (G := go) end.
  assert (E : G fs = rmap (fun x => (y <- avro_tree prox R x ;; avro_field y)%res) fs).
  { induction fs as [|x fs IH]; [reflexivity|]. unfold G. cbn [rmap]. fold G.
    destruct (avro_tree prox R x) as [y|e]; cbn [rbind]; auto. destruct (avro_field y) as [z|e]; cbn [rbind]; auto.
    rewrite <- IH. destruct (G fs); reflexivity. }
  rewrite E. destruct (c_logical c) eqn:EL; try (exfalso; eapply NL; reflexivity);
    (destruct (rmap _ fs); cbn [rbind]; [|reflexivity]; rewrite short_len by (apply dset_len2; discriminate); reflexivity).
Qed.

Lemma write_field prox R ns x : avro_ok x -> inlined x ->
  (y <- avro_tree prox R (tree_of ns x) ;; avro_field y)%res = Ok (json true ns x).
Proof.
  intros OK IN. rewrite write by auto. cbn [rbind].
  destruct (compact_cases x (json_entries true ns x)) as [->|(s & [->| ->] & ->)]; reflexivity.
Qed.
Lemma write_fields prox R ns fs : Forall avro_ok fs -> Forall inlined fs ->
  rmap (fun x => (y <- avro_tree prox R x ;; avro_field y)%res) (map (tree_of ns) fs) = Ok (map (json true ns) fs).
Proof.
  induction fs as [|x fs IH]; intros OK IN; [reflexivity|]. inversion OK; inversion IN; subst. cbn [map rmap].
  rewrite write_field, IH by auto. reflexivity.
Qed.

(** A record nested in a field. *)
Lemma record_nested start ns h f r fs R :
  let a := ARecord h [ANested (mkLabels None (Some f) None) (ARecord (mkLabels None (Some r) None) fs)] in
  starts start ns a -> namespace ns -> avro_ok a -> Forall inlined fs ->
  NoDup (dkeys R ++ full_names ns a) ->
  exists R' t, avro_to (json false ns a) start R = (R', Ok t) /\
    avro_from R' t = Ok (PDict (label_json true ns true h ++
      [("type", PStr "record");
       ("fields", PList [PDict [("name", PStr f); ("aliases", PList [PStr (ns ++ "." ++ r)]); ("type", PStr "record");
                                ("fields", PList (map (json true ns) fs))]])])).
Proof.
  intros a S N OK IN ND. pose proof (NoDup_app_l _ _ ND) as ND1.
  destruct (read_record start ns a R Logic.I S N OK ND1) as [(_ & R' & E)|(A & _)]; [|tauto].
  exists R', (tree_of ns a). split; auto. unfold avro_from. cbn [avro_from_f].
  inversion OK as [| | | | | | |? ? L W| |]; subst. inversion W as [|? ? OK1 _]; subst. inversion OK1 as [| | | | | | | | |? ? Lf OK2]; subst.
  inversion OK2 as [| | | | | | |? ? Lr Wf| |]; subst.
  unfold a. cbn [tree_of map]. rewrite struct_unfold by (cbn; discriminate). rewrite head_c_of by auto. cbn [rbind rmap].
  unfold nested_c. cbn [get_c set_c c_of c_logical c_alias c_doc c_extra].
  rewrite struct_unfold by (cbn; discriminate).
  unfold alias_of, doc_of, attrs_of, all_attrs, attrs_of. cbn [l_name l_doc l_default app dupd fold_left dset fst snd String.eqb Ascii.eqb Bool.eqb].
  assert (TF : truthy (PStr f) = true) by (apply truthy_s, identifier_nonempty; apply Lf; reflexivity).
  unfold avro_head. cbn [c_doc c_extra c_alias]. change (truthy PNone) with false. unfold kwarg.
  cbn [dget String.eqb Ascii.eqb Bool.eqb]. rewrite TF, full_truthy. cbn [py_str_in rbind]. rewrite full_dotted.
  rewrite write_fields by auto. cbn [rbind]. unfold avro_field. cbn [rbind rmap].
  rewrite dset_labels0, dset_labels by discriminate. cbn [dset String.eqb Ascii.eqb Bool.eqb]. reflexivity.
Qed.

(** ** Labels of record fields (C34) *)
Lemma unshort d : match avro_short d with PStr s => PDict [("type", PStr s)] | v => v end = PDict d.
Proof.
  unfold avro_short. destruct d as [|[k v] [|y d]]; try reflexivity. cbn [List.length Nat.eqb].
  cbn [dget]. destruct (String.eqb_spec "type" k) as [<-|N]; [destruct v; reflexivity|reflexivity].
Qed.
Lemma field_short d : avro_field (avro_short d) = Ok (PDict d).
Proof. pose proof (unshort d) as H. destruct (avro_short d); try discriminate; cbn; congruence. Qed.

Lemma head_keys c d : avro_head c = Ok d -> NoDup (dkeys d) /\
  (forall k, In k (dkeys d) -> In k ["doc"; "name"; "default"; "aliases"]) /\
  dget "doc" d = (if truthy (c_doc c) then Some (c_doc c) else None) /\
  dget "name" d = (match dget "name" (c_extra c) with Some n => if truthy n then Some n else None | None => None end) /\
  dget "default" d = dget "default" (c_extra c).
Proof.
  unfold avro_head, kwarg. intros H.
  set (d1 := if truthy (c_doc c) then [("doc", c_doc c)] else []) in H.
  set (d2 := if truthy _ then dset "name" _ d1 else d1) in H.
  set (d3 := match dget "default" (c_extra c) with Some v => dset "default" v d2 | None => d2 end) in H.
  assert (P : NoDup (dkeys d3) /\ (forall k, In k (dkeys d3) -> In k ["doc"; "name"; "default"; "aliases"]) /\
    dget "doc" d3 = (if truthy (c_doc c) then Some (c_doc c) else None) /\
    dget "name" d3 = (match dget "name" (c_extra c) with Some n => if truthy n then Some n else None | None => None end) /\
    dget "default" d3 = dget "default" (c_extra c)).
  { unfold d3, d2, d1. destruct (truthy (c_doc c)), (dget "name" (c_extra c)) as [n|];
      [destruct (truthy n)| |destruct (truthy n)|]; destruct (dget "default" (c_extra c)); cbn;
      (split; [repeat (constructor; [cbn; intuition discriminate|]); constructor|]); repeat split; intuition. }
  destruct (truthy (c_alias c)); [|injection H as <-; exact P].
  apply rbind_Ok in H as (b & _ & H). destruct b; injection H as <-; [|exact P].
  destruct P as (P0 & P1 & P2 & P3 & P4). split; [apply dset_NoDup; auto|]. split; [|rewrite !dget_dset; auto].
  intros k I. apply dset_keys in I as [I| ->]; auto. cbn; auto.
Qed.

Definition same_labels (d o : list (string * pyval)) : Prop :=
  (NoDup (dkeys d) -> NoDup (dkeys o)) /\ (exists ty, dget "type" o = Some ty) /\ forall k, In k ["doc"; "name"; "default"] -> dget k o = dget k d.
Lemma same_dset d k v : k <> "doc" -> k <> "name" -> k <> "default" ->
  forall o, same_labels d o -> same_labels d (dset k v o).
Proof.
  intros A B C o (N & [ty T] & K). split; [intros; apply dset_NoDup; auto|]. split.
  - rewrite dget_dset. destruct (String.eqb "type" k); eauto.
  - intros x I. rewrite dget_dset. destruct (String.eqb_spec x k) as [->|]; auto. cbn in I. intuition congruence.
Qed.
Lemma same_type d v : same_labels d (dset "type" v d).
Proof.
  split; [apply dset_NoDup|]. split; [exists v; rewrite dget_dset; reflexivity|]. intros x I. rewrite dget_dset.
  destruct (String.eqb_spec x "type") as [->|]; auto. cbn in I. intuition discriminate.
Qed.
Lemma same_ddel d o : same_labels d o -> same_labels d (ddel "aliases" o).
Proof.
  intros (N & [ty T] & K). split; [intros; apply ddel_NoDup; auto|]. split.
  - exists ty. rewrite dget_ddel. exact T.
  - intros x I. rewrite dget_ddel. destruct (String.eqb_spec x "aliases") as [->|]; auto. cbn in I. intuition discriminate.
Qed.

Lemma logical_keys t l : avro_logical t = Ok l ->
  exists s d, l = ("type", PStr s) :: d /\ forall k, In k (dkeys d) -> In k ["logicalType"; "precision"; "scale"; "size"].
Proof.
  unfold avro_logical. intros H. cbv zeta in H.
  repeat match type of H with
  | match ?x with _ => _ end = _ => destruct x; try discriminate
  end; injection H as <-; eexists _, _; (split; [reflexivity|]); cbn; tauto.
Qed.
Lemma same_dupd d l : (forall k, In k (dkeys l) -> In k ["logicalType"; "precision"; "scale"; "size"]) ->
  forall o, same_labels d o -> same_labels d (dupd o l).
Proof.
  induction l as [|[k v] l IH]; intros K o H; cbn [dupd fold_left fst snd]; auto.
  apply IH; [intros; apply K; cbn; auto|]. assert (I := K k (or_introl eq_refl)). cbn in I.
  apply same_dset; auto; intuition congruence.
Qed.

(** Every conversion adds a type to the labels. *)
Definition naked (t : rtype) : Prop := exists c r a, t = TProxy c r /\ c_alias c = PStr a /\ substr_in "." a = false.
Lemma tree_labels prox R t v : avro_tree prox R t = Ok v ->
  exists d o, avro_head (get_c t) = Ok d /\ v = avro_short o /\
    (same_labels d o \/
     (naked t /\ exists t' w, resolve R t = Ok t' /\ prox t' = Ok w /\
        match w with PDict e => o = ddel "aliases" (dupd d e) | _ => True end /\ (same_labels d o \/ exists e, w = PDict e))).
Proof.
  intros H. assert (E : exists d, avro_head (get_c t) = Ok d).
  { destruct t; cbn [avro_tree] in H; apply rbind_Ok in H as (d & H & _); eauto. }
  destruct E as [d E]. exists d.
  assert (T : forall u, same_labels d (dset "type" u d)) by apply same_type.
  destruct (c_logical (get_c t)) eqn:EL.
  5:{ assert (H2 : (l <- avro_logical t ;; Ok (avro_short (dupd d l)))%res = Ok v).
      { destruct t; cbn [avro_tree] in H; rewrite E in H; cbn [rbind] in H; rewrite EL in H; exact H. }
      apply rbind_Ok in H2 as (l & A & B). apply logical_keys in A as (s' & d' & -> & K). injection B as <-.
      eexists. split; [exact E|]. split; [reflexivity|]. left.
      cbn [dupd fold_left fst snd]. apply (same_dupd _ _ K). auto. }
  all: destruct t; cbn [avro_tree] in H; rewrite E in H; cbn [rbind get_c] in H, EL; rewrite EL in H; cbv zeta in H;
    try (repeat match type of H with
         | match ?x with _ => _ end = _ => destruct x; try discriminate
         | rbind _ _ = _ => let a := fresh "a" in let b := fresh "b" in apply rbind_Ok in H as (a & b & H)
         end;
         injection H as <-; eexists; (split; [exact E|]); (split; [reflexivity|]); left;
         cbn [dupd fold_left fst snd];
         repeat (first [apply T | apply same_dset; [discriminate|discriminate|discriminate|]]); fail).
  all: destruct (c_alias c) eqn:EA; try discriminate; destruct (substr_in "." s) eqn:ES; cbn [negb] in H;
    [injection H as <-; eexists; (split; [exact E|]); (split; [reflexivity|]); left; apply same_ddel, T|].
  all: apply rbind_Ok in H as (t' & RS & H); apply rbind_Ok in H as (w & PW & H);
    destruct w; injection H as <-; eexists; (split; [exact E|]); (split; [reflexivity|]); right;
    (split; [exists c, reg, s; auto|]); exists t'; eexists; (split; [exact RS|]); (split; [exact PW|]); (split; [exact Logic.I || reflexivity|]);
    first [left; apply same_ddel, T | right; eauto].
Qed.

Lemma dget_dupd {V} k (e d : list (string * V)) : NoDup (dkeys e) ->
  dget k (dupd d e) = match dget k e with Some v => Some v | None => dget k d end.
Proof.
  revert d. induction e as [|[k' v] e IH]; intros d N; [reflexivity|]. inversion N; subst.
  cbn [dupd fold_left fst snd]. unfold dupd in IH. rewrite IH by auto. cbn [dget]. rewrite dget_dset.
  destruct (String.eqb_spec k k') as [->|]; auto.
  destruct (dget k' e) eqn:E; auto. exfalso. apply H1. eapply dget_In_key; eauto.
Qed.
Lemma short_inj o e : avro_short o = PDict e -> o = e.
Proof.
  unfold avro_short. destruct (Nat.eqb _ 1); [|congruence]. destruct (dget "type" o) as [[]|]; congruence.
Qed.

Lemma not_naked f : (forall a, is_proxy f = true -> c_alias (get_c f) = PStr a -> substr_in "." a = true) -> ~ naked f.
Proof. intros H (c & r & a & -> & E & S). specialize (H a eq_refl E). congruence. Qed.
Lemma naked_dec f : naked f \/ (forall a, is_proxy f = true -> c_alias (get_c f) = PStr a -> substr_in "." a = true).
Proof.
  destruct f as [| | | | | | | | | | |c r]; try (right; intros; discriminate).
  destruct (c_alias c) as [| | | |a| |] eqn:E; try (right; intros; cbn in *; congruence).
  destruct (substr_in "." a) eqn:S; [right; cbn; intros; congruence|]. left. exists c, r, a. auto.
Qed.

Lemma labels_plain f d o : avro_head (get_c f) = Ok d -> same_labels d o -> labelled f o.
Proof.
  intros H (_ & T & K). apply head_keys in H as (_ & _ & H1 & H2 & H3).
  assert (K1 := K "doc" ltac:(cbn; auto)). assert (K2 := K "name" ltac:(cbn; auto)). assert (K3 := K "default" ltac:(cbn; auto)).
  unfold has in *. rewrite H1 in K1. rewrite H2 in K2. rewrite H3 in K3. constructor; unfold has.
  - exact T.
  - intros n E TN. rewrite K2, E, TN. reflexivity.
  - intros v E. congruence.
  - intros TD. rewrite K1, TD. reflexivity.
  - intros _. split; [|split].
    + intros v E. rewrite K2 in E. destruct (dget "name" (c_extra (get_c f))) as [n|]; [|discriminate]. destruct (truthy n); congruence.
    + intros v E. congruence.
    + intros v E. rewrite K1 in E. destruct (truthy _); congruence.
Qed.

Lemma field_labelled n R f v : avro_from_f n R f = Ok v -> plain_reference R f ->
  exists o, avro_field v = Ok (PDict o) /\ labelled f o.
Proof.
  intros H P. destruct n as [|n]; cbn [avro_from_f] in H;
    apply tree_labels in H as (d & o & E & -> & [S|(NK & t' & w & RS & PW & EO & [S|[e ->]])]);
    exists o; (split; [apply field_short|]); try discriminate; try (eapply labels_plain; eauto; fail).
  destruct NK as (c & r & a & -> & EA & ES). destruct P as (ND & DN & RG).
  unfold resolve in RS. rewrite EA in RS. apply rbind_Ok in RS as (t0 & F & RS).
  unfold from_alias in F. destruct (dget a (proxy_reg R r)) as [t1|] eqn:DG; [|discriminate]. injection F as ->.
  apply dget_In in DG. destruct (RG _ _ DG) as [DOC NP].
  destruct (set_attrs_spec (c_extra c) (freeze (proxy_reg R r) t0) ND (fun k I => proj1 (DN k I))) as (u & SU & SH & AT).
  rewrite RS in SU. injection SU as <-.
  assert (NPT : is_proxy t' = false).
  { destruct SH as [SH _]. destruct t0; try discriminate; cbn in SH; destruct t'; try discriminate; reflexivity. }
  assert (A1 := AT "name" ltac:(discriminate)). assert (A2 := AT "default" ltac:(discriminate)). assert (A3 := AT "doc" ltac:(discriminate)).
  assert (ND3 : dget "doc" (c_extra c) = None).
  { destruct (dget "doc" (c_extra c)) eqn:Q; auto. apply dget_In_key in Q. apply DN in Q as [_ Q]. congruence. }
  rewrite ND3 in A3.
  assert (AN : forall t k, k = "name" \/ k = "default" -> attribute t k = dget k (c_extra (get_c t))).
  { intros t k [-> | ->]; destruct t; reflexivity. }
  assert (AD : forall t, attribute t "doc" = Some (c_doc (get_c t))) by (intros t; destruct t; reflexivity).
  rewrite AN in A1, A2 by auto. rewrite !AD, get_c_freeze, DOC in A3. injection A3 as A3.
  assert (Q : exists d' o', avro_head (get_c t') = Ok d' /\ PDict e = avro_short o' /\ same_labels d' o').
  { destruct n as [|n]; cbn [avro_from_f] in PW;
      apply tree_labels in PW as (d' & o' & E' & W & [S'|(NK & _)]);
      [exists d', o'; auto|destruct NK as (? & ? & ? & -> & _); discriminate|exists d', o'; auto|destruct NK as (? & ? & ? & -> & _); discriminate]. }
  clear PW. destruct Q as (d' & o' & E' & W & S'). symmetry in W. apply short_inj in W. subst o'.
  destruct (head_keys _ _ E) as (NDd & HK & H1 & H2 & H3); destruct (head_keys _ _ E') as (NDd' & _ & H1' & H2' & H3').
  destruct S' as (NS & TY & K). specialize (NS NDd').
  assert (K1 := K "doc" ltac:(cbn; auto)); assert (K2 := K "name" ltac:(cbn; auto)); assert (K3 := K "default" ltac:(cbn; auto)).
  rewrite H1', A3 in K1; rewrite H2' in K2; rewrite H3' in K3; cbn [truthy] in K1.
  cbn [get_c] in *.
  assert (GO : forall k, k <> "aliases" -> dget k o = match dget k e with Some v => Some v | None => dget k d end).
  { intros k NK. rewrite EO, dget_ddel. apply eqb_neq_s in NK. rewrite NK. apply dget_dupd. auto. }
  constructor; cbn [get_c]; unfold has.
  - destruct TY as [ty TY]. exists ty. rewrite GO, TY by discriminate. reflexivity.
  - intros m EM TM. rewrite GO, K2, A1, EM, TM by discriminate. reflexivity.
  - intros x EX. rewrite GO, K3, A2, EX by discriminate. reflexivity.
  - intros TD. rewrite GO, K1, H1, TD by discriminate. reflexivity.
  - intros X. exfalso. apply not_naked in X. apply X. exists c, r, a. auto.
Qed.

Lemma struct_record n R c fs v : (forall s, c_logical c <> PStr s) -> Forall (plain_reference R) fs ->
  avro_from_f n R (TStruct c fs) = Ok v ->
  exists o os, v = PDict o /\ has o "type" (PStr "record") /\ has o "fields" (PList (map PDict os)) /\
    labelled (TStruct c fs) o /\ Forall2 labelled fs os.
Proof.
  intros NL P H. pose proof H as H0.
  assert (E : exists m, avro_from_f n R (TStruct c fs) = avro_tree m R (TStruct c fs) /\
    (forall x y, avro_tree m R x = Ok y -> avro_from_f n R x = Ok y)).
  { destruct n; eexists; (split; [reflexivity|]); intros x y HX; exact HX. }
  destruct E as (m & E & EM). rewrite E in H. rewrite struct_unfold in H by auto.
  apply rbind_Ok in H as (d & HD & H). apply rbind_Ok in H as (l & HL & H). injection H as <-.
  assert (F : exists os, l = map PDict os /\ Forall2 labelled fs os).
  { clear H0 E HD. revert l HL. induction fs as [|f fs IH]; intros l HL; cbn [rmap] in HL.
    - injection HL as <-. exists []. split; constructor.
    - inversion P; subst. destruct (rbind _ _) as [y|] eqn:B; [|discriminate]. destruct (rmap _ fs) as [ys|] eqn:B2; [|discriminate].
      injection HL as <-. apply rbind_Ok in B as (z & B & B3). apply EM in B.
      destruct (field_labelled _ _ _ _ B H1) as (o & FO & LO). rewrite FO in B3. injection B3 as <-.
      destruct (IH H2 ys eq_refl) as (os & -> & F). exists (o :: os). split; auto. }
  destruct F as (os & -> & F). eexists _, os. split; [reflexivity|]. unfold has. rewrite !dget_dset.
  split; [reflexivity|]. split; [reflexivity|]. split; auto.
  eapply labels_plain; [exact HD|]. apply same_dset; try discriminate. apply same_type.
Qed.

(** ** Integers (C33) *)
Open Scope Z_scope.
Lemma digits_spec n : forall z, 0 < z < 2 ^ Z.of_nat n ->
  1 <= digits_f n z /\ 10 ^ (digits_f n z - 1) <= z < 10 ^ digits_f n z.
Proof.
  induction n as [|n IH]; intros z H.
  - change (2 ^ Z.of_nat 0) with 1 in H. lia.
  - cbn [digits_f]. destruct (Z.ltb_spec z 10) as [L|L].
    + change (10 ^ (1 - 1)) with 1. change (10 ^ 1) with 10. lia.
    + rewrite Nat2Z.inj_succ, Z.pow_succ_r in H by lia.
      assert (D : 0 < z / 10 < 2 ^ Z.of_nat n).
      { split; [apply Z.div_str_pos; lia|]. apply Z.div_lt_upper_bound; lia. }
      destruct (IH _ D) as (G & A & B). set (k := digits_f n (z / 10)) in *.
      replace (1 + k - 1) with (Z.succ (k - 1)) by lia. replace (1 + k) with (Z.succ k) by lia.
      rewrite !Z.pow_succ_r by lia. pose proof (Z.div_mod z 10 ltac:(lia)). pose proof (Z.mod_pos_bound z 10 ltac:(lia)). lia.
Qed.
Lemma digits_ok z : 0 < z -> 1 <= digits z /\ 10 ^ (digits z - 1) <= z < 10 ^ digits z.
Proof.
  intros H. apply digits_spec. split; auto. rewrite Nat2Z.inj_succ, Z2Nat.id by apply Z.log2_nonneg.
  apply Z.log2_spec. auto.
Qed.
Lemma pow2_mod5 k : 0 <= k -> 2 ^ k mod 5 <> 0.
Proof.
  intros H. revert k H. apply natlike_ind; [discriminate|]. intros k H IH. rewrite Z.pow_succ_r by auto.
  generalize (2 ^ k) IH. intros x Hx. Z.to_euclidean_division_equations. lia.
Qed.
Lemma pow10_pow2 p k : 1 <= p -> 0 <= k -> 10 ^ p <> 2 ^ k.
Proof.
  intros P K E. apply (pow2_mod5 k K). rewrite <- E. replace p with (Z.succ (p - 1)) by lia.
  rewrite Z.pow_succ_r by lia. generalize (10 ^ (p - 1)). intros x. Z.to_euclidean_division_equations. lia.
Qed.
Close Scope Z_scope.

Lemma head_ok c : sized_alias c -> exists d, avro_head c = Ok d.
Proof.
  intros H. unfold avro_head. destruct H as [-> |[a ->]]; cbn [truthy]; eauto.
  destruct (negb (String.eqb a "")); cbn [py_str_in rbind]; eauto.
Qed.
Lemma from_short R t d : avro_from_f 1 R t = Ok (avro_short d) -> avro_from R t = Ok (PDict d).
Proof.
  intros H. unfold avro_from. rewrite H. cbn [rbind]. f_equal. pose proof (unshort d) as U. destruct (avro_short d); exact U.
Qed.

Lemma int_tree prox R c n s : (forall x, c_logical c <> PStr x) ->
  avro_tree prox R (TInt c (PInt n) (PBool s)) =
  (d <- avro_head c ;;
   if s && Z.leb n 32 then Ok (avro_short (dset "type" (PStr "int") d))
   else if (Z.leb n 32 && negb s) || (Z.leb n 64 && s) then Ok (avro_short (dset "type" (PStr "long") d))
   else (p <- int_precision n s ;;
         Ok (avro_short (dupd d [("type", PStr "bytes"); ("logicalType", PStr "decimal"); ("precision", PInt p)]))))%res.
Proof.
  intros NL. cbn [avro_tree get_c as_int]. destruct (avro_head c) as [d|e]; cbn [rbind]; auto.
  destruct (c_logical c); try reflexivity. exfalso. eapply NL; eauto.
Qed.

Lemma pow_le a b : (a <= b -> 2 ^ a <= 2 ^ b)%Z.
Proof.
  intros H. destruct (Z.le_gt_cases 0 a); [apply Z.pow_le_mono_r; lia|].
  rewrite (Z.pow_neg_r 2 a) by lia. apply Z.pow_nonneg. lia.
Qed.
Lemma int_sub n m v : (n <= m)%Z -> int_value n true v -> int_value m true v.
Proof. unfold int_value. intros H. pose proof (pow_le (n - 1) (m - 1) ltac:(lia)). lia. Qed.
Lemma uint_sub n m v : (n < m)%Z -> int_value n false v -> int_value m true v.
Proof. unfold int_value. intros H. pose proof (pow_le n (m - 1) ltac:(lia)). lia. Qed.

Lemma ints_hold R c n (s : bool) : (forall x, c_logical c <> PStr x) -> sized_alias c ->
  (if s then n <= 64 else n <= 32)%Z ->
  exists o, avro_from R (TInt c (PInt n) (PBool s)) = Ok o /\ forall v, int_value n s v -> avro_int o v.
Proof.
  intros NL AL H. destruct (head_ok c AL) as [d HD].
  assert (E : forall o : list (string * pyval), avro_from_f 1 R (TInt c (PInt n) (PBool s)) = Ok (avro_short o) ->
     (forall v, int_value n s v -> avro_int (PDict o) v) ->
     exists o, avro_from R (TInt c (PInt n) (PBool s)) = Ok o /\ forall v, int_value n s v -> avro_int o v).
  { intros o E K. exists (PDict o). split; [now apply from_short|auto]. }
  cbn [avro_from_f] in E. rewrite int_tree in E by auto. rewrite HD in E. cbn [rbind] in E.
  destruct s; cbn [andb negb] in E.
  - destruct (Z.leb_spec n 32).
    + eapply E; [reflexivity|]. intros v V. apply avro_int_int; [unfold has; now rewrite dget_dset|]. eapply int_sub; eauto.
    + cbn [andb orb] in E. replace (n <=? 64)%Z with true in E by (symmetry; apply Z.leb_le; lia).
      eapply E; [reflexivity|]. intros v V. apply avro_int_long; [unfold has; now rewrite dget_dset|]. eapply int_sub; eauto.
  - replace (n <=? 32)%Z with true in E by (symmetry; apply Z.leb_le; lia). cbn [andb orb] in E.
    eapply E; [reflexivity|]. intros v V. apply avro_int_long; [unfold has; now rewrite dget_dset|]. eapply uint_sub; eauto. lia.
Qed.

Lemma ints_lost R c n (s : bool) o : (forall x, c_logical c <> PStr x) ->
  (if s then 64 < n else 32 < n)%Z -> avro_from R (TInt c (PInt n) (PBool s)) = Ok o ->
  exists v, int_value n s v /\ ~ avro_int o v.
Proof.
  intros NL H E. unfold avro_from in E. cbn [avro_from_f] in E. rewrite int_tree in E by auto.
  apply rbind_Ok in E as (w & E & EW). apply rbind_Ok in E as (d & HD & E).
  assert (E2 : (p <- int_precision n s ;; Ok (avro_short (dupd d [("type", PStr "bytes"); ("logicalType", PStr "decimal"); ("precision", PInt p)])))%res = Ok w).
  { destruct s; cbn [andb negb] in E.
    - destruct (Z.leb_spec n 32); [lia|]. destruct (Z.leb_spec n 64); [lia|]. exact E.
    - destruct (Z.leb_spec n 32); [lia|]. rewrite andb_false_r in E. exact E. }
  clear E. apply rbind_Ok in E2 as (p & HP & E2). injection E2 as <-.
  pose proof (unshort (dupd d [("type", PStr "bytes"); ("logicalType", PStr "decimal"); ("precision", PInt p)])) as U.
  assert (EO : o = PDict (dupd d [("type", PStr "bytes"); ("logicalType", PStr "decimal"); ("precision", PInt p)])) by (destruct (avro_short _); congruence).
  subst o. clear U EW.
  unfold int_precision in HP. set (k := (n - (if s then 1 else 0))%Z) in *.
  destruct (Z.ltb _ _) in HP; [discriminate|]. injection HP as HP.
  assert (K0 : (32 < k)%Z) by (unfold k; destruct s; lia).
  assert (Z0 : (0 < 2 ^ k)%Z) by (apply Z.pow_pos_nonneg; lia).
  destruct (digits_ok (2 ^ k) Z0) as (G & A & B). rewrite HP in A.
  assert (P1 : (1 <= p)%Z).
  { destruct (Z.le_gt_cases 1 p); auto. exfalso. assert (D1 : (digits (2 ^ k) <= 1)%Z) by lia.
    assert (X : (10 ^ digits (2 ^ k) <= 10 ^ 1)%Z) by (apply Z.pow_le_mono_r; lia).
    assert (Y : (2 ^ 32 <= 2 ^ k)%Z) by (apply Z.pow_le_mono_r; lia).
    change (10 ^ 1)%Z with 10%Z in X. change (2 ^ 32)%Z with 4294967296%Z in Y. lia. }
  assert (NEQ : (10 ^ p <> 2 ^ k)%Z) by (apply pow10_pow2; lia).
  assert (POS : (0 < 10 ^ p)%Z) by (apply Z.pow_pos_nonneg; lia).
  exists (10 ^ p)%Z. split.
  - unfold int_value. destruct s; unfold k in *; [|replace (n - 0)%Z with n in * by lia]; lia.
  - assert (DT : dget "type" (dupd d [("type", PStr "bytes"); ("logicalType", PStr "decimal"); ("precision", PInt p)]) = Some (PStr "bytes")).
    { rewrite dget_dupd; [reflexivity|]. repeat (constructor; [cbn; intuition discriminate|]). constructor. }
    assert (DP : dget "precision" (dupd d [("type", PStr "bytes"); ("logicalType", PStr "decimal"); ("precision", PInt p)]) = Some (PInt p)).
    { rewrite dget_dupd; [reflexivity|]. repeat (constructor; [cbn; intuition discriminate|]). constructor. }
    set (e := dupd d [("type", PStr "bytes"); ("logicalType", PStr "decimal"); ("precision", PInt p)]) in *. clearbody e.
    intros AI. unfold has in *. inversion AI as [? ? T V|? ? T V|? q ? T L P S V]; subst; unfold has in *.
    + rewrite T in DT. discriminate.
    + rewrite T in DT. discriminate.
    + rewrite P in DP. injection DP as ->. rewrite Z.abs_eq in V; lia.
Qed.

(** ** Fixed sizes (C36) *)
Lemma parse_dict d ns R : avro_parse (PDict d) ns R =
  (h <- lift (avro_parse_head d ns) ;;
   let lo := kwarg "logicalType" PNone d in
   if truthy lo then lift (avro_parse_logical lo d (a_attrs h)) else avro_body avro_parse d h)%mon R.
Proof. apply avro_parse_unfold. Qed.

Lemma register_same t R R' u : avro_register t R = (R', Ok u) -> u = t.
Proof.
  unfold avro_register. destruct (is_none _); [intros [= _ E]; auto|]. unfold mbind.
  destruct (register_alias t R) as [R1 [x|]]; [intros [= _ E]; auto|discriminate].
Qed.
Lemma fixed_read d ns R R' t n : has d "type" (PStr "fixed") -> has d "size" (PInt n) -> (n <= max_len)%Z ->
  dget "logicalType" d = None -> avro_parse (PDict d) ns R = (R', Ok t) ->
  exists c, t = TBytes c (PInt n) (PBool true).
Proof.
  unfold has. intros T S L LO H. rewrite parse_dict in H. apply mbind_Ok in H as (R1 & h & H1 & H2).
  unfold kwarg in H2. rewrite LO in H2. cbn [truthy] in H2. unfold avro_body in H2. rewrite T, S in H2.
  cbn [String.eqb Ascii.eqb Bool.eqb as_int] in H2. apply Z.leb_le in L. rewrite L in H2. apply register_same in H2. eauto.
Qed.
Lemma bytes_read d ns R R' t : has d "type" (PStr "bytes") ->
  dget "logicalType" d = None -> avro_parse (PDict d) ns R = (R', Ok t) ->
  exists c n, t = TBytes c n (PBool true).
Proof.
  unfold has. intros T LO H. rewrite parse_dict in H. apply mbind_Ok in H as (R1 & h & H1 & H2).
  unfold kwarg in H2. rewrite LO in H2. cbn [truthy] in H2. unfold avro_body in H2. rewrite T in H2.
  cbn [String.eqb Ascii.eqb Bool.eqb as_int] in H2. apply register_same in H2. eauto.
Qed.
Lemma decimal_read d ns R R' t ty : has d "type" (PStr ty) -> has d "logicalType" (PStr "decimal") ->
  avro_parse (PDict d) ns R = (R', Ok t) ->
  exists c n, t = TBytes c n (PBool (String.eqb ty "fixed")).
Proof.
  unfold has. intros T LO H. rewrite parse_dict in H. apply mbind_Ok in H as (R1 & h & H1 & H2).
  unfold kwarg in H2. rewrite LO in H2. cbv zeta in H2. cbn [truthy String.eqb negb] in H2.
  unfold avro_parse_logical in H2. cbn [String.eqb Ascii.eqb Bool.eqb] in H2. rewrite T in H2.
  destruct (dget "precision" d); apply lift_Ok in H2 as [_ H2]; [|discriminate]. injection H2 as <-. cbn [py_eq]. eauto.
Qed.
Lemma duration_read d ns R R' t : has d "logicalType" (PStr "duration") ->
  avro_parse (PDict d) ns R = (R', Ok t) ->
  exists c, t = TBytes c (PInt 12) (PBool true) /\ c_logical c = PStr "build.recap.Interval" /\ sized_alias c.
Proof.
  unfold has. intros LO H. rewrite parse_dict in H. apply mbind_Ok in H as (R1 & h & H1 & H2).
  unfold kwarg in H2. rewrite LO in H2. cbv zeta in H2. cbn [truthy String.eqb negb] in H2.
  unfold avro_parse_logical in H2. cbn [String.eqb Ascii.eqb Bool.eqb] in H2.
  apply lift_Ok in H2 as [_ H2]. injection H2 as <-. eexists. split; [reflexivity|]. split; [reflexivity|left; reflexivity].
Qed.
Lemma duration_unwritable R c : c_logical c = PStr "build.recap.Interval" -> sized_alias c ->
  avro_from R (TBytes c (PInt 12) (PBool true)) = Err ValueError.
Proof.
  intros L A. unfold avro_from. cbn [avro_from_f avro_tree get_c]. destruct (head_ok c A) as [d ->]. cbn [rbind].
  rewrite L. unfold avro_logical. destruct c as [lo al doc ex]. cbn in L |- *. rewrite L. cbn. reflexivity.
Qed.

(** ** References to built-in types (C72) *)
Lemma builtin_ref_named R a t n doc : In (a, t) builtin_aliases -> dget a R = Some t -> n <> "" ->
  avro_from R (TProxy (mkC PNone (PStr a) (PStr doc) [("name", PStr n)]) None) = avro_from R (named_type t doc n).
Proof.
  intros I D N. assert (TN := truthy_s n N).
  unfold avro_from. f_equal. cbn [avro_from_f avro_tree get_c c_alias c_logical c_doc].
  unfold resolve. cbn [c_alias proxy_reg c_extra]. unfold from_alias. rewrite D. cbn [rbind].
  vm_compute in I. 
  repeat match type of I with _ \/ _ => destruct I as [I|I] end; [..|destruct I]; injection I as <- <-.
  all: unfold named_type; destruct doc as [|x doc]; destruct n as [|y n]; try congruence; reflexivity.
Qed.

(** References without a name to a type that is written as a plain string. *)
Lemma builtin_ref_bare R a t s : dget a R = Some t -> substr_in "." a = false ->
  avro_from_f 0 R (freeze R t) = Ok (PStr s) ->
  avro_from R (TProxy (mkC PNone (PStr a) PNone []) None) = Ok (PDict [("type", PStr a)]).
Proof.
  intros D N H. unfold avro_from. cbn [avro_from_f avro_tree get_c c_alias c_logical c_doc].
  unfold avro_head. cbn [c_doc truthy c_extra kwarg dget c_alias].
  unfold resolve. cbn [c_alias proxy_reg c_extra set_attrs]. unfold from_alias. rewrite D, N. cbn [rbind negb set_attrs].
  cbn [avro_from_f] in H. rewrite H. destruct (negb _); cbn; rewrite ?N; reflexivity.
Qed.
Lemma builtin_bare a R : In a plain_builtins -> (exists E, R = builtin_aliases ++ E) ->
  avro_from R (TProxy (mkC PNone (PStr a) PNone []) None) = Ok (PDict [("type", PStr a)]).
Proof.
  intros I [E ->]. cbn in I.
  repeat match type of I with _ \/ _ => destruct I as [I|I] end; [..|destruct I]; subst a.
  all: eapply builtin_ref_bare; reflexivity.
Qed.

(** ** Unions as JSON arrays (C73) *)
Lemma list_schema l ns R : exists e, avro_parse (PList l) ns R = (R, Err e) /\ (e = TypeError \/ e = AttributeError).
Proof. rewrite avro_parse_unfold. destruct (existsb _ _); eexists; (split; [reflexivity|]); auto. Qed.
Lemma logical_none d h R : dget "logicalType" d = None ->
  (let lo := kwarg "logicalType" PNone d in
   if truthy lo then lift (avro_parse_logical lo d (a_attrs h)) else avro_body avro_parse d h)%mon R = avro_body avro_parse d h R.
Proof. intros H. unfold kwarg. rewrite H. reflexivity. Qed.
Lemma list_items d l ns R : has d "type" (PStr "array") -> has d "items" (PList l) -> dget "logicalType" d = None ->
  exists e, snd (avro_parse (PDict d) ns R) = Err e.
Proof.
  unfold has. intros T I LO. rewrite parse_dict. unfold mbind at 1, lift at 1.
  destruct (avro_parse_head d ns) as [h|e]; [|eexists; reflexivity].
  rewrite logical_none by auto. unfold avro_body. rewrite T, I. cbn [String.eqb Ascii.eqb Bool.eqb].
  unfold mbind. destruct (list_schema l (a_ns h) R) as (e & -> & _). eexists; reflexivity.
Qed.
Lemma list_values d l ns R : has d "type" (PStr "map") -> has d "values" (PList l) -> dget "logicalType" d = None ->
  exists e, snd (avro_parse (PDict d) ns R) = Err e.
Proof.
  unfold has. intros T I LO. rewrite parse_dict. unfold mbind at 1, lift at 1.
  destruct (avro_parse_head d ns) as [h|e]; [|eexists; reflexivity].
  rewrite logical_none by auto. unfold avro_body. rewrite T, I. cbn [String.eqb Ascii.eqb Bool.eqb].
  unfold mbind. destruct (list_schema l (a_ns h) R) as (e & -> & _). eexists; reflexivity.
Qed.

(** ** Logical types (C74) *)
Lemma logical_back R ns a : NoDup (dkeys R) -> namespace ns -> avro_ok a ->
  (exists h s l, a = ALogical h s l) \/ (exists h p s, a = ADecimal h p s) ->
  exists R' t, avro_parse (json false ns a) (PStr ns) R = (R', Ok t) /\
    avro_from R' t = Ok (json false ns a).
Proof.
  intros ND N OK I.
  assert (D : full_names ns a = [] /\ inlined a /\ forall d, compact a d = PDict d /\ json_entries true ns a = json_entries false ns a).
  { destruct I as [(h & s & l & ->)|(h & p & s & ->)]; (split; [reflexivity|]); (split; [constructor|]); intros d;
      (split; [reflexivity|]); cbn [json_entries defines avro_labels]; now rewrite !label_unmarked. }
  destruct D as (F & IN & D). pose proof (read ns a N OK R ND) as Y. rewrite F, app_nil_r in Y.
  destruct Y as [(_ & R' & E & _)|[C _]]; [|contradiction].
  exists R', (tree_of ns a). split; [exact E|]. unfold avro_from. cbn [avro_from_f]. rewrite write by auto.
  destruct (D (json_entries true ns a)) as [-> ->]. reflexivity.
Qed.

(** ** Reading and writing terminate (C75) *)
Lemma nof_register_avro t R : nof (snd (avro_register t R)).
Proof.
  unfold avro_register. destruct (is_none _); [discriminate|]. apply nof_mbind; [apply nof_register|discriminate].
Qed.
Lemma nof_ns v : nof (ns_text v).
Proof. destruct v; discriminate. Qed.
Lemma nof_head d ns : nof (avro_parse_head d ns).
Proof.
  unfold avro_parse_head. destruct (dget "name" d) as [[| | | |nm|l|e]|]; try discriminate.
  - destruct (if substr_in "." nm then _ else _) as [a b]. apply nof_rbind; [apply nof_ns|discriminate].
  - destruct (existsb _ _); discriminate.
  - destruct (dmem _ _); discriminate.
Qed.
Lemma nof_logical lo d x : nof (avro_parse_logical lo d x).
Proof.
  unfold avro_parse_logical. destruct lo; try discriminate.
  repeat match goal with |- nof (if ?b then _ else _) => destruct b end; try discriminate.
  destruct (dget "type" d); [destruct (dget "precision" d)|]; discriminate.
Qed.
Lemma nof_body rec d h R : avro_kids (fun x => forall ns R, nof (snd (rec x ns R))) d ->
  nof (snd (avro_body rec d h R)).
Proof.
  intros [K1 K2]. unfold avro_body. cbv zeta.
  set (c := avro_common PNone (a_alias h) [] (a_attrs h)).
  set (proxy := fun s : string => (p <- (if substr_in "." s then ret s else (n <- lift (ns_text (a_ns h)) ;; ret (n ++ "." ++ s)%string)) ;;
     ret (TProxy (mkC PNone (PStr p) (kwarg "doc" PNone (a_attrs h)) (ddel "doc" (a_attrs h))) None))%mon).
  assert (NP : forall s R, nof (snd (proxy s R))).
  { intros s R'. unfold proxy. apply nof_mbind; [|discriminate]. destruct (substr_in "." s); [discriminate|].
    apply nof_mbind; [apply nof_lift, nof_ns|discriminate]. }
  assert (MM : forall k v l R, dget k d = Some v -> py_iter v = Ok l -> nof (snd (mmap (fun t => rec t (a_ns h)) l R))).
  { intros k v l R' E I. apply nof_mmap. intros x R1 IN. apply (K2 k v l x E I IN). }
  assert (IT : forall k v (f : list rtype -> rtype) R, dget k d = Some v ->
     nof (snd ((l <- lift (py_iter v) ;; ts <- mmap (fun t => rec t (a_ns h)) l ;; avro_register (f ts))%mon R))).
  { intros k v f R' E. apply nof_mbind_lift; [apply nof_py_iter|]. intros l I. apply nof_mbind; [eapply MM; eauto|].
    intros; apply nof_register_avro. }
  destruct (dget "type" d) as [ty|] eqn:T; [|discriminate].
  destruct ty as [| | | |s|l|e]; try discriminate.
  - repeat match goal with |- nof (snd ((if String.eqb s ?x then _ else _) _)) => destruct (String.eqb s x) end;
      try exact (NP s R); try apply nof_register_avro.
    + destruct (dget "size" d) as [n|]; [|exact (NP s R)]. destruct (as_int n) as [z|]; [|exact (NP s R)]. destruct (Z.leb z max_len); [apply nof_register_avro|exact (NP s R)].
    + destruct (dget "fields" d) as [v|] eqn:E; [|exact (NP s R)]. eapply (IT "fields" v (TStruct c)); eauto.
    + destruct (dget "symbols" d) as [v|] eqn:E; [apply nof_register_avro|exact (NP s R)].
    + destruct (dget "items" d) as [v|] eqn:E; [|exact (NP s R)]. apply nof_mbind; [eapply K1; eauto|]. intros; apply nof_register_avro.
    + destruct (dget "values" d) as [v|] eqn:E; [|exact (NP s R)]. apply nof_mbind; [eapply K1; eauto|]. intros; apply nof_register_avro.
    + destruct (dget "types" d) as [v|] eqn:E; [|exact (NP s R)]. eapply (IT "types" v (TUnion c)); eauto.
  - apply nof_mbind; [eapply MM; eauto; reflexivity|]. intros; apply nof_register_avro.
  - apply nof_mbind; [eapply K1; eauto|]. discriminate.
Qed.
Lemma nof_parse_f n : forall j ns R, psize j <= n -> nof (snd (avro_parse_f n j ns R)).
Proof.
  induction n as [|n IH]; intros j ns R H; [pose proof (psize_pos j); lia|].
  cbn [avro_parse_f]. destruct j as [| | | |s|l|d]; try discriminate.
  - apply nof_mbind_lift; [apply nof_head|]. intros h _. cbv zeta. cbn [kwarg dget String.eqb Ascii.eqb Bool.eqb truthy].
    assert (K : forall rec, nof (snd (avro_body rec [("type", PStr s)] h R))).
    { intros rec. unfold avro_body. cbn [dget String.eqb Ascii.eqb Bool.eqb].
      repeat match goal with |- nof (snd ((if String.eqb s ?x then _ else _) _)) => destruct (String.eqb s x) end;
      auto using nof_register_avro;
      (apply nof_mbind; [|discriminate]; destruct (substr_in "." s); [discriminate|];
       apply nof_mbind; [apply nof_lift, nof_ns|discriminate]). }
    apply K.
  - destruct (existsb _ _); discriminate.
  - apply nof_mbind_lift; [apply nof_head|]. intros h _. cbv zeta. destruct (truthy _); [apply nof_lift, nof_logical|].
    rewrite psize_dict in H. apply nof_body. split.
    + intros k v E ns' R'. apply dsize_dget in E. apply IH; lia.
    + intros k v l x E I IN ns' R'. apply dsize_dget in E. pose proof (py_iter_size _ _ _ I IN). apply IH; lia.
Qed.
Lemma nof_avro_to j ns R : nof (snd (avro_to j ns R)).
Proof.
  unfold avro_to. apply nof_mbind; [apply nof_parse_f; auto|]. intros t R'. destruct t; discriminate.
Qed.

Lemma nof_head_w c : nof (avro_head c).
Proof.
  unfold avro_head. destruct (truthy (c_alias c)); [|discriminate]. apply nof_rbind; [|discriminate].
  unfold py_str_in. destruct (c_alias c); try discriminate.
Qed.
Lemma nof_logical_w t : nof (avro_logical t).
Proof.
  unfold avro_logical. destruct t as [| | c b s| |c b v|c b v| | | | | |]; try discriminate;
    destruct c as [lo ? ? ?]; destruct lo; try discriminate.
  - destruct s as [|[]| | | | |]; try discriminate. destruct (as_int b); [|discriminate].
    repeat match goal with |- nof (if ?b then _ else _) => destruct b end; discriminate.
  - destruct (as_int b); [|discriminate]. destruct (_ && _); discriminate.
  - destruct (as_int b).
    + destruct v; try discriminate. destruct (_ && _ && _); [discriminate|]. destruct (_ && _); discriminate.
    + destruct v as [|[]| | | | |]; try discriminate. destruct (_ && _); discriminate.
Qed.
Lemma nof_set_attr t k v : nof (set_attr t k v).
Proof.
  unfold set_attr. destruct (opaque_attr t k); [discriminate|].
  repeat match goal with |- nof (if ?b then _ else _) => destruct b; [try discriminate|] end.
  - destruct v; discriminate.
  - destruct t; repeat match goal with |- nof (if ?b then _ else _) => destruct b end; discriminate.
Qed.
Lemma nof_set_attrs l : forall t, nof (set_attrs t l).
Proof. induction l as [|[k v] l IH]; intros t; cbn [set_attrs]; [discriminate|]. apply nof_rbind; [apply nof_set_attr|auto]. Qed.
Lemma nof_precision n s : nof (int_precision n s).
Proof. unfold int_precision. destruct (Z.ltb _ _); discriminate. Qed.
Lemma no_proxy_set_c t c : no_proxy t -> no_proxy (set_c t c).
Proof. destruct t; auto. Qed.
Lemma no_proxy_set_attr t k v t' : no_proxy t -> set_attr t k v = Ok t' -> no_proxy t'.
Proof.
  intros N. unfold set_attr. destruct (opaque_attr t k); [discriminate|].
  repeat match goal with |- (if ?b then _ else _) = Ok _ -> _ => destruct b; [try (intros [= <-]; apply no_proxy_set_c, N)|] end.
  - destruct v; try discriminate. intros [= <-]; apply no_proxy_set_c, N.
  - destruct t; repeat match goal with |- (if ?b then _ else _) = Ok _ -> _ => destruct b end;
      intros [= <-]; try exact N; apply no_proxy_set_c, N.
Qed.
Lemma no_proxy_set_attrs l : forall t t', no_proxy t -> set_attrs t l = Ok t' -> no_proxy t'.
Proof.
  induction l as [|[k v] l IH]; intros t t' N H; cbn [set_attrs] in H; [congruence|].
  apply rbind_Ok in H as (u & E & H). eauto using no_proxy_set_attr.
Qed.
Lemma no_proxy_freeze R t : no_proxy t -> no_proxy (freeze R t).
Proof.
  induction t as [c|c|c b s|c b|c b v|c b v|c v l va IH|c k v IHk IHv|c fs IH|c s|c ts IH|c r] using rtype_ind';
    cbn [no_proxy freeze]; auto; try tauto.
  - induction IH; cbn; intuition.
  - induction IH; cbn; intuition.
Qed.

Lemma nof_pstr {A} v (x y : res A) : nof x -> nof y -> nof (match v with PStr _ => x | _ => y end).
Proof. destruct v; auto. Qed.
(** Conversion of a node, given that of the references. *)
Lemma nof_tree prox R t : looks_in naked_plain t -> naked_plain R ->
  (no_proxy t \/ forall t', no_proxy t' -> nof (prox t')) -> nof (avro_tree prox R t).
Proof.
  intros L NR.
  induction t as [c|c|c b s|c b|c b v|c b v|c v l va IH|c k v IHk IHv|c fs IH|c s|c ts IH|c r] using rtype_ind';
    intros H; cbn [avro_tree get_c]; (apply nof_rbind; [apply nof_head_w|]); intros d; cbv zeta;
    apply nof_pstr; try (apply nof_rbind; [apply nof_logical_w|discriminate]); try discriminate.
  - destruct (as_int b); [|discriminate]. destruct s; try discriminate.
    repeat match goal with |- nof (if ?b then _ else _) => destruct b; [discriminate|] end.
    apply nof_rbind; [apply nof_precision|discriminate].
  - destruct (as_int b); [|discriminate]. repeat match goal with |- nof (if ?b then _ else _) => destruct b end; discriminate.
  - destruct (as_int b); [|discriminate]. repeat match goal with |- nof (if ?b then _ else _) => destruct b end; discriminate.
  - destruct (as_int b); [|discriminate]. destruct v as [|[]| | | | |]; try discriminate;
      match goal with |- nof (if ?b then _ else _) => destruct b end; discriminate.
  - apply nof_rbind; [apply IH; auto|discriminate].
  - cbn in H, L. destruct k; try discriminate. apply nof_rbind; [apply IHv; tauto|discriminate].
  - apply nof_rbind; [|discriminate]. cbn in H, L. induction IH as [|x l IHx IH IHl]; [discriminate|]. cbn in H, L.
    apply nof_rbind; [apply IHx; tauto|]. intros y. apply nof_rbind; [destruct y; discriminate|]. intros z.
    apply nof_rbind; [apply IHl; tauto|discriminate].
  - destruct s; discriminate.
  - apply nof_rbind; [|discriminate]. cbn in H, L. induction IH as [|x l IHx IH IHl]; [discriminate|]. cbn in H, L.
    apply nof_rbind; [apply IHx; tauto|]. intros y. apply nof_rbind; [apply IHl; tauto|discriminate].
  - cbn in H. destruct H as [[]|H]. destruct (c_alias c) as [| | | |a| |] eqn:A; try discriminate.
    destruct (substr_in "." a) eqn:D; cbn [negb]; [discriminate|].
    destruct (resolve R (TProxy c r)) as [t'|e] eqn:RS; cbn [rbind].
    + apply nof_rbind; [|intros [| | | | | |]; discriminate]. apply H.
      cbn [resolve] in RS. rewrite A in RS. apply rbind_Ok in RS as (t0 & F & RS).
      eapply no_proxy_set_attrs; [|exact RS]. apply no_proxy_freeze.
      unfold from_alias in F. destruct (dget a (proxy_reg R r)) as [u|] eqn:G; [|discriminate]. injection F as <-.
      destruct r as [R'|]; cbn [proxy_reg] in G; [cbn [looks_in] in L; eapply L|eapply NR]; eauto.
    + cbn [resolve] in RS. rewrite A in RS. unfold from_alias in RS.
      destruct (dget a (proxy_reg R r)); cbn [rbind] in RS; [|injection RS as <-; discriminate].
      intros E. injection E as ->. eapply nof_set_attrs; eauto.
Qed.
Lemma no_proxy_looks P t : no_proxy t -> looks_in P t.
Proof.
  induction t as [c|c|c b s|c b|c b v|c b v|c v l va IH|c k v IHk IHv|c fs IH|c s|c ts IH|c r] using rtype_ind';
    cbn [no_proxy looks_in]; auto; try tauto.
  - induction IH; cbn; intuition.
  - induction IH; cbn; intuition.
Qed.
Lemma nof_avro_from R t : looks_in naked_plain t -> naked_plain R -> nof (avro_from R t).
Proof.
  intros L NR. unfold avro_from. apply nof_rbind; [|discriminate]. apply nof_tree; auto. right. intros t' N.
  cbn [avro_from_f]. apply nof_tree; auto using no_proxy_looks.
Qed.
Lemma builtin_plain : naked_plain builtin_aliases.
Proof.
  intros a t D _. apply dget_In in D. vm_compute in D.
  repeat match type of D with _ \/ _ => destruct D as [D|D] end; [..|destruct D]; injection D as <- <-; exact Logic.I.
Qed.

(** ** Names (C76) *)
Lemma name_written R t o : is_proxy t = false -> avro_from R t = Ok (PDict o) ->
  dget "name" o = match dget "name" (c_extra (get_c t)) with Some n => if truthy n then Some n else None | None => None end.
Proof.
  intros NP H. unfold avro_from in H. apply rbind_Ok in H as (v & H & E). cbn [avro_from_f] in H.
  apply tree_labels in H as (d & o' & HD & -> & [S|[(c & r & a & -> & _) _]]); [|discriminate].
  assert (EO : o = o').
  { pose proof (unshort o') as U. destruct (avro_short o'); try discriminate; congruence. }
  subst o'. destruct S as (_ & _ & S). rewrite S by (cbn; auto). apply head_keys in HD. tauto.
Qed.
Lemma from_dicts R t v : avro_from R t = Ok v -> exists o, v = PDict o.
Proof.
  intros H. unfold avro_from in H. apply rbind_Ok in H as (w & H & E). cbn [avro_from_f] in H.
  apply tree_labels in H as (d & o' & HD & -> & _). exists o'. pose proof (unshort o') as U. destruct (avro_short o'); try discriminate; congruence.
Qed.
