(** Hive columns, flattening, statistics and limits (proofs only). *)
From Coq Require Import String Ascii List NArith ZArith QArith Bool Lia.
From Verif Require Import PyVal PyValFacts RType FromDict Nullable NullableFacts SpecTypes
  SpecDb DbapiFacts BigQueryFacts ClientsFacts DbRanges Hive SpecHive HiveFacts.
Import ListNotations.
Open Scope nat_scope.
Open Scope string_scope.
Open Scope list_scope.

Theorem hive_column_spec : forall col f, hive_column col = Ok f -> hive_field col f.
Proof.
  intros col f H. unfold hive_column in H.
  destruct (hive_main (hc_type col) (match hc_comment col with Some (String a r) => PStr (String a r) | _ => PNone end)
     [("name", PStr (hc_name col))] (or_intror (ex_intro _ _ eq_refl))) as [G _].
  destruct (G f H) as [R N E A]. split; auto.
  - apply flat_every. intros s Ns. specialize (E s Ns). destruct s; try exact I; exact E.
  - unfold extra. rewrite A. cbn [c_extra]. destruct (is_null f); reflexivity.
  - intros s Hs Ne. rewrite A. cbn [c_doc]. rewrite Hs. destruct s; [congruence|reflexivity].
  - intros Nn. unfold extra. rewrite A, Nn. reflexivity.
Qed.
Theorem hive_column_ok : forall col, (exists f, hive_column col = Ok f) <-> hive_ok (hc_type col).
Proof.
  intros col. unfold hive_column.
  destruct (hive_main (hc_type col) (match hc_comment col with Some (String a r) => PStr (String a r) | _ => PNone end)
     [("name", PStr (hc_name col))] (or_intror (ex_intro _ _ eq_refl))) as [_ O].
  symmetry. exact O.
Qed.

Lemma rmap_forall2 {A B} (f : A -> res B) (P : A -> B -> Prop) l : (forall x y, f x = Ok y -> P x y) ->
  forall ys, rmap f l = Ok ys -> Forall2 P l ys.
Proof.
  intros H. induction l as [|x l IH]; intros ys E; cbn [rmap] in E.
  - injection E; intros; subst. constructor.
  - destruct (f x) as [y|] eqn:Ex; cbn [rbind] in E; [|discriminate].
    destruct (rmap f l) as [r|]; cbn [rbind] in E; [|discriminate].
    injection E; intros; subst. constructor; auto.
Qed.
Theorem hive_table_spec : forall name cols t, hive_to_recap name cols = Ok t ->
  exists c fs, t = TStruct c fs /\ dget "name" (c_extra c) = Some (PStr name) /\ Forall2 hive_field cols fs.
Proof.
  intros name cols t H. unfold hive_to_recap in H.
  destruct (rmap hive_column cols) as [fs|] eqn:E; cbn [rbind] in H; [|discriminate].
  injection H; intros; subst. do 2 eexists. split; [reflexivity|]. split; [reflexivity|].
  eapply rmap_forall2; eauto. apply hive_column_spec.
Qed.
Theorem hive_table_ok : forall name cols,
  (exists t, hive_to_recap name cols = Ok t) <-> Forall (fun c => hive_ok (hc_type c)) cols.
Proof.
  intros name cols. unfold hive_to_recap.
  transitivity (exists fs, rmap hive_column cols = Ok fs).
  - split; [intros [t H]|intros [fs ->]; cbn; eauto].
    destruct (rmap hive_column cols); [eauto|discriminate].
  - rewrite rmap_ok. split; intros F; rewrite Forall_forall in *; intros x I; apply hive_column_ok; auto.
Qed.

(** ** C55 *)
Lemma union_members d e hs c ms us : name_only e -> hive_parse d e (HUnion hs) = Ok (TUnion c ms) ->
  parse_all hs = Ok us ->
  Forall (every hive_node) us /\
  ms = fold_left flat_add (map rewrap us) [TNull c0].
Proof.
  intros NO H U. rewrite parse_union, U in H. cbn [rbind] in H. rewrite flatten_members in H. cbn [hive_finish] in H.
  assert (F : Forall (every hive_node) us).
  { clear H. unfold parse_all in U. revert us U.
    induction hs as [|x l IH]; intros us U; cbn [rmap] in U; [injection U; intros; subst; constructor|].
    destruct (hive_parse PNone [] x) as [y|] eqn:E; cbn [rbind] in U; [|discriminate].
    destruct (rmap (hive_parse PNone []) l) as [r|]; cbn [rbind] in U; [|discriminate].
    injection U; intros; subst. constructor; auto.
    destruct (hive_main x PNone [] (or_introl eq_refl)) as [G _]. apply (g_nodes _ _ _ _ (G y E)). }
  split; auto. injection H; intros <- _. cbn [map fold_left flatten_unions flat_add rt_in existsb].
  f_equal. apply map_eq. rewrite Forall_forall in *. intros x I. apply flatten_rewrap. auto.
Qed.

(** ** Properties of all nodes of the result *)
Definition after_pop (t : rtype) : rtype :=
  let c := get_c t in
  let e2 := ddel "name" (ddel "default" (c_extra c)) in
  set_c t (mkC (c_logical c) (c_alias c) (kwarg "doc" PNone e2) (ddel "doc" e2)).
Definition doc_like (d : pyval) : Prop := d = PNone \/ exists s, d = PStr s.

Section EveryNode.
  Variable P : rtype -> Prop.
  Variable Q : htype -> Prop.
  Hypothesis P_set : forall t, P t -> P (after_pop t).
  Hypothesis P_un : forall t ts, P t -> is_union t = false ->
    P (TUnion (mkC PNone PNone (c_doc (get_c t)) (union_labels t)) ts).
  Hypothesis P_null : P (TNull c0).
  Hypothesis P_union : forall c ts ts', P (TUnion c ts) -> P (TUnion c ts').
  Hypothesis P_list : forall c v l r v', P (TList c v l r) -> P (TList (wrap_attrs c) v' PNone (PBool true)).
  Hypothesis P_map : forall c k v k' v', P (TMap c k v) -> P (TMap (wrap_attrs c) k' v').
  Hypothesis P_struct : forall c fs fs', P (TStruct c fs) -> P (TStruct c fs').
  Definition fine (d : pyval) (e : list (string * pyval)) : Prop := doc_like d /\ name_only e.
  Hypothesis QP : forall p d e, fine d e -> Q (HPrim p) -> P (hive_prim d e p).
  Hypothesis QD : forall p s d e, fine d e -> Q (HDecimal p s) ->
    P (TBytes (mkC (PStr "build.recap.Decimal") PNone d
             (("precision", PInt p) :: ("scale", PInt s) :: e)) (PInt 16) (PBool false)).
  Hypothesis QV : forall n d e, fine d e -> Q (HVarchar n) -> P (TString (mkC PNone PNone d e) (PInt n) (PBool true)).
  Hypothesis QC : forall n d e, fine d e -> Q (HChar n) -> P (TString (mkC PNone PNone d e) (PInt n) (PBool false)).
  Hypothesis QM : forall hk hv, Q (HMap hk hv) -> Q hk /\ Q hv /\
    forall d e k v, fine d e -> P (TMap (mkC PNone PNone d e) k v).
  Hypothesis QL : forall h, Q (HList h) -> Q h /\
    forall d e v, fine d e -> P (TList (mkC PNone PNone d e) v PNone (PBool true)).
  Hypothesis QU : forall hs, Q (HUnion hs) -> Forall Q hs /\
    forall d e ts, fine d e -> P (TUnion (mkC PNone PNone d (("default", PNone) :: e)) ts).
  Hypothesis QS : forall ns hs, Q (HStruct ns hs) -> Forall Q hs /\
    forall d e fs, fine d e -> P (TStruct (mkC PNone PNone d e) fs).

  Lemma every_set t : every P t -> every P (after_pop t).
  Proof.
    intros H. apply every_iff in H as [H F]. apply every_iff. split; [auto|]. destruct t; exact F.
  Qed.
  Lemma every_null : every P (TNull c0).
  Proof. apply every_iff. split; [apply P_null|constructor]. Qed.
  Lemma every_finish t r : hive_finish t = Ok r -> every P t -> every P r.
  Proof.
    intros H E.
    assert (M : forall t r, is_union t = false -> snd (make_nullable t) = Ok r -> every P t -> every P r).
    { clear -P_set P_un P_null. intros t r U H E. unfold make_nullable in H.
      destruct existsb; cbn [snd] in H; [discriminate|].
      assert (X : r = TUnion (mkC PNone PNone (c_doc (get_c t)) (union_labels t))
                        (if is_null t then [after_pop t] else [TNull c0; after_pop t])).
      { unfold union_labels. rewrite dget_ddel in H. cbn [String.eqb Ascii.eqb eqb] in H.
        destruct t; try discriminate U; cbn [snd get_c set_c is_null] in *;
          (assert (HF : forall a b : rtype, Ok a = Ok b -> b = a) by congruence; apply HF in H; rewrite H; reflexivity). }
      rewrite X. pose proof (E t (node_self _)) as Pt. apply every_iff. split; [apply P_un; auto|]. cbn [children].
      destruct (is_null t); repeat constructor; auto using every_set, every_null. }
    destruct t; cbn [hive_finish] in H; try (injection H; intros; subst; exact E);
      (eapply M; [|exact H|exact E]; reflexivity).
  Qed.
  Lemma every_flatten t : every P t -> every P (flatten_unions t).
  Proof.
    induction t using rtype_ind'; intros E; try exact E; apply every_iff in E as [En Ec]; cbn [children] in Ec;
      apply every_iff; cbn [flatten_unions children].
    - inversion Ec; subst. split; eauto.
    - inversion Ec as [|? ? A1 F1]; inversion F1; subst. split; eauto.
    - split; eauto. apply Forall_map. rewrite Forall_forall in *. auto.
    - split; eauto. apply Forall_forall. intros x Ix. apply flat_fold_in in Ix as [[]|(f & If & M)].
      apply in_map_iff in If as (y & <- & Iy). rewrite Forall_forall in *.
      eapply every_member; [|exact M]. auto.
  Qed.
  Lemma fine0 : fine PNone [].
  Proof. split; left; reflexivity. Qed.
  Lemma fine_name n : fine PNone [("name", PStr n)].
  Proof. split; [left; reflexivity|right; eauto]. Qed.
  Lemma every_parse : forall h d e t, fine d e -> Q h -> hive_parse d e h = Ok t -> every P t.
  Proof.
    assert (LF : forall t, P t -> children t = [] -> every P t).
    { intros t Pt C. apply every_iff. rewrite C. auto. }
    pose proof fine0 as F0. pose proof fine_name as FN.
    induction h using htype_ind'; intros d' e' t Fi Qh H0.
    - cbn [hive_parse] in H0. eapply every_finish; eauto. apply LF; auto. destruct p; reflexivity.
    - cbn [hive_parse] in H0. destruct (38 <? p)%Z; [discriminate|]. eapply every_finish; eauto.
    - cbn [hive_parse] in H0. eapply every_finish; eauto.
    - cbn [hive_parse] in H0. eapply every_finish; eauto.
    - cbn [hive_parse] in H0. apply QM in Qh as (Q1 & Q2 & PM).
      destruct (hive_parse PNone [] h1) as [k|] eqn:E1; cbn [rbind] in H0; [|discriminate].
      destruct (hive_parse PNone [] h2) as [v|] eqn:E2; cbn [rbind] in H0; [|discriminate].
      eapply every_finish; eauto. apply every_iff. split; auto. cbn [children]. repeat constructor; eauto.
    - cbn [hive_parse] in H0. apply QL in Qh as (Q1 & PL).
      destruct (hive_parse PNone [] h) as [k|] eqn:E1; cbn [rbind] in H0; [|discriminate].
      eapply every_finish; eauto. apply every_iff. split; auto. cbn [children]. repeat constructor; eauto.
    - rewrite parse_union in H0. apply QU in Qh as [Qh PU].
      destruct (parse_all ts) as [us|] eqn:E; cbn [rbind] in H0; [|discriminate].
      eapply every_finish; eauto. apply every_flatten. apply every_iff. split; auto. cbn [children].
      constructor; [apply every_null|]. clear H0. unfold parse_all in E. revert us E.
      induction H as [|x l Hx Hl IH]; intros us E; cbn [rmap] in E; [injection E; intros; subst; constructor|].
      inversion Qh; subst.
      destruct (hive_parse PNone [] x) as [y|] eqn:Ex; cbn [rbind] in E; [|discriminate].
      destruct (rmap (hive_parse PNone []) l) as [r|] eqn:El; cbn [rbind] in E; [|discriminate].
      injection E; intros; subst. constructor; eauto.
    - rewrite parse_struct in H0. apply QS in Qh as [Qh PS].
      destruct (parse_fields ns ts) as [fs|] eqn:E; cbn [rbind] in H0; [|discriminate].
      eapply every_finish; eauto. apply every_iff. split; auto. cbn [children].
      clear H0. revert ns fs E.
      induction H as [|x l Hx Hl IH]; intros [|n ns] us E; cbn [parse_fields] in E;
        try (injection E; intros; subst; constructor).
      inversion Qh; subst.
      destruct (hive_parse PNone [("name", PStr n)] x) as [y|] eqn:Ex; cbn [rbind] in E; [|discriminate].
      destruct (parse_fields ns l) as [r|] eqn:El; cbn [rbind] in E; [|discriminate].
      injection E; intros; subst. constructor; eauto.
    - discriminate.
  Qed.
End EveryNode.

Definition no_collection (t : rtype) : Prop :=
  match t with TList _ _ _ _ | TMap _ _ _ => False | _ => True end.
Lemma nc_parse h d e t : fine d e -> no_collections h -> hive_parse d e h = Ok t -> every no_collection t.
Proof.
  apply every_parse with (Q := no_collections); auto;
    try (intros; exact I); try (cbn; tauto);
    try (intros; match goal with H : no_collections _ |- _ => inversion H; subst end; cbn; auto; fail).
  - intros []; cbn; auto.
  - intros [] ? ? ? ?; exact I.
Qed.
Lemma nc_rewrap : forall t, every no_collection t -> rewrap t = t.
Proof.
  induction t using rtype_ind'; intros E; try reflexivity; apply every_iff in E as [En Ec]; cbn [children rewrap] in *;
    try destruct En; f_equal; rewrite <- map_id; apply map_eq; rewrite Forall_forall in *; auto.
Qed.

(** Without lists and maps the members of the union are those of the parts, unchanged. *)
Theorem union_attrs_kept : forall d e hs c ms us, name_only e -> Forall no_collections hs ->
  hive_parse d e (HUnion hs) = Ok (TUnion c ms) ->
  Forall2 (fun h u => hive_parse PNone [] h = Ok u) hs us ->
  (forall m, In m ms -> m = TNull c0 \/ exists u, In u us /\ In m (members u)) /\
  (forall u x, In u us -> In x (members u) -> exists m, In m ms /\ (x = m \/ rt_eq x m = true)).
Proof.
  intros d e hs c ms us NO NC H F2.
  assert (U : parse_all hs = Ok us).
  { clear -F2. unfold parse_all. induction F2 as [|h u hs us E F IH]; auto. cbn [rmap]. rewrite E, IH. reflexivity. }
  destruct (union_members _ _ _ _ _ _ NO H U) as [Fe ->].
  assert (E : map rewrap us = us).
  { rewrite <- (map_id us) at 2. apply map_eq, Forall_forall. intros u Iu. apply nc_rewrap.
    clear -F2 NC Iu. induction F2 as [|h u' hs us E F IH]; [destruct Iu|]. inversion NC; subst.
    destruct Iu as [<-|Iu]; auto. eapply nc_parse; eauto using fine0. }
  rewrite E. split.
  - intros m Im. apply flat_fold_in in Im as [[<-|[]]|(f & If & M)]; auto. right. eauto.
  - intros u x Iu Ix. now apply flat_fold_has with (f := u).
Qed.

Lemma tagged_rewrap : forall t, every tagged (rewrap t).
Proof.
  induction t using rtype_ind'; apply every_iff; cbn [rewrap children]; (split; [cbn; eauto|]); auto.
  - apply Forall_map. exact H.
  - apply Forall_map. exact H.
Qed.
(** Every list and map below a Hive union gets the stray attribute. *)
Theorem union_attrs_changed : forall d e hs c ms, name_only e ->
  hive_parse d e (HUnion hs) = Ok (TUnion c ms) ->
  forall s, node_of s (TUnion c ms) -> tagged s.
Proof.
  intros d e hs c ms NO H.
  destruct (parse_all hs) as [us|] eqn:U; [|rewrite parse_union, U in H; discriminate].
  destruct (union_members _ _ _ _ _ _ NO H U) as [Fe ->]. fold (every tagged (TUnion c (fold_left flat_add (map rewrap us) [TNull c0]))).
  apply every_iff. split; [exact I|]. cbn [children]. apply Forall_forall. intros m Im.
  apply flat_fold_in in Im as [[<-|[]]|(f & If & M)].
  - apply every_iff. split; [exact I|constructor].
  - apply in_map_iff in If as (u & <- & Iu). eapply every_member; [|exact M]. apply tagged_rewrap.
Qed.
(** A list of its own has no such attribute. *)
Theorem list_alone : forall d e h t, name_only e -> hive_parse d e (HList h) = Ok t ->
  exists c v, t = TUnion c [TNull c0; TList c0 v PNone (PBool true)].
Proof.
  intros d e h t NO H. destruct (hive_main (HList h) d e NO) as [G _]. pose proof (g_reads _ _ _ _ (G t H)) as R.
  inversion R as [|? ? ? L| | | |]; subst; eauto. inversion L; subst.
Qed.
Theorem list_in_union : forall d e hs h t, name_only e -> In (HList h) hs -> hive_parse d e (HUnion hs) = Ok t ->
  exists c ms c' v, t = TUnion c ms /\ In (TList c' v PNone (PBool true)) ms /\ exists x, dget "extra_attrs" (c_extra c') = Some x.
Proof.
  intros d e hs h t NO Ih H. destruct (hive_main (HUnion hs) d e NO) as [G _].
  pose proof (g_reads _ _ _ _ (G t H)) as R. inversion R as [|? ? ? L| | | |? us ms c A M]; subst; [inversion L|].
  assert (X : exists v, In (TList c0 v PNone (PBool true)) (concat (map members us)) ).
  { clear -A Ih. revert us A. induction hs as [|x l IH]; intros us A; [destruct Ih|].
    inversion A as [|? u ? us' R A']; subst. destruct Ih as [->|Ih].
    - inversion R as [|? ? ? L| | | |]; subst; [inversion L|]. exists v. cbn. auto.
    - destruct (IH Ih us' A') as [v I]. exists v. cbn [map concat]. apply in_or_app; auto. }
  destruct X as [v I]. apply in_concat in I as (l & Il & Iv). apply in_map_iff in Il as (u & <- & Iu).
  pose proof M as (_ & _ & _ & M4). destruct (M4 u _ Iu Iv) as (y & m & Im & Ey & Er).
  assert (Y : exists c' v', m = TList c' v' PNone (PBool true)).
  { assert (N : hive_node m) by (apply (g_nodes _ _ _ _ (G _ H)); apply node_child with m; [exact Im|constructor]).
    destruct y; try discriminate Er. destruct Ey as [<-|Ey].
    - cbn in N. destruct N as (_ & -> & ->). eauto.
    - destruct m; try discriminate Ey. cbn in N. destruct N as (_ & -> & ->). eauto. }
  destruct Y as (c' & v' & ->). exists c, ms, c', v'. split; auto. split; auto.
  apply (union_attrs_changed _ _ _ _ _ NO H (TList c' v' PNone (PBool true))).
  apply node_child with (TList c' v' PNone (PBool true)); [exact Im|constructor].
Qed.

(** ** Limits (C70) *)
Lemma column_fine col :
  fine (match hc_comment col with Some (String a r) => PStr (String a r) | _ => PNone end) [("name", PStr (hc_name col))].
Proof. split; [destruct (hc_comment col) as [[]|]; unfold doc_like; eauto|right; eauto]. Qed.
Theorem hive_limits : forall col f, hive_sizes (hc_type col) -> hive_column col = Ok f -> tree_within_limits f.
Proof.
  intros col f Hs H. unfold hive_column in H.
  assert (E : every within_limits f); [|exact E].
  revert H. apply every_parse with (Q := hive_sizes); auto using column_fine.
  - intros t W. now apply limits_set_c.
  - intros; exact I.
  - intros; exact I.
  - intros. left. auto.
  - intros p d e _ _. destruct p; cbn [hive_prim within_limits]; try exact I; try (left; split; reflexivity);
      try (right; apply between_int; lia); apply between_int; lia.
  - intros. right. apply between_int; lia.
  - intros n d e _ S. inversion S; subst. right. apply between_int; lia.
  - intros n d e _ S. inversion S; subst. right. apply between_int; lia.
  - intros hk hv S. inversion S; subst. repeat split; auto.
  - intros h S. inversion S; subst. split; auto. intros. left. auto.
  - intros hs S. inversion S; subst. repeat split; auto.
  - intros ns hs S. inversion S; subst. split; auto. intros; exact I.
Qed.

(** ** Timestamps (C69) *)
Theorem hive_timestamp : forall col f, In (hc_type col) [HPrim HTimestamp; HPrim HTimestampLocalTz] ->
  hive_column col = Ok f ->
  exists c b, f = TUnion c [TNull c0; b] /\ int_holds b (-2^63) (2^63 - 1) /\ ~ int_holds b hive_first_ns hive_last_ns.
Proof.
  intros [n h cm] f I H. cbn [hc_type] in I. unfold hive_column in H. cbn [hc_name hc_type hc_comment] in H.
  set (d := match cm with Some (String a r) => PStr (String a r) | _ => PNone end) in *. clearbody d.
  assert (X : exists c b, f = TUnion c [TNull c0; TInt b (PInt 64) (PBool true)]).
  { destruct I as [<-|[<-|[]]]; cbn [hive_parse hive_prim] in H.
    - destruct (finish_other (TInt (mkC (PStr "build.recap.Timestamp") PNone d ([("unit", PStr "nanosecond"); ("timezone", PStr "UTC")] ++ [("name", PStr n)])) (PInt 64) (PBool true))
       (PStr "build.recap.Timestamp") d [("unit", PStr "nanosecond"); ("timezone", PStr "UTC")] [("name", PStr n)])
       as (r & E & Fr); try reflexivity; [right; eauto|cbn; auto 8|intros; cbn; congruence|].
      rewrite E in H. injection H; intros; subst. rewrite Fr. cbn [set_c]. eauto.
    - destruct (finish_other (TInt (mkC (PStr "build.recap.Timestamp") PNone d ([("unit", PStr "nanosecond"); ("timezone", PNone)] ++ [("name", PStr n)])) (PInt 64) (PBool true))
       (PStr "build.recap.Timestamp") d [("unit", PStr "nanosecond"); ("timezone", PNone)] [("name", PStr n)])
       as (r & E & Fr); try reflexivity; [right; eauto|cbn; auto 8|intros; cbn; congruence|].
      rewrite E in H. injection H; intros; subst. rewrite Fr. cbn [set_c]. eauto. }
  destruct X as (c & b & ->). do 2 eexists. split; [reflexivity|]. split.
  - exists b, 64%Z, true. split; auto. split; [lia|]. intros z Hz. lia.
  - intros (c' & bits & sg & E & _ & Q). injection E; intros; subst bits sg.
    specialize (Q hive_last_ns). assert (L : (hive_first_ns <= hive_last_ns <= hive_last_ns)%Z) by (unfold hive_first_ns, hive_last_ns; lia).
    apply Q in L. destruct L as [_ L]. unfold hive_last_ns in L. lia.
Qed.

(** ** Statistics (C68) *)
Lemma with_stats_extra s k f : extra k (with_stats s f) =
  match dget k (rev (stat_entries s)) with Some v => Some v | None => extra k f end.
Proof. unfold with_stats, extra. rewrite get_set_c. cbn [c_extra]. apply dget_dupd. Qed.
Lemma stat_entries_keys s k v : In (k, v) (stat_entries s) -> In k stat_keys.
Proof.
  destruct s; cbn [stat_entries]; unfold opt_entry; intros I;
    repeat match goal with o : option pyval |- _ => destruct o end;
    cbn in I; cbn; intuition (match goal with E : (_, _) = (_, _) |- _ => injection E; intros; subst; auto end); auto 9.
Qed.
Lemma stat_says_iff s k v : stat_says s k v <-> dget k (rev (stat_entries s)) = Some v.
Proof.
  split.
  - intros H. destruct H; cbn; unfold opt_entry; repeat match goal with o : option pyval |- _ => destruct o end; reflexivity.
  - intros H. apply dget_In in H. rewrite <- in_rev in H.
    destruct s; cbn [stat_entries] in H; unfold opt_entry in H;
    repeat match goal with o : option pyval |- _ => destruct o end;
    cbn in H; repeat destruct H as [H|H]; try contradiction; injection H; intros; subst; constructor.
Qed.

Lemma attributes_refl f : attributes_only f f.
Proof. split; [apply set_get_c|]. auto. Qed.
Lemma attributes_stats s f : attributes_only f (with_stats s f).
Proof.
  unfold with_stats. split; [rewrite set_set_c; apply set_get_c|]. rewrite get_set_c. cbn. repeat split; auto.
  intros k N. fold (with_stats s f). rewrite with_stats_extra.
  destruct (dget k (rev (stat_entries s))) as [v|] eqn:E; auto.
  apply dget_In in E. rewrite <- in_rev in E. apply stat_entries_keys in E. contradiction.
Qed.
Lemma attributes_trans a b c : attributes_only a b -> attributes_only b c -> attributes_only a c.
Proof.
  intros (A1 & A2 & A3 & A4 & A5) (B1 & B2 & B3 & B4 & B5). split.
  - rewrite <- A1 at 2. rewrite <- B1. now rewrite set_set_c.
  - repeat split; try congruence. intros k N. rewrite B5, A5; auto.
Qed.
Lemma has_name_iff n f : (exists m, named m f) -> has_name n f = true <-> named n f.
Proof.
  intros [m H]. unfold has_name, named, extra in *. rewrite H. cbn. rewrite String.eqb_eq. split; congruence.
Qed.

(** One column's statistics go to the field of that name and to no other. *)
Lemma stat_column_spec n s : forall fs ns, Forall2 named ns fs -> NoDup ns ->
  (In n ns -> exists fs', stat_column n s fs = Ok fs' /\
      Forall2 (fun f f' => (named n f -> f' = with_stats s f) /\ (~ named n f -> f' = f)) fs fs') /\
  (~ In n ns -> stat_column n s fs = Err KeyError).
Proof.
  intros fs ns F. induction F as [|m f ns fs Nm F IH]; intros ND; cbn [stat_column].
  - split; [intros []|auto].
  - inversion ND as [|? ? NI ND']; subst. destruct (IH ND') as [A B].
    assert (HN : has_name n f = true <-> named n f) by (apply has_name_iff; eauto).
    assert (UN : forall a b g, named a g -> named b g -> a = b) by (unfold named; intros; congruence).
    assert (REST : forall x, ~ In x ns -> Forall2 (fun f f' => (named x f -> f' = with_stats s f) /\ (~ named x f -> f' = f)) fs fs).
    { clear -F UN. intros x. induction F as [|m f ns fs Nm F IH]; intros N; constructor.
      - split; auto. intros X. exfalso. apply N. cbn. left. eapply UN; eauto.
      - apply IH. intros I. apply N. cbn; auto. }
    split.
    + intros [->|I].
      * rewrite (B NI). assert (T : has_name n f = true) by (apply HN; exact Nm). rewrite T.
        eexists. split; [reflexivity|]. constructor; [split; [auto|intros X; contradiction]|]. auto.
      * destruct (A I) as (fs' & E & F2). rewrite E. eexists. split; [reflexivity|]. constructor; auto.
        split; auto. intros X. exfalso. apply NI. now rewrite (UN _ _ _ Nm X).
    + intros N. rewrite B by (intros I; apply N; cbn; auto).
      destruct (has_name n f) eqn:E; auto. pose proof (proj1 HN eq_refl) as E'. exfalso. apply N. cbn. left. eapply UN; eauto.
Qed.
Lemma named_keep n f f' : attributes_only f f' -> named n f -> named n f'.
Proof.
  intros (_ & _ & _ & _ & A) N. unfold named in *. rewrite A; auto. cbn. intuition discriminate.
Qed.

Theorem load_stats_spec : forall l fs ns, Forall2 named ns fs -> NoDup ns ->
  (forall fs', load_stats l fs = Ok fs' ->
     length fs' = length fs /\
     forall i n f f', nth_error ns i = Some n -> nth_error fs i = Some f -> nth_error fs' i = Some f' -> stats_loaded l n f f') /\
  ((exists fs', load_stats l fs = Ok fs') <-> forall n, mentions n l -> In n ns).
Proof.
  induction l as [|[n [s|]] l IH]; intros fs ns F ND; cbn [load_stats].
  - split.
    + intros fs' H. injection H; intros; subst. split; auto. intros i n f f' _ E1 E2.
      rewrite E1 in E2. injection E2; intros; subst. split; [apply attributes_refl|auto|].
      intros l1 s l2 k v E. destruct l1; discriminate.
    + split; [|eauto]. intros _ n [s []].
  - destruct (stat_column_spec n s fs ns F ND) as [A B].
    destruct (in_dec string_dec n ns) as [I|I].
    + destruct (A I) as (fs1 & E & F1). rewrite E. cbn [rbind].
      assert (F' : Forall2 named ns fs1).
      { clear -F F1. revert fs1 F1. induction F as [|m f ns fs Nm F IH]; intros fs1 F1; inversion F1 as [|? f1 ? ? [P1 P2] F2]; subst; constructor; auto.
        destruct (string_dec m n) as [->|D].
        - rewrite P1 by exact Nm. eapply named_keep; [apply attributes_stats|exact Nm].
        - rewrite P2; auto. unfold named in *. congruence. }
      assert (LEN : length fs1 = length fs) by (clear -F1; induction F1; cbn; congruence).
      destruct (IH fs1 ns F' ND) as [C D]. split.
      * intros fs' H. destruct (C fs' H) as [L P]. split; [congruence|]. intros i m f f' Ei Ef Ef'.
        assert (X : exists f1, nth_error fs1 i = Some f1 /\ (named n f -> f1 = with_stats s f) /\ (~ named n f -> f1 = f)).
        { clear -F1 Ef. revert i Ef. induction F1 as [|a b l l' R F IH]; intros [|i] Ef; cbn in *; try discriminate.
          - injection Ef; intros; subst. eauto.
          - auto. }
        destruct X as (f1 & E1 & P1 & P2). destruct (P i m f1 f' Ei E1 Ef') as [Q1 Q2 Q3].
        assert (Nf : named m f).
        { clear -F Ei Ef. revert i Ei Ef. induction F; intros [|i] Ei Ef; cbn in *; try discriminate; eauto. congruence. }
        destruct (string_dec m n) as [->|Dn].
        -- rewrite P1 in * by exact Nf. split.
           ++ eapply attributes_trans; [apply attributes_stats|exact Q1].
           ++ intros N. exfalso. apply N. exists s. cbn; auto.
           ++ intros l1 s' l2 k v El Nl Say. destruct l1 as [|x l1]; cbn in El; injection El; intros; subst.
              ** rewrite (Q2 Nl), with_stats_extra. apply stat_says_iff in Say. now rewrite Say.
              ** eapply Q3; eauto.
        -- assert (Nn : ~ named n f) by (unfold named in *; congruence). rewrite P2 in * by exact Nn. split; auto.
           ++ intros N. apply Q2. intros [s' I']. apply N. exists s'. cbn; auto.
           ++ intros l1 s' l2 k v El Nl Say. destruct l1 as [|x l1]; cbn in El; injection El; intros; subst; [congruence|].
              eapply Q3; eauto.
      * rewrite D. split.
        -- intros H m [s' [X|X]]; [injection X; intros; subst; auto|]. apply H. exists s'. auto.
        -- intros H m [s' X]. apply H. exists s'. cbn; auto.
    + rewrite (B I). cbn [rbind]. split; [discriminate|]. split; [intros [? X]; discriminate|].
      intros H. exfalso. apply I, H. exists s. cbn; auto.
  - destruct (IH fs ns F ND) as [C D].
    assert (M : forall m, mentions m ((n, None) :: l) <-> mentions m l).
    { intros m. split; intros [s X]; exists s; cbn in *; [destruct X as [X|X]; [discriminate|auto]|auto]. }
    split.
    + intros fs' H. destruct (C fs' H) as [L P]. split; auto. intros i m f f' Ei Ef Ef'.
      destruct (P i m f f' Ei Ef Ef') as [Q1 Q2 Q3]. split; auto.
      * intros N. apply Q2. now rewrite <- M.
      * intros l1 s l2 k v El. destruct l1 as [|x l1]; cbn in El; injection El; intros; subst; [discriminate|].
        eapply Q3; eauto.
    + rewrite D. split; intros H m X; apply H; now apply M.
Qed.
