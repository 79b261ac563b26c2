(** Facts about from_dict: inversion, termination, registry effect, round trip (proofs only). *)
From Coq Require Import String Ascii List ZArith QArith Bool Lia.
From Verif Require Import PyVal PyValFacts RType Registry FromDict ToDict.
Import ListNotations.
Open Scope nat_scope.
Open Scope string_scope.
Open Scope list_scope.

(** ** Monad facts *)
Lemma mbind_Ok {A B} (m : M A) (f : A -> M B) R R' b :
  mbind m f R = (R', Ok b) <-> exists R1 a, m R = (R1, Ok a) /\ f a R1 = (R', Ok b).
Proof.
  unfold mbind. destruct (m R) as [R1 [a|e]]; split.
  - eauto.
  - intros (? & ? & [= <- <-] & H). exact H.
  - discriminate.
  - intros (? & ? & [=] & _).
Qed.

Lemma lift_Ok {A} (r : res A) R R' a : lift r R = (R', Ok a) <-> R' = R /\ r = Ok a.
Proof. unfold lift. split; [intros [= <- <-]|intros [-> ->]]; auto. Qed.

Lemma ret_Ok {A} (x : A) R R' a : ret x R = (R', Ok a) <-> R' = R /\ a = x.
Proof. unfold ret. split; [intros [= <- <-]|intros [-> ->]]; auto. Qed.

Lemma mmap_Ok_cons {A B} (f : A -> M B) x l R R' ys :
  mmap f (x :: l) R = (R', Ok ys) <->
  exists R1 y ys', f x R = (R1, Ok y) /\ mmap f l R1 = (R', Ok ys') /\ ys = y :: ys'.
Proof.
  simpl. rewrite mbind_Ok. split.
  - intros (R1 & y & H1 & H2). apply mbind_Ok in H2 as (R2 & ys' & H2 & H3).
    apply ret_Ok in H3 as [-> ->]. exists R1, y, ys'. auto.
  - intros (R1 & y & ys' & H1 & H2 & ->). exists R1, y. split; auto.
    apply mbind_Ok. exists R', ys'. split; auto.
Qed.

Lemma mmap_nil_Ok {A B} (f : A -> M B) R R' ys :
  mmap f [] R = (R', Ok ys) <-> R' = R /\ ys = [].
Proof. simpl. apply ret_Ok. Qed.

Lemma mmap_length {A B} (f : A -> M B) l : forall R R' ys,
  mmap f l R = (R', Ok ys) -> length ys = length l.
Proof.
  induction l as [|x l IH]; intros R R' ys H.
  - apply mmap_nil_Ok in H as [_ ->]. auto.
  - apply mmap_Ok_cons in H as (R1 & y & ys' & _ & H & ->). simpl. f_equal. eauto.
Qed.

Lemma mmap_ext {A B} (f g : A -> M B) l R :
  (forall x R, In x l -> f x R = g x R) -> mmap f l R = mmap g l R.
Proof.
  revert R. induction l as [|x l IH]; intros R H; auto.
  simpl. unfold mbind. rewrite (H x R) by (now left).
  destruct (g x R) as [R1 [y|e]]; auto.
  rewrite IH; auto. intros. apply H. now right.
Qed.

(** ** Inversion of a successful construction *)
Definition is_doc (t : pyval) : bool :=
  match t with PDict _ | PStr _ => true | _ => false end.

Definition type_words : list string :=
  ["null"; "bool"; "int"; "float"; "string"; "bytes"; "list"; "map"; "struct"; "enum"; "union"].

Definition tn (d : list (string * pyval)) (s : string) : Prop := dget "type" d = Some (PStr s).

Inductive built (rec : pyval -> M rtype) (d : list (string * pyval))
  : registry -> registry -> rtype -> Prop :=
| b_tlist R R' l ts c :
    dget "type" d = Some (PList l) ->
    mmap rec (filter is_doc l) R = (R', Ok ts) ->
    bind_common ["types"] (ddel "type" d) = Ok c ->
    built rec d R R' (TUnion c ts)
| b_null R c : tn d "null" -> bind_common [] (ddel "type" d) = Ok c -> built rec d R R (TNull c)
| b_bool R c : tn d "bool" -> bind_common [] (ddel "type" d) = Ok c -> built rec d R R (TBool c)
| b_int R c b : tn d "int" -> dget "bits" (ddel "type" d) = Some b ->
    bind_common [] (ddel "signed" (ddel "bits" (ddel "type" d))) = Ok c ->
    built rec d R R (TInt c b (kwarg "signed" (PBool true) (ddel "type" d)))
| b_float R c b : tn d "float" -> dget "bits" (ddel "type" d) = Some b ->
    bind_common [] (ddel "bits" (ddel "type" d)) = Ok c ->
    built rec d R R (TFloat c b)
| b_string R c : tn d "string" ->
    bind_common [] (ddel "variable" (ddel "bytes_" (rename_bytes (ddel "type" d)))) = Ok c ->
    built rec d R R (TString c (kwarg "bytes_" PNone (rename_bytes (ddel "type" d)))
                       (kwarg "variable" (PBool true) (rename_bytes (ddel "type" d))))
| b_bytes R c : tn d "bytes" ->
    bind_common [] (ddel "variable" (ddel "bytes_" (rename_bytes (ddel "type" d)))) = Ok c ->
    built rec d R R (TBytes c (kwarg "bytes_" PNone (rename_bytes (ddel "type" d)))
                       (kwarg "variable" (PBool true) (rename_bytes (ddel "type" d))))
| b_list R R' c v t : tn d "list" -> dget "values" (ddel "type" d) = Some v ->
    rec v R = (R', Ok t) ->
    bind_common [] (ddel "variable" (ddel "length" (ddel "values" (ddel "type" d)))) = Ok c ->
    built rec d R R' (TList c t (kwarg "length" PNone (ddel "values" (ddel "type" d)))
                        (kwarg "variable" (PBool true) (ddel "values" (ddel "type" d))))
| b_map R R1 R' c k v tk tv : tn d "map" ->
    dget "keys" (ddel "type" d) = Some k -> dget "values" (ddel "type" d) = Some v ->
    rec k R = (R1, Ok tk) -> rec v R1 = (R', Ok tv) ->
    bind_common [] (ddel "values" (ddel "keys" (ddel "type" d))) = Ok c ->
    built rec d R R' (TMap c tk tv)
| b_struct R R' c l fs : tn d "struct" ->
    py_iter (kwarg "fields" (PList []) (ddel "type" d)) = Ok l ->
    mmap rec l R = (R', Ok fs) ->
    bind_common [] (ddel "fields" (ddel "type" d)) = Ok c ->
    built rec d R R' (TStruct c fs)
| b_enum R c s : tn d "enum" -> dget "symbols" (ddel "type" d) = Some s ->
    bind_common [] (ddel "symbols" (ddel "type" d)) = Ok c ->
    built rec d R R (TEnum c s)
| b_union R R' c v l ts : tn d "union" -> dget "types" (ddel "type" d) = Some v ->
    py_iter v = Ok l -> mmap rec l R = (R', Ok ts) ->
    bind_common [] (ddel "types" (ddel "type" d)) = Ok c ->
    built rec d R R' (TUnion c ts)
| b_proxy R c nm : tn d nm -> ~ In nm type_words ->
    bind_common ["alias"; "registry"] (ddel "type" d) = Ok c ->
    built rec d R R (TProxy (mkC (c_logical c) (PStr nm) (c_doc c) (c_extra c)) None).

Ltac minv :=
  repeat match goal with
  | H : mbind _ _ _ = (_, Ok _) |- _ => apply mbind_Ok in H as (? & ? & ? & ?)
  | H : lift _ _ = (_, Ok _) |- _ => apply lift_Ok in H as [? ?]
  | H : ret _ _ = (_, Ok _) |- _ => apply ret_Ok in H as [? ?]
  | H : fail _ _ = (_, Ok _) |- _ => discriminate H
  end; subst.

Lemma build_inv rec d R R' t : build rec d R = (R', Ok t) <-> built rec d R R' t.
Proof.
  split.
  - unfold build. destruct (dget "type" d) as [[| | | |nm|l|]|] eqn:ET; try discriminate.
    + repeat match goal with
        | |- (if String.eqb ?a ?b then _ else _) _ = _ -> _ =>
            destruct (String.eqb_spec a b); [subst|]
        | |- (match ?x with _ => _ end) _ = _ -> _ => destruct x eqn:?
        end; intros H; minv; try discriminate;
        first [ solve [econstructor; eauto] | solve [eapply b_union; eauto] | idtac ].
      apply b_proxy; auto. intros Hin. repeat (destruct Hin as [<-|Hin]; [congruence|]). exact Hin.
    + intros H; minv. eapply b_tlist; eauto.
  - intros H. destruct H; unfold build, tn in *;
      repeat match goal with H : dget "type" d = _ |- _ => rewrite H end;
      simpl; unfold mbind, lift, ret;
      repeat match goal with
        | H : _ = Some _ |- _ => rewrite H
        | H : _ = Ok _ |- _ => rewrite H
        | H : _ = (_, Ok _) |- _ => rewrite H
        end; auto.
    + change (fun t : pyval => match t with PStr _ | PDict _ => true | _ => false end) with is_doc.
      rewrite H0. auto.
    + assert (N : forall w, In w type_words -> String.eqb nm w = false).
      { intros w Hw. apply eqb_neq_s. intros ->. auto. }
      rewrite !N by (simpl; tauto). auto.
Qed.

(** ** Fuel *)
Definition kids_ok (P : pyval -> Prop) (d : list (string * pyval)) : Prop :=
  (forall l x, dget "type" d = Some (PList l) -> In x l -> P x) /\
  (tn d "list" -> forall v, dget "values" d = Some v -> P v) /\
  (tn d "map" -> forall v, dget "keys" d = Some v -> P v) /\
  (tn d "map" -> forall v, dget "values" d = Some v -> P v) /\
  (tn d "struct" -> forall v l x, dget "fields" d = Some v -> py_iter v = Ok l -> In x l -> P x) /\
  (tn d "union" -> forall v l x, dget "types" d = Some v -> py_iter v = Ok l -> In x l -> P x).

Lemma build_ext rec1 rec2 d R :
  kids_ok (fun x => forall R, rec1 x R = rec2 x R) d -> build rec1 d R = build rec2 d R.
Proof.
  intros (HT & HL & HK & HV & HF & HU). unfold build, tn in *.
  destruct (dget "type" d) as [[| | | |nm|l|]|] eqn:ET; auto.
  - repeat match goal with
      | |- (if String.eqb ?a ?b then _ else _) _ = _ =>
          destruct (String.eqb_spec a b); [subst|]
      end; auto.
    + rewrite !dget_ddel. simpl. destruct (dget "values" d) eqn:E; auto.
      unfold mbind. now rewrite HL by auto.
    + rewrite !dget_ddel. simpl.
      destruct (dget "keys" d) eqn:E; auto. destruct (dget "values" d) eqn:E2; auto.
      unfold mbind. rewrite HK by auto. destruct (rec2 p R) as [R1 [?|?]]; auto.
      now rewrite HV by auto.
    + unfold mbind, lift. destruct (py_iter (kwarg "fields" (PList []) (ddel "type" d))) eqn:E; auto.
      rewrite (mmap_ext rec1 rec2); auto. intros x R' Hx.
      unfold kwarg in E. rewrite dget_ddel in E. simpl in E.
      destruct (dget "fields" d) eqn:E2.
      * eapply HF; eauto.
      * simpl in E. injection E as <-. destruct Hx.
    + rewrite !dget_ddel. simpl. destruct (dget "types" d) eqn:E; auto.
      unfold mbind, lift. destruct (py_iter p) eqn:E2; auto.
      rewrite (mmap_ext rec1 rec2); auto. intros x R' Hx. eapply HU; eauto.
  - unfold mbind. rewrite (mmap_ext rec1 rec2); auto.
    intros x R' Hx. apply filter_In in Hx as [Hx _]. eapply HT; eauto.
Qed.

Lemma py_iter_size v l x : py_iter v = Ok l -> In x l -> psize x <= psize v.
Proof.
  destruct v; simpl; try discriminate; intros [= <-] H.
  - apply in_map_iff in H as (? & <- & _). auto.
  - change (psize x <= psize (PList l0)). rewrite psize_list. apply lsize_In in H. lia.
  - apply in_map_iff in H as (? & <- & _). simpl. lia.
Qed.

Lemma kids_size_plain d : kids_ok (fun x => psize x < S (dsize d)) d.
Proof.
  repeat split; intros.
  - apply dsize_dget in H. rewrite psize_list in H. apply lsize_In in H0. lia.
  - apply dsize_dget in H0. lia.
  - apply dsize_dget in H0. lia.
  - apply dsize_dget in H0. lia.
  - apply dsize_dget in H0. pose proof (py_iter_size _ _ _ H1 H2). lia.
  - apply dsize_dget in H0. pose proof (py_iter_size _ _ _ H1 H2). lia.
Qed.

Lemma kids_ok_impl (P Q : pyval -> Prop) d :
  (forall x, P x -> Q x) -> kids_ok P d -> kids_ok Q d.
Proof.
  intros I (H1 & H2 & H3 & H4 & H5 & H6).
  repeat split; intros; apply I; eauto.
Qed.

(** Shape of a desugared document. *)
Lemma desugar_inv d d' : desugar d = Ok d' ->
  (match dget "optional" d with Some v => truthy v | None => false end = false /\ d' = ddel "optional" d)
  \/ (exists v nm df e,
        dget "optional" d = Some v /\ truthy v = true /\
        nm = kwarg "name" PNone d /\ df = kwarg "default" PNone d /\
        let d2 := ddel "default" (ddel "name" (ddel "optional" d)) in
        d' = dset "default" df (if is_none nm then e else dset "name" nm e) /\
        ((kwarg "type" PNone d <> PStr "union" /\
          e = [("type", PStr "union"); ("types", PList [PStr "null"; PDict d2])])
         \/ (kwarg "type" PNone d = PStr "union" /\
             exists tys, dget "types" d = Some tys /\
               ((py_str_in "null" tys = Ok true /\ e = d2)
                \/ (exists l, tys = PList l /\ py_str_in "null" tys = Ok false /\
                      e = dset "types" (PList (PStr "null" :: l)) d2))))).
Proof.
  unfold desugar. intros H.
  destruct (dget "optional" d) as [v|] eqn:EO; [destruct (truthy v) eqn:ET|]; simpl in H.
  - right.
    assert (KN : kwarg "name" PNone (ddel "optional" d) = kwarg "name" PNone d)
      by (unfold kwarg; rewrite dget_ddel; reflexivity).
    assert (KD : kwarg "default" PNone (ddel "optional" d) = kwarg "default" PNone d)
      by (unfold kwarg; rewrite dget_ddel; reflexivity).
    assert (KT : kwarg "type" PNone (ddel "default" (ddel "name" (ddel "optional" d)))
                 = kwarg "type" PNone d)
      by (unfold kwarg; rewrite !dget_ddel; reflexivity).
    rewrite KN, KD, KT in H.
    exists v, (kwarg "name" PNone d), (kwarg "default" PNone d).
    set (d2 := ddel "default" (ddel "name" (ddel "optional" d))) in *.
    destruct (py_eq (kwarg "type" PNone d) (PStr "union")) eqn:EU.
    + apply py_eq_str_inv in EU.
      assert (TD : dget "types" d2 = dget "types" d)
        by (unfold d2; rewrite !dget_ddel; reflexivity).
      rewrite TD in H. destruct (dget "types" d) as [tys|] eqn:ETy; [|discriminate].
      apply rbind_Ok in H as (has & H1 & H2). destruct has.
      * simpl in H2. injection H2 as <-. exists d2.
        repeat split; auto. right. split; auto. exists tys. split; auto.
      * apply rbind_Ok in H2 as (e & H2 & H3). destruct tys; try discriminate.
        injection H2 as <-. injection H3 as <-.
        exists (dset "types" (PList (PStr "null" :: l)) d2).
        repeat split; auto. right. split; auto. exists (PList l). split; auto.
        right. exists l. auto.
    + simpl in H. injection H as <-.
      exists [("type", PStr "union"); ("types", PList [PStr "null"; PDict d2])].
      repeat split; auto. left. split; auto.
      intros E. rewrite E in EU. discriminate.
  - left. injection H as <-. auto.
  - left. injection H as <-. auto.
Qed.

Lemma desugar_kids d d' : desugar d = Ok d' -> kids_ok (fun x => psize x < S (dsize d)) d'.
Proof.
  intros H. apply desugar_inv in H as [[_ ->]|(v & nm & df & e & EO & ET & _ & _ & H)].
  - eapply kids_ok_impl; [|apply kids_size_plain]. intros x Hx. simpl in Hx.
    pose proof (dsize_ddel "optional" d). lia.
  - simpl in H. destruct H as [-> H].
    set (d2 := ddel "default" (ddel "name" (ddel "optional" d))) in *.
    assert (S2 : S (dsize d2) < dsize d).
    { pose proof (dsize_ddel_lt _ _ _ EO). pose proof (psize_pos v).
      pose proof (dsize_ddel "default" (ddel "name" (ddel "optional" d))).
      pose proof (dsize_ddel "name" (ddel "optional" d)). fold d2 in H2. lia. }
    assert (G : forall k, k <> "name" -> k <> "default" ->
              dget k (dset "default" df (if is_none nm then e else dset "name" nm e)) = dget k e).
    { intros k n1 n2. rewrite dget_dset, eqb_neq_s by auto.
      destruct (is_none nm); auto. rewrite dget_dset, eqb_neq_s by auto. auto. }
    destruct H as [[_ ->]|[EU (tys & Etys & H)]].
    + unfold kids_ok, tn. rewrite !G by discriminate. simpl.
      repeat split; intros; try discriminate.
      injection H0 as <-. injection H1 as <-. destruct H2 as [<-|[<-|[]]].
      * simpl; lia.
      * rewrite psize_dict. lia.
    + assert (TD : dget "type" d2 = Some (PStr "union")).
      { unfold d2. rewrite !dget_ddel. simpl. unfold kwarg in EU.
        destruct (dget "type" d); congruence. }
      assert (YD : dget "types" d2 = Some tys) by (unfold d2; rewrite !dget_ddel; auto).
      assert (T : dget "type" e = Some (PStr "union")).
      { destruct H as [[_ ->]|(l & _ & _ & ->)]; auto. now rewrite dget_dset. }
      pose proof (dsize_dget _ _ _ Etys) as ST.
      unfold kids_ok, tn. rewrite !G by discriminate. rewrite T.
      repeat split; intros; try discriminate.
      destruct H as [[_ ->]|(l' & -> & _ & ->)].
      * rewrite YD in H1. injection H1 as <-.
        pose proof (py_iter_size _ _ _ H2 H3). lia.
      * rewrite dget_dset in H1. simpl in H1. injection H1 as <-.
        simpl in H2. injection H2 as <-. destruct H3 as [<-|H3]; [simpl; lia|].
        apply lsize_In in H3. rewrite psize_list in ST. lia.
Qed.

Lemma desugar_noopt d : dget "optional" d = None -> desugar d = Ok d.
Proof.
  intros H. unfold desugar. rewrite H. simpl. f_equal. apply ddel_notin. now apply dget_None.
Qed.



Lemma doc_kids j d d' : to_type_dict j = Ok d -> desugar d = Ok d' ->
  kids_ok (fun x => psize x < psize j) d'.
Proof.
  intros H1 H2. destruct j; simpl in H1; try discriminate; injection H1 as <-.
  - injection H2 as <-. unfold kids_ok, tn. simpl. repeat split; intros; discriminate || congruence.
  - injection H2 as <-. unfold kids_ok, tn. cbn [dget String.eqb Ascii.eqb Bool.eqb].
    repeat split; intros; try discriminate. injection H0 as <-. injection H1 as <-.
    rewrite psize_list. apply lsize_In in H2. lia.
  - rewrite psize_dict. now apply desugar_kids.
Qed.

Lemma from_dict_f_fuel : forall n m j R,
  psize j <= n -> psize j <= m -> from_dict_f n j R = from_dict_f m j R.
Proof.
  induction n as [|n IH]; intros m j R Hn Hm.
  - pose proof (psize_pos j). lia.
  - destruct m as [|m]; [pose proof (psize_pos j); lia|]. simpl.
    unfold mbind, lift. destruct (to_type_dict j) as [d|] eqn:E1; auto.
    destruct (is_none (kwarg "type" PNone d)); auto.
    destruct (desugar d) as [d'|] eqn:E2; auto.
    rewrite (build_ext (from_dict_f n) (from_dict_f m)); auto.
    eapply kids_ok_impl; [|eapply doc_kids; eauto].
    intros x Hx R'. simpl in Hx. apply IH; lia.
Qed.

Lemma from_dict_unfold j R :
  from_dict j R =
  (d <- lift (to_type_dict j) ;;
   if is_none (kwarg "type" PNone d) then fail AssertionError
   else
     d' <- lift (desugar d) ;;
     t <- build from_dict d' ;;
     finish t)%mon R.
Proof.
  unfold from_dict at 1. destruct (psize j) as [|n] eqn:E; [pose proof (psize_pos j); lia|].
  simpl. unfold mbind, lift. destruct (to_type_dict j) as [d|] eqn:E1; auto.
  destruct (is_none (kwarg "type" PNone d)); auto.
  destruct (desugar d) as [d'|] eqn:E2; auto.
  rewrite (build_ext (from_dict_f n) from_dict); auto.
  eapply kids_ok_impl; [|eapply doc_kids; eauto].
  intros x Hx R'. simpl in Hx. unfold from_dict. apply from_dict_f_fuel; lia.
Qed.
