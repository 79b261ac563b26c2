(** Hive conversion (proofs only). *)
From Coq Require Import String Ascii List NArith ZArith QArith Bool Lia.
From Verif Require Import PyVal PyValFacts RType FromDict Nullable NullableFacts SpecTypes
  SpecDb DbapiFacts BigQueryFacts DbRanges Hive SpecHive.
Import ListNotations.
Open Scope nat_scope.
Open Scope string_scope.
Open Scope list_scope.

Section HtypeInd.
  Variable P : htype -> Prop.
  Hypothesis HP : forall p, P (HPrim p).
  Hypothesis HD : forall p s, P (HDecimal p s).
  Hypothesis HV : forall n, P (HVarchar n).
  Hypothesis HC : forall n, P (HChar n).
  Hypothesis HM : forall k v, P k -> P v -> P (HMap k v).
  Hypothesis HL : forall x, P x -> P (HList x).
  Hypothesis HU : forall ts, Forall P ts -> P (HUnion ts).
  Hypothesis HS : forall ns ts, Forall P ts -> P (HStruct ns ts).
  Hypothesis HO : P HOther.
  Fixpoint htype_ind' (h : htype) : P h :=
    let go := (fix go (l : list htype) : Forall P l :=
      match l with [] => Forall_nil P | x :: r => Forall_cons x (htype_ind' x) (go r) end) in
    match h with
    | HPrim p => HP p | HDecimal p s => HD p s | HVarchar n => HV n | HChar n => HC n
    | HMap k v => HM k v (htype_ind' k) (htype_ind' v)
    | HList x => HL x (htype_ind' x)
    | HUnion ts => HU ts (go ts)
    | HStruct ns ts => HS ns ts (go ts)
    | HOther => HO
    end.
End HtypeInd.

(** ** The loop over union members *)
Lemma distinct_nil : distinct_members [].
Proof. intros i j a b _ H. destruct i; discriminate. Qed.
Lemma distinct_app l m : distinct_members (l ++ m) <->
  distinct_members l /\ distinct_members m /\ forall a b, In a l -> In b m -> rt_eq b a = false.
Proof.
  split.
  - intros H. split; [|split].
    + intros i j a b L E1 E2. apply (H i j a b L).
      * rewrite nth_error_app1; auto. apply nth_error_Some. congruence.
      * rewrite nth_error_app1; auto. apply nth_error_Some. congruence.
    + intros i j a b L E1 E2. apply (H (length l + i) (length l + j) a b); [lia| |];
        (rewrite nth_error_app2 by lia); (replace (length l + _ - length l) with i by lia) ||
          (replace (length l + _ - length l) with j by lia); auto.
    + intros a b Ia Ib. apply In_nth_error in Ia as [i Ei], Ib as [j Ej].
      apply (H i (length l + j) a b).
      * assert (i < length l) by (apply nth_error_Some; congruence). lia.
      * rewrite nth_error_app1; auto. apply nth_error_Some. congruence.
      * rewrite nth_error_app2 by lia. replace (length l + j - length l) with j by lia. auto.
  - intros (A & B & C) i j a b L E1 E2.
    destruct (Nat.lt_ge_cases j (length l)).
    + rewrite nth_error_app1 in E1, E2 by lia. eauto.
    + rewrite nth_error_app2 in E2 by lia. destruct (Nat.lt_ge_cases i (length l)).
      * rewrite nth_error_app1 in E1 by lia. apply C; eapply nth_error_In; eauto.
      * rewrite nth_error_app2 in E1 by lia. eapply (B (i - length l) (j - length l)); eauto. lia.
Qed.
Lemma distinct_one a : distinct_members [a].
Proof. intros i j x y L E1 E2. destruct j; [lia|]. destruct j; discriminate. Qed.
Lemma distinct_cons a l : distinct_members (a :: l) <->
  distinct_members l /\ forall b, In b l -> rt_eq b a = false.
Proof.
  change (a :: l) with ([a] ++ l). rewrite distinct_app. split.
  - intros (_ & A & B). split; auto. intros b I. apply B; cbn; auto.
  - intros (A & B). split; [apply distinct_one|]. split; auto.
    intros x b [<-|[]] Ib. auto.
Qed.
Lemma distinct_filter f l : distinct_members l -> distinct_members (filter f l).
Proof.
  induction l as [|x l IH]; auto. rewrite distinct_cons. intros [A B]. cbn [filter].
  destruct (f x); auto. apply distinct_cons. split; auto.
  intros b I. apply filter_In in I as [I _]. auto.
Qed.
Lemma rt_in_false x l : rt_in x l = false -> forall y, In y l -> rt_eq x y = false.
Proof.
  intros H y I. destruct (rt_eq x y) eqn:E; auto. exfalso.
  assert (rt_in x l = true) by (apply existsb_exists; eauto). congruence.
Qed.
Lemma rt_in_true x l : rt_in x l = true -> exists y, In y l /\ rt_eq x y = true.
Proof. intros H. apply existsb_exists in H. exact H. Qed.

Definition union_free (l : list rtype) : Prop := forall c ts, ~ In (TUnion c ts) l.
Definition flat_node (t : rtype) : Prop :=
  match t with TUnion _ ts => union_free ts /\ distinct_members ts | _ => True end.

Lemma flat_add_spec acc f : flat_node f -> union_free acc -> distinct_members acc ->
  union_free (flat_add acc f) /\ distinct_members (flat_add acc f).
Proof.
  intros Ff U D.
  assert (S1 : forall l, union_free l -> distinct_members l -> (forall b, In b l -> rt_in b acc = false) ->
      union_free (acc ++ l) /\ distinct_members (acc ++ l)).
  { intros l Ul Dl N. split.
    - intros c ts I. apply in_app_or in I as [I|I]; [eapply U|eapply Ul]; eauto.
    - apply distinct_app. split; auto. split; auto. intros a b Ia Ib.
      eapply rt_in_false; eauto. }
  assert (S2 : (forall c ts, f <> TUnion c ts) -> union_free (if rt_in f acc then acc else acc ++ [f])
     /\ distinct_members (if rt_in f acc then acc else acc ++ [f])).
  { intros N. destruct (rt_in f acc) eqn:E; auto. apply S1.
    - intros c ts [I|[]]. eapply N; eauto.
    - apply distinct_one.
    - intros b [<-|[]]. auto. }
  destruct f; try (apply S2; congruence). cbn [flat_add]. destruct Ff as [Uf Df]. apply S1.
  - intros c' ts I. apply filter_In in I as [I _]. eapply Uf; eauto.
  - now apply distinct_filter.
  - intros b I. apply filter_In in I as [_ I]. now apply negb_true_iff in I.
Qed.
Lemma flat_fold l : Forall flat_node l -> forall acc, union_free acc -> distinct_members acc ->
  union_free (fold_left flat_add l acc) /\ distinct_members (fold_left flat_add l acc).
Proof.
  induction 1 as [|f l Ff Fl IH]; intros acc U D; cbn [fold_left]; auto.
  destruct (flat_add_spec acc f Ff U D). now apply IH.
Qed.
Lemma flat_add_in acc f x : In x (flat_add acc f) -> In x acc \/ In x (members f).
Proof.
  assert (S : In x (if rt_in f acc then acc else acc ++ [f]) -> In x acc \/ f = x).
  { destruct (rt_in f acc); auto. intros I. apply in_app_or in I as [I|[I|[]]]; auto. }
  destruct f; cbn [flat_add members]; intros I; try (apply S in I; cbn; tauto).
  apply in_app_or in I as [I|I]; auto. apply filter_In in I as [I _]. auto.
Qed.
Lemma flat_fold_in l x : forall acc, In x (fold_left flat_add l acc) ->
  In x acc \/ exists f, In f l /\ In x (members f).
Proof.
  induction l as [|f l IH]; intros acc I; cbn [fold_left] in I; auto.
  apply IH in I as [I|(g & Ig & M)].
  - apply flat_add_in in I as [I|I]; auto. right. exists f. cbn; auto.
  - right. exists g. cbn; auto.
Qed.
Lemma flat_add_mono acc f x : In x acc -> In x (flat_add acc f).
Proof.
  intros I. destruct f; cbn [flat_add]; try (destruct rt_in; [assumption|]); apply in_or_app; auto.
Qed.
Lemma flat_fold_mono l x : forall acc, In x acc -> In x (fold_left flat_add l acc).
Proof. induction l; cbn [fold_left]; auto using flat_add_mono. Qed.
Lemma flat_add_has acc f x : In x (members f) -> exists m, In m (flat_add acc f) /\ (x = m \/ rt_eq x m = true).
Proof.
  intros I.
  assert (S : x = f -> exists m, In m (if rt_in f acc then acc else acc ++ [f]) /\ (x = m \/ rt_eq x m = true)).
  { intros ->. destruct (rt_in f acc) eqn:E.
    - apply rt_in_true in E as (y & Iy & E). eauto.
    - exists f. split; auto. apply in_or_app. cbn; auto. }
  destruct f; cbn [members flat_add] in *; try (destruct I as [<-|[]]; apply S; reflexivity).
  destruct (rt_in x acc) eqn:E.
  - apply rt_in_true in E as (y & Iy & E). exists y. split; auto. apply in_or_app; auto.
  - exists x. split; auto. apply in_or_app. right. apply filter_In. now rewrite E.
Qed.
Lemma flat_fold_has l f x : In f l -> In x (members f) -> forall acc,
  exists m, In m (fold_left flat_add l acc) /\ (x = m \/ rt_eq x m = true).
Proof.
  induction l as [|g l IH]; intros If Ix acc; [destruct If|]. cbn [fold_left].
  destruct If as [->|If]; [|now apply IH].
  destruct (flat_add_has acc f x Ix) as (m & Im & E). exists m. split; auto. now apply flat_fold_mono.
Qed.
(** Nothing changes if the members are already flat and distinct. *)
Lemma flat_fold_id l : union_free l -> forall acc, distinct_members (acc ++ l) ->
  fold_left flat_add l acc = acc ++ l.
Proof.
  induction l as [|f l IH]; intros U acc D; cbn [fold_left]; [now rewrite app_nil_r|].
  assert (E : flat_add acc f = acc ++ [f]).
  { assert (R : rt_in f acc = false).
    { apply distinct_app in D as (_ & _ & D). destruct (rt_in f acc) eqn:R; auto.
      apply rt_in_true in R as (y & Iy & R). rewrite (D y f) in R; cbn; auto. }
    destruct f; cbn [flat_add]; rewrite ?R; auto. exfalso. eapply U. cbn. auto. }
  rewrite E, IH.
  - now rewrite <- app_assoc.
  - intros c ts I. eapply U. cbn. eauto.
  - now rewrite <- app_assoc.
Qed.

(** ** Nodes *)
Definition every (P : rtype -> Prop) (t : rtype) : Prop := forall s, node_of s t -> P s.
Lemma every_iff P t : every P t <-> P t /\ Forall (every P) (children t).
Proof.
  split.
  - intros H. split; [apply H; constructor|]. apply Forall_forall. intros x I s N. apply H.
    eapply node_child; eauto.
  - intros [H F] s N. inversion N as [|? x I Nx]; subst; auto. rewrite Forall_forall in F. eapply F; eauto.
Qed.
Lemma flat_every t : flat t <-> every flat_node t.
Proof.
  split.
  - intros H s N. destruct s; cbn; auto. apply H in N as [A B]. split; auto.
  - intros H c ts N. apply H in N as [A B]. split; auto.
Qed.

Lemma flatten_members c ts : flatten_unions (TUnion c ts) = TUnion c (fold_left flat_add (map flatten_unions ts) []).
Proof. reflexivity. Qed.

(** _flatten_unions yields flat types. *)
Lemma flatten_flat : forall t, flat (flatten_unions t).
Proof.
  intros t. apply flat_every. induction t using rtype_ind'; apply every_iff; cbn [flatten_unions children].
  1-6, 10, 12: split; [exact I|constructor].
  - split; [exact I|]. constructor; auto.
  - split; [exact I|]. auto.
  - split; [exact I|]. apply Forall_map. exact H.
  - rewrite Forall_forall in H.
    assert (F : Forall flat_node (map flatten_unions ts)).
    { apply Forall_map, Forall_forall. intros x Ix. apply (H x Ix). constructor. }
    split.
    + apply flat_fold; auto; [intros c' ts' []|apply distinct_nil].
    + apply Forall_forall. intros x Ix. apply flat_fold_in in Ix as [[]|(f & If & M)].
      apply in_map_iff in If as (y & <- & Iy). specialize (H y Iy).
      destruct (flatten_unions y) eqn:E; cbn [members] in M;
        try (destruct M as [<-|[]]; exact H).
      apply every_iff in H as [_ H]. cbn [children] in H. rewrite Forall_forall in H. auto.
Qed.

(** ** What flattening does to a type that is already flat *)
Inductive wrapped : common -> Prop :=
| w_plain : wrapped c0
| w_wrap c : wrapped c -> wrapped (wrap_attrs c).
Definition hive_node (t : rtype) : Prop :=
  match t with
  | TList c _ l r => wrapped c /\ l = PNone /\ r = PBool true
  | TMap c _ _ => wrapped c
  | _ => flat_node t
  end.
Fixpoint rewrap (t : rtype) : rtype :=
  match t with
  | TUnion c ts => TUnion c (map rewrap ts)
  | TStruct c fs => TStruct c (map rewrap fs)
  | TList c v _ _ => TList (wrap_attrs c) (rewrap v) PNone (PBool true)
  | TMap c k v => TMap (wrap_attrs c) (rewrap k) (rewrap v)
  | _ => t
  end.
Lemma wrapped_inj a b : wrapped a -> wrapped b -> c_eq (wrap_attrs a) (wrap_attrs b) = true -> c_eq a b = true.
Proof.
  intros A B. destruct A as [|a A], B as [|b B]; intros E; try reflexivity; try discriminate E.
  unfold wrap_attrs in *. cbn [c_extra c_logical c_alias c_doc] in *.
  set (X := dupd (c_extra a) _) in *. set (Y := dupd (c_extra b) _) in *. clearbody X Y.
  unfold c_eq, dict_eq in *.
  cbn -[py_eq] in *. cbn [py_eq length Nat.eqb dget String.eqb] in *.
  cbn in E |- *. rewrite ?andb_true_r, ?andb_true_iff in *. tauto.
Qed.

Lemma all2_rewrap (P : rtype -> Prop) ts : Forall (fun x => forall y, P x -> P y ->
     rt_eq (rewrap x) (rewrap y) = true -> rt_eq x y = true) ts ->
  Forall P ts -> forall us, Forall P us -> all2 rt_eq (map rewrap ts) (map rewrap us) = true -> all2 rt_eq ts us = true.
Proof.
  induction 1 as [|x l Hx Hl IH]; intros F [|y us] G E; cbn in *; auto; try discriminate.
  apply andb_true_iff in E as [E1 E2]. inversion F; inversion G; subst. rewrite Hx; cbn; auto.
Qed.
Lemma rewrap_inj : forall t u, every hive_node t -> every hive_node u ->
  rt_eq (rewrap t) (rewrap u) = true -> rt_eq t u = true.
Proof.
  induction t using rtype_ind'; intros u Ht Hu E; destruct u; try discriminate E; try exact E.
  - apply every_iff in Ht as [(W & -> & ->) Ft], Hu as [(W' & -> & ->) Fu].
    cbn [children] in *. inversion Ft; inversion Fu; subst.
    cbn [rewrap rt_eq] in *. apply andb_true_iff in E as [E1 E]. apply andb_true_iff in E as [E2 _].
    rewrite (wrapped_inj _ _ W W' E1), IHt by auto. reflexivity.
  - apply every_iff in Ht as [W Ft], Hu as [W' Fu].
    cbn [children] in *. inversion Ft as [|? ? A1 F1]; inversion F1; inversion Fu as [|? ? A2 F2]; inversion F2; subst.
    cbn [rewrap rt_eq] in *. apply andb_true_iff in E as [E1 E]. apply andb_true_iff in E as [E2 E3].
    rewrite (wrapped_inj _ _ W W' E1), IHt1, IHt2 by auto. reflexivity.
  - cbn [rewrap] in E. rewrite rt_eq_struct in *. apply andb_true_iff in E as [E1 E2]. rewrite E1.
    apply every_iff in Ht as [_ Ft], Hu as [_ Fu]. eapply all2_rewrap in E2; eauto.
  - cbn [rewrap] in E. rewrite rt_eq_union in *. apply andb_true_iff in E as [E1 E2]. rewrite E1.
    apply every_iff in Ht as [_ Ft], Hu as [_ Fu]. eapply all2_rewrap in E2; eauto.
Qed.
Lemma map_eq {A B} (f g : A -> B) l : Forall (fun x => f x = g x) l -> map f l = map g l.
Proof. induction 1; cbn; congruence. Qed.
Lemma rewrap_union_free ts : union_free ts -> union_free (map rewrap ts).
Proof.
  intros U c l I. apply in_map_iff in I as (y & E & Iy). destruct y; try discriminate E. eapply U; eauto.
Qed.
Lemma flatten_rewrap : forall t, every hive_node t -> flatten_unions t = rewrap t.
Proof.
  induction t using rtype_ind'; intros Ht; try reflexivity; apply every_iff in Ht as [Hn Hc];
    cbn [children flatten_unions rewrap] in *.
  - inversion Hc; subst. now rewrite IHt.
  - inversion Hc as [|? ? A1 F1]; inversion F1; subst. now rewrite IHt1, IHt2.
  - f_equal. apply map_eq. rewrite Forall_forall in *. auto.
  - f_equal. assert (E : map flatten_unions ts = map rewrap ts).
    { apply map_eq. rewrite Forall_forall in *. auto. }
    rewrite E. destruct Hn as [U D]. rewrite flat_fold_id; auto.
    + now apply rewrap_union_free.
    + cbn [app]. clear E U H. induction ts as [|x l IH]; [apply distinct_nil|].
      inversion Hc; subst. apply distinct_cons in D as [D N]. cbn [map]. apply distinct_cons. split; auto.
      intros b I. apply in_map_iff in I as (y & <- & Iy).
      destruct (rt_eq (rewrap y) (rewrap x)) eqn:R; auto.
      rewrite <- (N y Iy). symmetry. apply rewrap_inj; auto.
      rewrite Forall_forall in H2. auto.
Qed.
Lemma erase_rewrap : forall t, every hive_node t -> erase (rewrap t) = erase t.
Proof.
  induction t using rtype_ind'; intros Ht; try reflexivity; apply every_iff in Ht as [Hn Hc];
    cbn [children erase rewrap] in *.
  - inversion Hc; subst. destruct Hn as (_ & -> & ->). now rewrite IHt.
  - inversion Hc as [|? ? A1 F1]; inversion F1; subst. now rewrite IHt1, IHt2.
  - f_equal. rewrite map_map. apply map_eq. rewrite Forall_forall in *. auto.
  - f_equal. rewrite map_map. apply map_eq. rewrite Forall_forall in *. auto.
Qed.
(** Flattening keeps the shape of the nodes. *)
Lemma rewrap_node : forall t, every hive_node t -> every hive_node (rewrap t).
Proof.
  induction t using rtype_ind'; intros Ht; try exact Ht; pose proof Ht as Hw; apply every_iff in Ht as [Hn Hc];
    cbn [children rewrap] in *; apply every_iff.
  - inversion Hc; subst. destruct Hn as (W & -> & ->). split; [|constructor; auto; apply IHt; auto].
    split; [now constructor|auto].
  - inversion Hc as [|? ? A1 F1]; inversion F1; subst. split; [now constructor|].
    cbn [children]. auto.
  - split; [exact I|]. cbn [children]. apply Forall_map. rewrite Forall_forall in *. auto.
  - split.
    + pose proof (flatten_flat (TUnion c ts)) as F. rewrite (flatten_rewrap _ Hw) in F.
      apply flat_every in F. apply F. constructor.
    + cbn [children]. apply Forall_map. rewrite Forall_forall in *. auto.
Qed.

Lemma c_eq_c0 : c_eq c0 c0 = true.
Proof. reflexivity. Qed.

(** ** _parse_schema *)
Definition parse_all (ts : list htype) : res (list rtype) := rmap (hive_parse PNone []) ts.
Fixpoint parse_fields (ns : list string) (l : list htype) {struct l} : res (list rtype) :=
  match ns, l with
  | n :: ns', x :: r =>
      rbind (hive_parse PNone [("name", PStr n)] x) (fun y => rbind (parse_fields ns' r) (fun ys => Ok (y :: ys)))
  | _, _ => Ok []
  end.
Lemma parse_union d e ts : hive_parse d e (HUnion ts) =
  rbind (parse_all ts) (fun us => hive_finish (flatten_unions
           (TUnion (mkC PNone PNone d (("default", PNone) :: e)) (TNull c0 :: us)))).
Proof.
  cbn [hive_parse]. f_equal. unfold parse_all. induction ts as [|x r IH]; auto. cbn [rmap]. now rewrite <- IH.
Qed.
Lemma parse_struct d e ns ts : hive_parse d e (HStruct ns ts) =
  rbind (parse_fields ns ts) (fun fs => hive_finish (TStruct (mkC PNone PNone d e) fs)).
Proof.
  reflexivity.
Qed.

(** Keyword arguments a type is built with: at most a name. *)
Definition name_only (e : list (string * pyval)) : Prop := e = [] \/ exists n, e = [("name", PStr n)].

(** What a finished type looks like around the bare type [b]. *)
Definition finished (d : pyval) (e : list (string * pyval)) (b r : rtype) : Prop :=
  r = TUnion (mkC PNone PNone d (("default", PNone) :: e)) [TNull c0; b].

Lemma finish_other t l d x e : name_only e -> get_c t = mkC l PNone d (x ++ e) ->
  In (dkeys x) [[]; ["unit"]; ["unit"; "timezone"]; ["signed"; "unit"]; ["precision"; "scale"]] ->
  (forall c b v, t = TInt c b v -> dkeys x <> ["signed"; "unit"]) ->
  is_union t = false -> is_null t = false ->
  exists r, hive_finish t = Ok r /\ finished d e (set_c t (mkC l PNone PNone x)) r.
Proof.
  intros NO G K NI U N.
  assert (NC : no_clash t).
  { intros k. rewrite G. cbn [c_extra]. unfold dkeys in *. rewrite map_app, in_app_iff.
    intros Hk. assert (Q : In k ["name"; "timezone"; "unit"; "precision"; "scale"] \/ (k = "signed" /\ forall c b v, t <> TInt c b v)).
    { destruct Hk as [Hk|Hk].
      - cbn in K. repeat destruct K as [K|K]; try contradiction; rewrite <- K in Hk; cbn in *;
          repeat destruct Hk as [Hk|Hk]; try contradiction; subst; try (left; tauto).
        right. split; auto. intros c b v E. eapply NI; eauto.
      - destruct NO as [->|(n & ->)]; cbn in Hk; [tauto|]. left; cbn; tauto. }
    destruct Q as [Q|[-> Q]].
    - clear - Q. destruct t; cbn in *; intuition (subst; discriminate).
    - destruct t; cbn; intuition (try discriminate); eapply Q; eauto. }
  pose proof (make_nullable_other t NC U) as M. rewrite N in M.
  assert (F : hive_finish t = snd (make_nullable t)) by (destruct t; try discriminate U; try discriminate N; reflexivity).
  rewrite F, M. cbn [snd]. eexists. split; [reflexivity|].
  assert (DX : dget "default" x = None /\ dget "name" x = None).
  { cbn in K. split; apply dget_None; intros I;
      repeat destruct K as [K|K]; try contradiction; rewrite <- K in I; cbn in I; intuition discriminate. }
  destruct DX as [DX NX].
  assert (D1 : ddel "default" x = x) by (apply ddel_notin, dget_None, DX).
  assert (D2 : ddel "name" x = x) by (apply ddel_notin, dget_None, NX).
  assert (APP : forall k a b, ddel k (a ++ b) = ddel k a ++ ddel k (b : list (string * pyval))).
  { intros k a b. unfold ddel. apply filter_app. }
  assert (DE : ddel "default" e = e /\ ddel "name" e = [] /\ kwarg "default" PNone (x ++ e) = PNone).
  { unfold kwarg. rewrite dget_app, DX. destruct NO as [->|(n & ->)]; cbn; auto. }
  destruct DE as (E1 & E2 & E3).
  unfold finished, union_labels, plain. rewrite G. cbn [c_extra c_doc c_logical c_alias].
  rewrite E3, dget_app, NX, !APP, D1, D2, E1, E2, app_nil_r.
  f_equal. f_equal. f_equal. destruct NO as [->|(n & ->)]; reflexivity.
Qed.

Lemma members_rewrap u : members (rewrap u) = map rewrap (members u).
Proof. destruct u; reflexivity. Qed.
Lemma every_member P u x : every P u -> In x (members u) -> every P x.
Proof.
  intros H I. destruct u; cbn [members] in I; try (destruct I as [<-|[]]; exact H).
  apply every_iff in H as [_ H]. rewrite Forall_forall in H. auto.
Qed.

Lemma merged_flatten c us : Forall (every hive_node) us ->
  exists ms, flatten_unions (TUnion c (TNull c0 :: us)) = TUnion c ms /\ merged us ms
    /\ every hive_node (TUnion c ms).
Proof.
  intros F. rewrite Forall_forall in F.
  pose proof (flatten_flat (TUnion c (TNull c0 :: us))) as FL. apply flat_every in FL.
  rewrite flatten_members in *.
  assert (ST : fold_left flat_add (map flatten_unions (TNull c0 :: us)) [] =
     fold_left flat_add (map flatten_unions us) [TNull c0]) by reflexivity.
  set (ms := fold_left flat_add (map flatten_unions (TNull c0 :: us)) []) in *.
  assert (MEM : forall m, In m ms -> m = TNull c0 \/ exists u x, In u us /\ In x (members u) /\ m = rewrap x).
  { intros m I. rewrite ST in I. apply flat_fold_in in I as [[<-|[]]|(f & If & Im)]; auto.
    apply in_map_iff in If as (u & <- & Iu). right.
    rewrite (flatten_rewrap _ (F u Iu)), members_rewrap in Im. apply in_map_iff in Im as (x & <- & Ix). eauto. }
  assert (HN : every hive_node (TUnion c ms)).
  { apply every_iff. split; [apply (FL (TUnion c ms)); constructor|]. cbn [children]. apply Forall_forall.
    intros m Im. apply MEM in Im as [->|(u & x & Iu & Ix & ->)].
    - apply every_iff. split; [exact I|constructor].
    - apply rewrap_node. apply (every_member _ u x (F u Iu) Ix). }
  exists ms. split; auto. split; auto. split; [|split; [|split]].
  - rewrite ST. apply flat_fold_mono. cbn; auto.
  - apply (HN (TUnion c ms)). constructor.
  - intros m Im. apply MEM in Im as [->|(u & x & Iu & Ix & ->)]; auto. right. exists u, x. split; auto. split; auto.
    symmetry. apply erase_rewrap. apply (every_member _ u x (F u Iu) Ix).
  - intros u x Iu Ix. exists (rewrap x).
    destruct (flat_fold_has (map flatten_unions us) (flatten_unions u) (rewrap x)) with (acc := [TNull c0])
      as (m & Im & E).
    + apply in_map_iff. eauto.
    + rewrite (flatten_rewrap _ (F u Iu)), members_rewrap. now apply in_map.
    + exists m. rewrite ST. split; auto. split; auto. apply erase_rewrap. apply (every_member _ u x (F u Iu) Ix).
Qed.

Record good (d : pyval) (e : list (string * pyval)) (h : htype) (t : rtype) : Prop := {
  g_reads : hive_reads h t;
  g_null : accepts_null t;
  g_nodes : every hive_node t;
  g_attrs : get_c t = mkC PNone PNone d ((if is_null t then [] else [("default", PNone)]) ++ e)
}.

Lemma good_finished d e h b r : finished d e b r -> every hive_node b -> is_null b = false -> is_union b = false ->
  (forall c, hive_reads h (TUnion c [TNull c0; b])) -> good d e h r.
Proof.
  intros -> Hb N U HR. split; auto.
  - exists c0. cbn; auto.
  - apply every_iff. split.
    + split.
      * intros c ts [E|[E|[]]]; [discriminate|]. rewrite E in U. discriminate.
      * apply distinct_cons. split; [apply distinct_one|]. intros x [<-|[]].
        destruct b; try discriminate N; reflexivity.
    + cbn [children]. constructor; [|auto]. apply every_iff. split; [exact I|constructor].
Qed.
Lemma leaf_nodes t : children t = [] -> is_union t = false -> every hive_node t.
Proof.
  intros C U. apply every_iff. rewrite C. split; [|constructor].
  destruct t; try discriminate; exact I.
Qed.

Lemma prim_good d e p : name_only e -> exists t, hive_finish (hive_prim d e p) = Ok t /\ good d e (HPrim p) t.
Proof.
  intros NO.
  assert (INT : forall c n lo hi, (- 2 ^ (n - 1) <= lo)%Z -> (hi < 2 ^ (n - 1))%Z -> (0 < n)%Z ->
     int_holds (TInt c (PInt n) (PBool true)) lo hi).
  { intros c n lo hi A B C. exists c, n, true. split; auto. split; auto. intros z Hz. lia. }
  assert (W : forall l x b, (exists r, hive_finish (hive_prim d e p) = Ok r /\ finished d e (set_c b (mkC l PNone PNone x)) r) ->
     children b = [] -> is_union b = false -> is_null b = false ->
     hive_leaf (HPrim p) (set_c b (mkC l PNone PNone x)) ->
     exists t, hive_finish (hive_prim d e p) = Ok t /\ good d e (HPrim p) t).
  { intros l x b (r & E & Fr) C U N L. exists r. split; auto. eapply good_finished; eauto.
    - apply leaf_nodes; [rewrite <- C|rewrite <- U]; destruct b; reflexivity.
    - rewrite <- N. destruct b; reflexivity.
    - rewrite <- U. destruct b; reflexivity.
    - intros c. now apply hr_leaf. }
  destruct p; unfold hive_prim in *;
  try (match goal with |- context [hive_finish ?t] =>
    match t with
    | context [mkC ?l PNone d (?x ++ e)] => refine (W l x t _ eq_refl eq_refl eq_refl _);
        [apply finish_other; [assumption|reflexivity|cbn; auto 8|intros; cbn; congruence|reflexivity|reflexivity]|]
    | context [mkC ?l PNone d e] => refine (W l [] t _ eq_refl eq_refl eq_refl _);
        [apply finish_other; [assumption|reflexivity|cbn; auto 8|intros; cbn; congruence|reflexivity|reflexivity]|]
    end end; cbn [set_c]).
  - eexists. split; [reflexivity|]. split; [constructor|exact I|apply leaf_nodes; reflexivity|reflexivity].
  - constructor.
  - constructor; [apply INT; lia|reflexivity].
  - constructor; [apply INT; lia|reflexivity].
  - constructor; [apply INT; lia|reflexivity].
  - constructor; [apply INT; lia|reflexivity].
  - constructor.
  - constructor.
  - constructor.
  - constructor. lia.
  - constructor; [apply INT; lia|reflexivity|reflexivity].
  - apply (hl_timestamp _ (HTimestamp, PStr "UTC")); cbn; auto.
  - apply (hl_timestamp _ (HTimestampLocalTz, PNone)); cbn; auto.
  - eapply (hl_interval _ (HIntervalYearMonth, "month")); cbn; auto; reflexivity.
  - eapply (hl_interval _ (HIntervalDayTime, "second")); cbn; auto; reflexivity.
Qed.

Lemma fits_38 p : (p <= 38)%Z -> decimal_fits 16 p.
Proof.
  intros H. unfold decimal_fits. apply Z.le_trans with (10 ^ 38)%Z.
  - destruct (Z.lt_ge_cases p 0); [rewrite Z.pow_neg_r by lia; apply Z.pow_nonneg; lia|]. apply Z.pow_le_mono_r; lia.
  - vm_compute. discriminate.
Qed.

Lemma hive_main h : forall d e, name_only e ->
  (forall t, hive_parse d e h = Ok t -> good d e h t) /\ (hive_ok h <-> exists t, hive_parse d e h = Ok t).
Proof.
  induction h using htype_ind'; intros d e NO.
  - cbn [hive_parse]. destruct (prim_good d e p NO) as (t & E & G). rewrite E. split.
    + intros t' X. injection X; intros; subst; auto.
    + split; [eauto|constructor].
  - cbn [hive_parse]. destruct (Z.ltb_spec 38 p).
    + split; [discriminate|]. split; [|intros [t X]; discriminate]. intros O. inversion O; lia.
    + destruct (finish_other (TBytes (mkC (PStr "build.recap.Decimal") PNone d
             (("precision", PInt p) :: ("scale", PInt s) :: e)) (PInt 16) (PBool false))
             (PStr "build.recap.Decimal") d [("precision", PInt p); ("scale", PInt s)] e) as (r & E & Fr);
        auto; try (cbn; auto 8; fail); try (intros; cbn; congruence).
      rewrite E. split; [|split; [eauto|intros _; now constructor]].
      intros t X. injection X; intros; subst t. eapply good_finished; eauto; try reflexivity.
      { apply leaf_nodes; reflexivity. }
      intros c. apply hr_leaf. eapply hl_decimal; try reflexivity; auto. now apply fits_38.
  - cbn [hive_parse]. destruct (finish_other (TString (mkC PNone PNone d e) (PInt n) (PBool true)) PNone d [] e)
      as (r & E & Fr); auto; try (cbn; auto; fail); try (intros; cbn; congruence).
    rewrite E. split; [|split; [eauto|intros _; now constructor]].
    intros t X. injection X; intros; subst t. eapply good_finished; eauto; try reflexivity.
    { apply leaf_nodes; reflexivity. }
    intros c. apply hr_leaf. constructor.
  - cbn [hive_parse]. destruct (finish_other (TString (mkC PNone PNone d e) (PInt n) (PBool false)) PNone d [] e)
      as (r & E & Fr); auto; try (cbn; auto; fail); try (intros; cbn; congruence).
    rewrite E. split; [|split; [eauto|intros _; now constructor]].
    intros t X. injection X; intros; subst t. eapply good_finished; eauto; try reflexivity.
    { apply leaf_nodes; reflexivity. }
    intros c. apply hr_leaf. constructor.
  - cbn [hive_parse]. destruct (IHh1 PNone [] (or_introl eq_refl)) as [G1 O1].
    destruct (IHh2 PNone [] (or_introl eq_refl)) as [G2 O2].
    destruct (hive_parse PNone [] h1) as [k|]; cbn [rbind].
    2:{ split; [discriminate|]. split; [|intros [t X]; discriminate]. intros O. inversion O as [| | | | |? ? OK1 OK2| |]; subst.
        apply O1 in OK1 as [? ?]. discriminate. }
    destruct (hive_parse PNone [] h2) as [v|]; cbn [rbind].
    2:{ split; [discriminate|]. split; [|intros [t X]; discriminate]. intros O. inversion O as [| | | | |? ? OK1 OK2| |]; subst.
        apply O2 in OK2 as [? ?]. discriminate. }
    specialize (G1 k eq_refl). specialize (G2 v eq_refl).
    destruct (finish_other (TMap (mkC PNone PNone d e) k v) PNone d [] e) as (r & E & Fr);
      auto; try (cbn; auto; fail); try (intros; cbn; congruence).
    rewrite E. split; [|split; [eauto|intros _; constructor; [apply O1|apply O2]; eauto]].
    intros t X. injection X; intros; subst t. eapply good_finished; eauto; try reflexivity.
    { apply every_iff. split; [constructor|]. cbn [children set_c].
      constructor; [apply (g_nodes _ _ _ _ G1)|]. constructor; [apply (g_nodes _ _ _ _ G2)|constructor]. }
    intros c. apply hr_map; [apply (g_reads _ _ _ _ G1)|apply (g_reads _ _ _ _ G2)].
  - cbn [hive_parse]. destruct (IHh PNone [] (or_introl eq_refl)) as [G1 O1].
    destruct (hive_parse PNone [] h) as [k|]; cbn [rbind].
    2:{ split; [discriminate|]. split; [|intros [t X]; discriminate]. intros O. inversion O as [| | | |? OK1| | |]; subst.
        apply O1 in OK1 as [? ?]. discriminate. }
    specialize (G1 k eq_refl).
    destruct (finish_other (TList (mkC PNone PNone d e) k PNone (PBool true)) PNone d [] e) as (r & E & Fr);
      auto; try (cbn; auto; fail); try (intros; cbn; congruence).
    rewrite E. split; [|split; [eauto|intros _; constructor; apply O1; eauto]].
    intros t X. injection X; intros; subst t. eapply good_finished; eauto; try reflexivity.
    { apply every_iff. split; [repeat split; constructor|]. cbn [children set_c].
      constructor; [apply (g_nodes _ _ _ _ G1)|constructor]. }
    intros c. apply hr_list. apply (g_reads _ _ _ _ G1).
  - rewrite parse_union.
    assert (ALL : match parse_all ts with
      | Ok us => hive_all ts us /\ Forall (every hive_node) us /\ Forall hive_ok ts
      | Err _ => ~ Forall hive_ok ts end).
    { unfold parse_all. induction H as [|x l Hx Hl IH]; cbn [rmap]; [repeat constructor|].
      destruct (Hx PNone [] (or_introl eq_refl)) as [G1 O1].
      destruct (hive_parse PNone [] x) as [y|]; cbn [rbind].
      - specialize (G1 y eq_refl). destruct (rmap (hive_parse PNone []) l); cbn [rbind].
        + destruct IH as (A & B & C). split; [|split].
          * constructor; auto. apply (g_reads _ _ _ _ G1).
          * constructor; auto. apply (g_nodes _ _ _ _ G1).
          * constructor; auto. apply O1. eauto.
        + intros F. inversion F; subst. auto.
      - intros F. inversion F as [|? ? OX]; subst. apply O1 in OX as [? ?]. discriminate. }
    destruct (parse_all ts) as [us|]; cbn [rbind].
    2:{ split; [discriminate|]. split; [|intros [t X]; discriminate]. intros O. inversion O; subst. contradiction. }
    destruct ALL as (A & B & C).
    destruct (merged_flatten (mkC PNone PNone d (("default", PNone) :: e)) us B) as (ms & E & M & N).
    rewrite E. cbn [hive_finish]. split; [|split; [eauto|intros _; now constructor]].
    intros t X. injection X; intros; subst t. split; auto.
    + eapply hr_union; eauto.
    + exists c0. apply M.
  - rewrite parse_struct.
    assert (ALL : match parse_fields ns ts with
      | Ok fs => hive_fields ns ts fs /\ Forall (every hive_node) fs /\ hive_ok (HStruct ns ts)
      | Err _ => ~ hive_ok (HStruct ns ts) end).
    { revert ns. induction H as [|x l Hx Hl IH]; intros ns.
      - destruct ns; cbn [parse_fields]; (split; [constructor; auto|split; [constructor|constructor; intros ? ? []]]).
      - destruct ns as [|n ns]; cbn [parse_fields].
        { split; [constructor; auto|split; [constructor|constructor; intros ? ? []]]. }
        destruct (Hx PNone [("name", PStr n)] (or_intror (ex_intro _ n eq_refl))) as [G1 O1].
        assert (OC : hive_ok (HStruct (n :: ns) (x :: l)) <-> hive_ok x /\ hive_ok (HStruct ns l)).
        { split.
          - intros O. inversion O as [| | | | | | |? ? Q]; subst. split; [apply (Q n); cbn; auto|].
            constructor. intros m h Im. apply (Q m). cbn; auto.
          - intros [OX OL]. inversion OL as [| | | | | | |? ? Q]; subst. constructor.
            intros m h [Im|Im]; [injection Im; intros; subst; auto|eauto]. }
        destruct (hive_parse PNone [("name", PStr n)] x) as [y|]; cbn [rbind].
        + specialize (G1 y eq_refl). specialize (IH ns). destruct (parse_fields ns l); cbn [rbind].
          * destruct IH as (A & B & C). split; [|split].
            -- constructor; auto. { apply (g_reads _ _ _ _ G1). }
               unfold extra. rewrite (g_attrs _ _ _ _ G1). cbn [c_extra]. destruct (is_null y); reflexivity.
            -- constructor; auto. apply (g_nodes _ _ _ _ G1).
            -- apply OC. split; auto. apply O1. eauto.
          * intros O. apply OC in O as [_ O]. auto.
        + intros O. apply OC in O as [O _]. apply O1 in O as [? ?]. discriminate. }
    destruct (parse_fields ns ts) as [fs|]; cbn [rbind].
    2:{ split; [discriminate|]. split; [|intros [t X]; discriminate]. intros O. contradiction. }
    destruct ALL as (A & B & C).
    destruct (finish_other (TStruct (mkC PNone PNone d e) fs) PNone d [] e) as (r & E & Fr);
      auto; try (cbn; auto; fail); try (intros; cbn; congruence).
    rewrite E. split; [|split; [eauto|auto]].
    intros t X. injection X; intros; subst t. eapply good_finished; eauto; try reflexivity.
    { apply every_iff. split; [exact I|]. exact B. }
    intros c. apply hr_struct. exact A.
  - cbn [hive_parse]. split; [discriminate|]. split; [|intros [t X]; discriminate]. intros O. inversion O.
Qed.
