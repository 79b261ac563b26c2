(** Schemas read from databases can be printed as Recap documents and read back (proofs only). *)
From Coq Require Import String Ascii List NArith ZArith QArith Bool Lia.
From Verif Require Import PyVal PyValFacts RType Regex RegexFacts Registry FromDict ToDict
  FromDictFacts RoundTrip SpecTypes RegistryFacts Nullable NullableFacts Equality SpecCompact
  Compact CompactDocs CompactRead CompactClean CompactMain CompactAlias CompactNames CompactWrite CompactAgain
  Url Dbapi SpecDb DbapiFacts DbapiMore DbRanges SpecHive HiveFacts HiveMore Documents
  BigQuery BigQueryFacts SpecPrinted.
Import ListNotations.
Open Scope nat_scope.
Open Scope string_scope.
Open Scope list_scope.

(** ** Types that can be written and read *)
Definition sound_node (t : rtype) : Prop :=
  let c := get_c t in
  dwf (c_extra c) /\ (forall k, In k (dkeys (c_extra c)) -> ~ In k (std_keys ++ reserved t)) /\
  pwf (c_logical c) /\ pwf (c_alias c) /\ pwf (c_doc c) /\ Forall pwf (attrs_of t) /\
  match t with TProxy c r => r = None /\ exists a, c_alias c = PStr a /\ ~ In a type_words | _ => True end.

Lemma sound_twf : forall t, every sound_node t -> tree_within_limits t -> twf t.
Proof.
  intros t.
  assert (N : forall t, sound_node t -> tree_within_limits t -> node_ok t).
  { intros u ([D1 D2] & K & L & A & Dc & At & Px) T. apply tree_validate in T. unfold node_ok.
    repeat (split; [assumption|]). exact Px. }
  unfold twf. induction t using rtype_ind'; intros E T; pose proof (N _ (E _ (node_self _)) T) as NK;
    apply every_iff in E as [_ F]; apply tree_iff in T as [_ G]; cbn [children] in *; split; auto.
  - inversion F; inversion G; subst; auto.
  - inversion F as [|? ? A F1]; inversion G as [|? ? B G1]; inversion F1; inversion G1; subst; auto.
  - apply nodes_list. rewrite Forall_forall in *. auto.
  - apply nodes_list. rewrite Forall_forall in *. auto.
Qed.

Lemma dwf_dupd e : forall d, dwf d -> Forall (fun kv => pwf (snd kv)) e -> dwf (dupd d e).
Proof.
  induction e as [|[k v] e IH]; intros d D F; auto. inversion F; subst. unfold dupd in *. cbn [fold_left fst snd].
  apply IH; auto. apply dwf_dset; auto.
Qed.
Lemma base_dict_dwf t : sound_node t -> dwf (base_dict t).
Proof.
  intros ([D1 D2] & K & L & A & Dc & _). unfold base_dict. apply dwf_dupd; auto. split.
  - cbn. repeat constructor; cbn; intuition discriminate.
  - repeat constructor; auto.
Qed.
Lemma raw_pwf : forall t, every sound_node t -> pwf (raw_dict t).
Proof.
  induction t using rtype_ind'; intros E; pose proof (E _ (node_self _)) as NK; pose proof (base_dict_dwf _ NK) as B;
    destruct NK as (_ & _ & _ & _ & _ & At & _); apply every_iff in E as [_ F]; cbn [children] in *;
    cbn [raw_dict node_dict]; apply dwf_pwf; auto.
  all: try (apply dwf_dupd; [auto|]); try (apply dwf_dset; [|auto using dwf_ddel]); cbn [attrs_of] in At; repeat constructor; cbn [snd]; auto.
  all: try (inversion At as [|? ? A1 At1]; subst; auto; inversion At1; subst; auto; fail).
  - inversion F; subst; auto.
  - inversion F; subst; auto.
  - inversion F as [|? ? F1 F2]; inversion F2; subst; auto.
  - apply Forall_map. rewrite Forall_forall in *. auto.
  - apply Forall_map. rewrite Forall_forall in *. auto.
  - apply dwf_kwarg; [constructor|auto].
Qed.

Definition printable (t : rtype) : Prop := sound_node t /\ compact_ok t /\ alias_ok true t.

Lemma printed t : every printable t -> tree_within_limits t -> forall R, fresh (dkeys R) (defined_aliases t) ->
  exists d R2 t', to_dict true true t = Ok d /\ from_dict d R = (R2, Ok t') /\ same_meaning (names_in t) t t'.
Proof.
  intros E T R F. assert (S : every sound_node t) by (intros s N; apply E, N).
  destruct (reg_fresh t R F) as [R' G].
  destruct (alias_roundtrip true (raw_dict t) R R' t) as (d & R2 & t' & E1 & E2 & E3 & _).
  - now apply raw_pwf.
  - apply raw_roundtrip_okB; auto. now apply sound_twf.
  - intros s N. apply E, N.
  - intros _ s N. apply E, N.
  - eauto 6.
Qed.

(** ** Columns *)
(** What _parse_type gives for a column. *)
Record column_type (t : rtype) : Prop := {
  ct_fresh : fresh_type t;
  ct_nodes : every printable t;
  ct_alias : defines t <> PNone \/ defined_aliases t = [];
  ct_union : is_union t = false \/ exists xs, t = TUnion c0 (bare_null :: xs) /\ ~ In bare_null xs /\ defined_aliases t = [] /\
      forall x, xs = [x] -> is_union x = false /\ ~ In "name" (dkeys (c_extra (get_c x))) /\ ~ In "default" (dkeys (c_extra (get_c x)))
}.

Lemma children_set_c t c : children (set_c t c) = children t.
Proof. destruct t; reflexivity. Qed.

Definition added_keys : list string := ["unit"; "precision"; "scale"; "default"; "name"].
Lemma free_key t k : In k added_keys -> ~ In k (std_keys ++ reserved t) /\ ~ In k child_keys.
Proof.
  intros I. assert (F : forallb (fun k => negb (existsb (String.eqb k) (std_keys ++ reserved t)) && negb (existsb (String.eqb k) child_keys)) added_keys = true)
    by (destruct t; reflexivity).
  rewrite forallb_forall in F. apply F, andb_true_iff in I as [A B]. clear F. apply negb_true_iff in A, B.
  split; intros J; [enough (E : existsb (String.eqb k) (std_keys ++ reserved t) = true) by congruence|
    enough (E : existsb (String.eqb k) child_keys = true) by congruence]; apply existsb_exists; exists k; rewrite String.eqb_refl; auto.
Qed.
(** Attributes added to a type. *)
Lemma printable_more t doc x : column_type t -> is_proxy t = false -> pwf doc -> is_union t = false \/ doc = PNone ->
  Forall (fun kv => pwf (snd kv)) x -> NoDup (dkeys x) -> (forall k, In k (dkeys x) -> k = "default" \/ k = "name") ->
  dget "name" x <> Some PNone ->
  every printable (set_c t (mkC (c_logical (get_c t)) (c_alias (get_c t)) doc (c_extra (get_c t) ++ x))).
Proof.
  intros [F E A U] P PD UD W ND K NN. apply every_iff in E as [(SN & CO & AO) FE]. apply every_iff. rewrite children_set_c. split; auto.
  assert (KX : forall k, In k (dkeys (c_extra (get_c t) ++ x)) -> In k added_keys).
  { intros k I. unfold dkeys in I. rewrite map_app, in_app_iff in I. destruct I as [I|I].
    - apply (ft_keys _ F) in I. cbn in *. tauto.
    - apply K in I. cbn. intuition. }
  split; [|split].
  - destruct SN as ([D1 D2] & K1 & L & Al & Dc & At & Px). unfold sound_node. rewrite get_set_c. cbn [c_extra c_logical c_alias c_doc].
    split; [split|].
    + unfold dkeys. rewrite map_app. apply NoDup_app'; auto. intros k J I. apply (ft_keys _ F) in I. apply K in J. cbn in I.
      intuition (subst; discriminate).
    + apply Forall_app; auto.
    + split; [|split; [auto|split; [auto|split; [auto|destruct t; split; auto; discriminate]]]].
      * intros k I. apply KX, (free_key t) in I as [I _]. destruct t; exact I.
  - destruct U as [U|(xs & -> & NB & DA & S)]; [destruct t; try exact I; discriminate|].
    cbn [set_c compact_ok get_c c0 c_extra c_alias c_logical c_doc app]. intros _ _. exists xs. repeat split; auto; try now apply S in H.
    destruct UD; [discriminate|auto].
  - intros D. assert (D0 : defines t = PNone) by (destruct t; auto). destruct (AO D0) as [PA CH]. split.
    + unfold plain_attributes. rewrite get_set_c. cbn [c_extra]. intros k v I J. exfalso.
      apply (in_map fst), KX, (free_key t) in I as [_ I]. auto.
    + rewrite children_set_c. exact CH.
Qed.

Lemma defined_set_c t c : c_alias c = c_alias (get_c t) -> defined_aliases (set_c t c) = defined_aliases t.
Proof. intros E. rewrite !defined_app, children_set_c. f_equal. unfold own_alias. destruct t; cbn in *; rewrite ?E; reflexivity. Qed.
Lemma defines_set_c t c : c_alias c = c_alias (get_c t) -> defines (set_c t c) = defines t.
Proof. intros E. destruct t; cbn in *; auto. Qed.

Lemma null_printable : every printable (TNull c0).
Proof.
  apply every_iff. split; [|constructor]. split; [|split; [exact I|]].
  - unfold sound_node. cbn. repeat split; try constructor. intros k [].
  - intros _. split; [intros k v []|intros x []].
Qed.

Record field_ok (t f : rtype) : Prop := {
  fo_nodes : every printable f;
  fo_alias : visible_alias true f <> PNone \/ defined_aliases f = [];
  fo_same : defined_aliases f = defined_aliases t
}.

(** The union made for a nullable column. *)
Lemma nullable_field t x : column_type t -> is_union t = false ->
  Forall (fun kv => pwf (snd kv)) x -> NoDup (dkeys x) -> (forall k, In k (dkeys x) -> k = "default" \/ k = "name") ->
  dget "name" x <> Some PNone -> dmem "default" x = true ->
  field_ok t (TUnion (mkC PNone PNone PNone x) [TNull c0; t]).
Proof.
  intros [F E A U] NU W ND K NN DM.
  assert (DA : defined_aliases (TUnion (mkC PNone PNone PNone x) [TNull c0; t]) = defined_aliases t).
  { rewrite defined_app. cbn [children flat_map own_alias get_c c_alias]. rewrite !app_nil_r. reflexivity. }
  split; auto.
  - apply every_iff. cbn [children]. split; [|constructor; [apply null_printable|constructor; auto]]. split; [|split].
    + unfold sound_node. cbn [get_c c_extra c_logical c_alias c_doc attrs_of reserved].
      split; [split; auto|].
      split; [intros k I; apply K in I; cbn; intuition (subst; discriminate)|]. repeat split; constructor.
    + intros _ _. exists [t]. split; auto. split.
      { intros [X|[]]. pose proof (ft_null _ F) as Y. rewrite X in Y. discriminate. }
      split; [exact K|]. split; [exact NN|]. intros y [= <-] _ _. split; auto. split; auto.
      split; intros I; apply (ft_keys _ F) in I; cbn in I; intuition discriminate.
    + intros _. split.
      * intros k v I J. exfalso. apply (in_map fst), K in I. cbn in J. intuition (subst; discriminate).
      * cbn [children]. intros y [<-|[<-|[]]]; [right; left; reflexivity|].
        destruct A as [A|A]; [left|auto]. unfold visible_alias, single_optional. destruct t; try exact A; discriminate.
  - destruct A as [A|A]; [left|right; congruence]. unfold visible_alias, single_optional. unfold c0. rewrite DM. exact A.
Qed.

Lemma set_extra_new k v t : ~ In k (dkeys (c_extra (get_c t))) ->
  set_extra k v t = set_c t (mkC (c_logical (get_c t)) (c_alias (get_c t)) (c_doc (get_c t)) (c_extra (get_c t) ++ [(k, v)])).
Proof. intros N. unfold set_extra. now rewrite dset_new. Qed.

Lemma more_field t doc x : column_type t -> is_proxy t = false -> pwf doc -> is_union t = false \/ doc = PNone -> Forall (fun kv => pwf (snd kv)) x -> NoDup (dkeys x) ->
  (forall k, In k (dkeys x) -> k = "default" \/ k = "name") -> dget "name" x <> Some PNone ->
  field_ok t (set_c t (mkC (c_logical (get_c t)) (c_alias (get_c t)) doc (c_extra (get_c t) ++ x))).
Proof.
  intros C P PD UD W ND K NN. split.
  - now apply printable_more.
  - rewrite defined_set_c by reflexivity. destruct C as [F E [A|A] U]; auto.
    destruct U as [U|(xs & -> & NB & DA & S)]; auto. left. unfold visible_alias, single_optional.
    destruct t; try exact A. discriminate.
  - now apply defined_set_c.
Qed.

Ltac more := first [solve [repeat constructor; auto] | solve [repeat constructor; cbn; intuition discriminate]
  | solve [cbn; intuition] | solve [cbn; congruence] | reflexivity].
Lemma column_field col t f : named col -> is_proxy t = false -> column_type t -> finish col t = Ok f -> field_ok t f.
Proof.
  intros [W NN] P C H. unfold finish, item in H. pose proof (ct_fresh _ C) as F.
  destruct (dget "IS_NULLABLE" col) as [nl|]; cbn [rbind] in H; [|discriminate].
  destruct (as_str nl) as [s|]; cbn [rbind] in H; [|discriminate].
  destruct (if String.eqb (upper s) "YES" then snd (make_nullable t) else Ok t) as [t1|] eqn:T1; cbn [rbind] in H; [|discriminate].
  destruct (dget "COLUMN_DEFAULT" col) as [d|] eqn:DD; cbn [rbind] in H; [|discriminate].
  destruct (dget "COLUMN_NAME" col) as [n|] eqn:DN; cbn [rbind] in H; [|discriminate].
  assert (D : pwf d) by (eapply dwf_dget; eauto). assert (N : pwf n) by (eapply dwf_dget; eauto).
  assert (NO : n <> PNone) by congruence. injection H; intros; subst f. clear H.
  assert (KN : forall k, In k ["default"; "name"; "doc"] -> ~ In k (dkeys (c_extra (get_c t)))).
  { intros k K I. apply (ft_keys _ F) in I. cbn in *. intuition (subst; discriminate). }
  destruct (String.eqb (upper s) "YES").
  - rewrite orb_true_r. unfold make_nullable in T1.
    assert (E1 : ddel "default" (c_extra (get_c t)) = c_extra (get_c t)) by (apply ddel_notin, KN; cbn; auto).
    assert (E2 : ddel "name" (c_extra (get_c t)) = c_extra (get_c t)) by (apply ddel_notin, KN; cbn; auto).
    assert (E3 : ddel "doc" (c_extra (get_c t)) = c_extra (get_c t)) by (apply ddel_notin, KN; cbn; auto).
    assert (G1 : dget "name" (c_extra (get_c t)) = None) by (apply dget_None, KN; cbn; auto).
    assert (G2 : kwarg "doc" PNone (c_extra (get_c t)) = PNone).
    { unfold kwarg. destruct (dget "doc" (c_extra (get_c t))) eqn:X; auto. apply dget_In_key in X. exfalso. revert X. apply KN; cbn; auto. }
    assert (G3 : kwarg "default" PNone (c_extra (get_c t)) = PNone).
    { unfold kwarg. destruct (dget "default" (c_extra (get_c t))) eqn:X; auto. apply dget_In_key in X. exfalso. revert X. apply KN; cbn; auto. }
    rewrite E1, G1, E2, E3, G2, G3 in T1.
    destruct (is_union t) eqn:IU.
    + destruct (ct_union _ C) as [X|(xs & X & NB & DA & S)]; [congruence|]. subst t. cbn in T1. injection T1; intros; subst t1.
      change (set_extra "name" n (set_extra "default" d (TUnion (mkC PNone PNone PNone [("default", PNone)]) (TNull c0 :: xs))))
        with (set_c (TUnion c0 (bare_null :: xs)) (mkC PNone PNone PNone ([] ++ [("default", d); ("name", n)]))).
      refine (more_field (TUnion c0 (bare_null :: xs)) PNone [("default", d); ("name", n)] C P pwf_none (or_intror eq_refl) _ _ _ _).
      * repeat constructor; auto.
      * repeat constructor; cbn; intuition discriminate.
      * cbn. intuition.
      * cbn. congruence.
    + assert (TT : t1 = TUnion (mkC PNone PNone PNone [("default", PNone)]) [TNull c0; t]).
      { pose proof (ft_null _ F) as IN. pose proof (ft_doc _ F) as ID.
        destruct (existsb _ _); [discriminate|].
        destruct t as [[]|[]|[]|[]|[]|[]|[]|[]|[]|[]|[]|[]]; cbn in T1, IN, ID, IU; try discriminate;
          subst; injection T1; intros; subst; reflexivity. }
      subst t1. refine (nullable_field t [("default", d); ("name", n)] C IU _ _ _ _ _); more.
  - injection T1; intros; subst t1. rewrite orb_false_r. destruct (is_none d) eqn:IN; cbn [negb].
    + rewrite set_extra_new, (ft_doc _ F) by (apply KN; cbn; auto). apply more_field; auto; more.
    + assert (X : set_extra "name" n (set_extra "default" d t) =
        set_c t (mkC (c_logical (get_c t)) (c_alias (get_c t)) (c_doc (get_c t)) (c_extra (get_c t) ++ [("default", d); ("name", n)]))).
      { rewrite (set_extra_new "default") by (apply KN; cbn; auto). rewrite set_extra_new.
        - rewrite get_set_c. cbn [c_extra c_logical c_alias c_doc]. rewrite <- app_assoc. destruct t; reflexivity.
        - rewrite get_set_c. cbn [c_extra]. unfold dkeys. rewrite map_app, in_app_iff. intros [I|[I|[]]]; [|discriminate].
          revert I. apply KN; cbn; auto. }
      rewrite X, (ft_doc _ F). apply more_field; auto; more.
Qed.

(** ** The databases *)
Inductive few_extras : list (string * pyval) -> Prop :=
| few_none : few_extras []
| few_unit u : few_extras [("unit", PStr u)]
| few_decimal p s : pwf p -> pwf s -> few_extras [("precision", p); ("scale", s)].

Lemma leaf_type t l e : get_c t = mkC l PNone PNone e -> children t = [] -> is_null t = false -> is_proxy t = false -> is_union t = false ->
  pwf l -> few_extras e -> Forall pwf (attrs_of t) -> column_type t.
Proof.
  intros G C N P U L F A.
  assert (K : forall k, In k (dkeys e) -> In k ["unit"; "precision"; "scale"]) by (destruct F; cbn; intuition).
  assert (DA : defined_aliases t = []).
  { rewrite defined_app, C. cbn. unfold own_alias. destruct t; auto; cbn in *; rewrite G; reflexivity. }
  split; auto.
  - split; auto; rewrite ?G; auto. intros c ts ->. discriminate.
  - apply every_iff. rewrite C. split; [|constructor]. split; [|split].
    + unfold sound_node. rewrite G. cbn [c_extra c_logical c_alias c_doc].
      split; [split; destruct F; repeat constructor; cbn; auto; intuition discriminate|].
      split; [intros k I; apply K in I; apply (free_key t); cbn in *; tauto|].
      split; [auto|]. split; [constructor|]. split; [constructor|]. split; [auto|]. destruct t; auto. discriminate.
    + destruct t; try exact I. discriminate.
    + intros _. rewrite C. split; [|intros x []]. intros k v I J. exfalso. rewrite G in I. apply (in_map fst) in I. apply K in I. cbn in *. intuition (subst; discriminate).
Qed.
Lemma or_else_pwf v d : pwf v -> pwf d -> pwf (or_else v d).
Proof. unfold or_else. destruct (truthy v); auto. Qed.
Lemma item_pwf k col v : dwf col -> item k col = Ok v -> pwf v.
Proof. unfold item. destruct (dget k col) eqn:E; [|discriminate]. intros W [= <-]. eapply dwf_dget; eauto. Qed.

Ltac leafy := match goal with |- column_type ?t /\ _ => split; [eapply (leaf_type t); [reflexivity|reflexivity|reflexivity|reflexivity|reflexivity|constructor|
   first [apply few_none|apply few_unit|apply few_decimal; auto using or_else_pwf, pwf]|
   repeat constructor; auto using or_else_pwf, pwf]|split; reflexivity] end.

Lemma mysql_column col t : dwf col -> mysql_type col = Ok t -> column_type t /\ is_proxy t = false /\ defines t = PNone.
Proof.
  intros W H. unfold mysql_type in H.
  destruct (item "DATA_TYPE" col) as [dt|]; cbn [rbind] in H; [|discriminate].
  destruct (as_str dt) as [s|]; cbn [rbind] in H; [|discriminate].
  destruct (item "CHARACTER_OCTET_LENGTH" col) as [oc|] eqn:E1; cbn [rbind] in H; [|discriminate].
  destruct (item "NUMERIC_PRECISION" col) as [pr|] eqn:E2; cbn [rbind] in H; [|discriminate].
  destruct (item "NUMERIC_SCALE" col) as [sc|] eqn:E3; cbn [rbind] in H; [|discriminate].
  apply item_pwf in E1, E2, E3; auto.
  split_ifs H; try discriminate H; try (injection H; intros; subst t; leafy).
  - destruct (py_gt_z pr 23) as [[]|]; cbn [rbind] in H; try discriminate H; injection H; intros; subst t; leafy.
  - destruct (item "DATETIME_PRECISION" col) as [p|]; cbn [rbind] in H; [|discriminate].
    destruct (get_time_unit (Some [p])) as [u|]; cbn [rbind] in H; [|discriminate].
    injection H; intros; subst t; leafy.
Qed.
Lemma snowflake_column col t : dwf col -> snowflake_type col = Ok t -> column_type t /\ is_proxy t = false /\ defines t = PNone.
Proof.
  intros W H. unfold snowflake_type in H.
  destruct (item "DATA_TYPE" col) as [dt|]; cbn [rbind] in H; [|discriminate].
  destruct (as_str dt) as [s|]; cbn [rbind] in H; [|discriminate].
  destruct (item "CHARACTER_OCTET_LENGTH" col) as [oc|] eqn:E1; cbn [rbind] in H; [|discriminate].
  apply item_pwf in E1; auto.
  destruct (get_time_unit _) as [u|]; cbn [rbind] in H;
  split_ifs H; try discriminate H; try (injection H; intros; subst t; leafy);
  (destruct (item "NUMERIC_PRECISION" col) as [pr|] eqn:E2; cbn [rbind] in H; [|discriminate];
   destruct (item "NUMERIC_SCALE" col) as [sc|] eqn:E3; cbn [rbind] in H; [|discriminate];
   apply item_pwf in E2, E3; auto;
   injection H; intros; subst t; leafy).
Qed.
Lemma union_type xs : ~ In bare_null xs -> Forall (fun t => every printable t /\ defined_aliases t = []) xs ->
  (forall x, xs = [x] -> is_union x = false /\ ~ In "name" (dkeys (c_extra (get_c x))) /\ ~ In "default" (dkeys (c_extra (get_c x)))) ->
  column_type (TUnion c0 (bare_null :: xs)).
Proof.
  intros NB F S.
  assert (DA : defined_aliases (TUnion c0 (bare_null :: xs)) = []).
  { rewrite defined_app. cbn [children flat_map own_alias]. rewrite app_nil_r. cbn. clear -F. induction F as [|x l [_ E] F IH]; cbn; auto. now rewrite E. }
  split; auto.
  - split; [reflexivity|reflexivity|intros k []|intros c ts E; now injection E].
  - apply every_iff. cbn [children]. split; [|constructor; [apply null_printable|eapply Forall_impl; [|exact F]; cbn; tauto]]. split; [|split].
    + unfold sound_node. cbn. repeat split; try constructor. intros k [].
    + intros [].
    + intros _. split; [intros k v []|]. cbn [children]. intros x [<-|I]; [right; left; reflexivity|].
      rewrite Forall_forall in F. right. left. apply F, I.
  - right. exists xs. auto.
Qed.
Lemma sqlite_column col t : dwf col -> sqlite_type col = Ok t -> column_type t /\ is_proxy t = false /\ defines t = PNone.
Proof.
  intros W H. unfold sqlite_type in H.
  destruct (item "COLUMN_NAME" col) as [nm|]; cbn [rbind] in H; [|discriminate].
  destruct (item "TYPE" col) as [ty|]; cbn [rbind] in H; [|discriminate].
  destruct (item "CHARACTER_OCTET_LENGTH" col) as [oc|] eqn:E1; cbn [rbind] in H; [|discriminate].
  destruct (item "NUMERIC_PRECISION" col) as [pr|] eqn:E2; cbn [rbind] in H; [|discriminate].
  apply item_pwf in E1, E2; auto.
  destruct (type_text ty) as [tt|]; cbn [rbind] in H; [|discriminate].
  destruct (get_affinity tt); try (injection H; intros; subst t; leafy).
  - destruct (truthy pr); [|injection H; intros; subst t; leafy].
    destruct (py_gt_z pr 23) as [g|]; cbn [rbind] in H; try discriminate H; injection H; intros; subst t; leafy.
  - injection H; intros; subst t. split; [|split; reflexivity]. apply union_type.
    + cbn. intuition discriminate.
    + assert (L : forall t, column_type t /\ is_proxy t = false /\ defines t = PNone -> defined_aliases t = [] -> every printable t /\ defined_aliases t = []).
      { intros t [C _] D. split; auto. apply C. }
      repeat (apply Forall_cons; [apply L; [leafy|reflexivity]|]). constructor.
    + discriminate.
Qed.

Definition effect (R R' : registry) (t : rtype) : Prop :=
  (R' = R /\ defined_aliases t = []) \/
  exists a s, R' = R ++ [(a, s)] /\ ~ In a (dkeys R) /\ dotted_name a /\ defined_aliases t = [PStr a].

Lemma ceil_div8_pwf v b : ceil_div8 v = Ok b -> pwf b.
Proof. destruct v; intros H; try discriminate H; injection H; intros; subst; constructor. Qed.
Lemma pg_scalar_column dt oc ml col t : dwf col -> pwf oc -> pg_scalar dt oc ml col = Ok t ->
  (column_type t /\ is_proxy t = false /\ defines t = PNone) /\ defined_aliases t = [] /\ is_union t = false.
Proof.
  intros W P H. unfold pg_scalar in H.
  split_ifs H; try discriminate H;
    try (injection H; intros; subst t; split; [leafy|split; reflexivity]).
  - destruct (ceil_div8 ml) as [b|] eqn:E; cbn [rbind] in H; [|discriminate]. apply ceil_div8_pwf in E.
    injection H; intros; subst t; split; [leafy|split; reflexivity].
  - destruct (item "DATETIME_PRECISION" col) as [p|]; cbn [rbind] in H; [|discriminate].
    destruct (get_time_unit (Some [p])) as [u|]; cbn [rbind] in H; [|discriminate].
    injection H; intros; subst t; split; [leafy|split; reflexivity].
  - destruct (item "NUMERIC_PRECISION" col) as [pr|] eqn:E2; cbn [rbind] in H; [|discriminate].
    destruct (item "NUMERIC_SCALE" col) as [sc|] eqn:E3; cbn [rbind] in H; [|discriminate].
    apply item_pwf in E2, E3; auto.
    injection H; intros; subst t; split; [leafy|split; reflexivity].
  - destruct (item "ENUM_VALUES" col) as [e|] eqn:E; cbn [rbind] in H; [|discriminate]. apply item_pwf in E; auto.
    destruct (truthy e); [|discriminate]. injection H; intros; subst t; split; [leafy|split; reflexivity].
Qed.
Lemma element_dwf s : dwf (element_column s).
Proof. split; [|repeat constructor]. cbn. repeat constructor; cbn; intuition discriminate. Qed.
Lemma elem_column s v : elem s = Ok v -> (column_type v /\ is_proxy v = false /\ defines v = PNone) /\ defined_aliases v = [] /\ is_union v = false.
Proof.
  unfold elem. destruct (String.eqb (lower s) "array"); [discriminate|]. apply pg_scalar_column; [apply element_dwf|constructor].
Qed.

Lemma n_lists_column v : (column_type v /\ is_proxy v = false /\ defines v = PNone) /\ defined_aliases v = [] /\ is_union v = false ->
  forall n, (column_type (n_lists v n) /\ is_proxy (n_lists v n) = false) /\ defined_aliases (n_lists v n) = [].
Proof.
  intros ((C & P & _) & D & U). induction n as [|n [[IC IP] ID]]; cbn [n_lists].
  - assert (X : column_type (TUnion c0 [bare_null; v])).
    { apply union_type.
      - intros [X|[]]. pose proof (ft_null _ (ct_fresh _ C)) as Y. rewrite X in Y. discriminate.
      - constructor; [|constructor]. split; auto. apply C.
      - intros x [= <-]. split; auto. split; intros I; apply (ft_keys _ (ct_fresh _ C)) in I; cbn in I; intuition discriminate. }
    split; [split; [exact X|reflexivity]|]. rewrite defined_app. cbn [children flat_map]. rewrite D. reflexivity.
  - assert (DA : defined_aliases (TList c0 (n_lists v n) PNone (PBool true)) = []).
    { rewrite defined_app. cbn [children flat_map]. rewrite ID. reflexivity. }
    split; auto. split; [|reflexivity]. split; auto.
    + split; [reflexivity|reflexivity|intros k []|discriminate].
    + apply every_iff. cbn [children]. split; [|constructor; [apply IC|constructor]]. split; [|split; [exact I|]].
      * unfold sound_node. cbn. repeat split; repeat constructor. intros k [].
      * intros _. split; [intros k v' []|]. cbn [children]. intros x [<-|[]]. auto.
Qed.

Lemma self_list_column a v : dotted_name a -> column_type v -> is_proxy v = false -> defined_aliases v = [] ->
  column_type (self_list a v) /\ defined_aliases (self_list a v) = [PStr a].
Proof.
  intros A C P D. apply CompactNames.dotted_word in A.
  split.
  2:{ unfold self_list. rewrite defined_app. cbn [children flat_map]. rewrite defined_app. cbn [children flat_map]. rewrite D. reflexivity. }
  split.
  - split; [reflexivity|reflexivity|intros k []|discriminate].
  - unfold self_list. apply every_iff. cbn [children]. split; [|constructor; [|constructor]].
    + split; [|split; [exact I|]].
      * unfold sound_node. cbn. repeat split; repeat constructor. intros k [].
      * intros X. discriminate.
    + apply every_iff. cbn [children]. split; [|constructor; [apply C|constructor; [|constructor]]].
      * split; [|split].
        -- unfold sound_node. cbn. repeat split; repeat constructor. intros k [].
        -- intros [].
        -- intros _. split; [intros k v' []|]. cbn [children]. intros x [<-|[<-|[]]]; auto.
      * apply every_iff. cbn [children]. split; [|constructor]. split; [|split; [exact I|]].
        -- unfold sound_node. cbn [get_c c_extra c_logical c_alias c_doc attrs_of]. split; [split; constructor|].
           split; [intros k []|]. repeat (split; [constructor|]). exists a. auto.
        -- intros _. split; [intros k v' []|intros x []].
  - left. discriminate.
  - now left.
Qed.
Lemma pg_column enforce ns col R R' t : dwf col -> pg_type enforce ns col R = (R', Ok t) ->
  (column_type t /\ is_proxy t = false) /\ effect R R' t.
Proof.
  intros W H. rewrite pg_type_cases in H. unfold pg_header in H.
  destruct (item "COLUMN_NAME" col) as [nm|]; cbn [rbind] in H; [|discriminate].
  destruct (rbind (item "DATA_TYPE" col) as_str) as [dt|]; cbn [rbind] in H; [|discriminate].
  destruct (item "CHARACTER_OCTET_LENGTH" col) as [oc|] eqn:E1; cbn [rbind] in H; [|discriminate].
  destruct (item "CHARACTER_MAXIMUM_LENGTH" col) as [ml|]; cbn [rbind] in H; [|discriminate].
  destruct (rbind (item "UDT_NAME" col) lower_or_empty) as [udt|]; cbn [rbind] in H; [|discriminate].
  destruct (item "ATTNDIMS" col) as [nd|]; cbn [rbind] in H; [|discriminate].
  apply item_pwf in E1; auto. destruct (String.eqb (lower dt) "array").
  - destruct (elem (lstrip_under udt)) as [v|] eqn:E; [|discriminate]. pose proof (elem_column _ _ E) as EC. destruct enforce.
    + injection H; intros X Y. unfold n_dimension_list in X.
      assert (G : forall n, t = n_lists v n -> (column_type t /\ is_proxy t = false) /\ effect R R' t).
      { intros n ->. destruct (n_lists_column v EC n) as [C D]. split; auto. left. auto. }
      destruct nd; try discriminate.
      * injection X; intros; subst t. eapply G; reflexivity.
      * destruct (z <? 0)%Z; [discriminate|]. injection X; intros; subst t. eapply G; reflexivity.
    + destruct nm as [| | | |nm| |]; try discriminate. cbv zeta in H.
      destruct (dmem (array_alias ns nm) R) eqn:M; [discriminate|]. destruct (re_match alias_regex (array_alias ns nm)) eqn:RE; [|discriminate].
      injection H; intros; subst t R'. apply alias_regex_spec in RE. destruct EC as ((C & P & _) & D & _).
      destruct (self_list_column _ v RE C P D) as [SC SD]. split; [split; [auto|reflexivity]|].
      right. eexists _, _. split; [reflexivity|]. split; [now apply dmem_false|]. split; [exact RE|exact SD].
  - injection H; intros X Y. destruct (pg_scalar_column _ _ _ _ _ W E1 X) as ((C & P & _) & D & _). split; auto. left. auto.
Qed.

Lemma db_column p col R R' t : db_parser p -> dwf col -> p col R = (R', Ok t) -> (column_type t /\ is_proxy t = false) /\ effect R R' t.
Proof.
  assert (G : forall t, column_type t /\ is_proxy t = false /\ defines t = PNone -> R = R' ->
     (column_type t /\ is_proxy t = false) /\ effect R R' t).
  { intros u (C & P & D) E. split; auto. left. split; auto. destruct (ct_alias _ C); [contradiction|auto]. }
  intros [| | |e ns] W H; [| | |now apply pg_column in H].
  all: injection H; intros X E; apply G; auto.
  - eapply mysql_column; eauto.
  - eapply snowflake_column; eauto.
  - eapply sqlite_column; eauto.
Qed.

(** ** Tables *)
Lemma fields_ok p : db_parser p -> forall cols R R' fs, Forall named cols -> fields_of p cols R = (R', Ok fs) ->
  Forall (fun f => every printable f /\ (visible_alias true f <> PNone \/ defined_aliases f = [])) fs /\
  fresh (dkeys R) (flat_map defined_aliases fs).
Proof.
  intros DB. induction cols as [|c cs IH]; intros R R' fs N H; cbn [fields_of] in H.
  - injection H; intros; subst. split; [constructor|]. exists []. repeat split; auto; try constructor; destruct H0.
  - unfold mbind in H. destruct (p c R) as [R1 [t|]] eqn:E; [|discriminate].
    unfold lift in H. destruct (finish c t) as [f|] eqn:F; [|discriminate].
    destruct (fields_of p cs R1) as [R2 [fs'|]] eqn:G; [|discriminate].
    injection H; intros; subst. inversion N as [|? ? N1 N2]; subst.
    destruct (db_column _ _ _ _ _ DB (proj1 N1) E) as [[C P] EF].
    destruct (column_field _ _ _ N1 P C F) as [F1 F2 F3].
    destruct (IH _ _ _ N2 G) as [IH1 (names & K1 & K2 & K3)]. split; [constructor; auto|].
    cbn [flat_map]. rewrite F3, K1. destruct EF as [[-> ->]|(a & s & -> & A1 & A2 & ->)].
    + exists names. auto.
    + exists (a :: names). split; [reflexivity|]. split.
      * constructor; auto. intros I. destruct (K3 a I) as [X _]. apply X. unfold dkeys. rewrite map_app, in_app_iff. right. now left.
      * intros b [<-|I]; auto. destruct (K3 b I) as [X D]. split; auto. intros J. apply X. unfold dkeys. rewrite map_app, in_app_iff. now left.
Qed.

Lemma finish_same t R R' u : FromDict.finish t R = (R', Ok u) -> u = t.
Proof.
  unfold FromDict.finish, mbind, lift. destruct (validate t); [|discriminate].
  destruct (negb _ && negb _); [|intros H; now injection H].
  destruct (register_alias t R) as [R1 [[]|]]; [|discriminate]. intros H; now injection H.
Qed.
Lemma word_children s R R' u : from_dict (PStr s) R = (R', Ok u) -> children u = [].
Proof.
  intros H. unfold from_dict in H. destruct (psize (PStr s)) as [|n]; [discriminate|]. cbn [from_dict_f] in H.
  unfold mbind at 1, lift at 1 in H. cbn [to_type_dict] in H.
  change (desugar [("type", PStr s)]) with (Ok (A := list (string * pyval)) [("type", PStr s)]) in H.
  cbn [kwarg dget String.eqb Ascii.eqb Bool.eqb is_none] in H. unfold mbind at 1, lift at 1 in H.
  unfold mbind at 1 in H. destruct (build (from_dict_f n) [("type", PStr s)] R) as [R1 [t|]] eqn:B; [|discriminate].
  apply finish_same in H. subst u. unfold build in B. cbn in B.
  repeat match type of B with
  | context [String.eqb s ?w] => destruct (String.eqb s w); [try discriminate B; cbn in B; injection B; intros; subst; reflexivity|]
  end.
  injection B; intros; subst; reflexivity.
Qed.
Lemma list_union l R R' u : from_dict (PList l) R = (R', Ok u) -> type_name u = "union".
Proof.
  intros H. unfold from_dict in H. destruct (psize (PList l)) as [|n]; [discriminate|]. cbn [from_dict_f] in H.
  unfold mbind at 1, lift at 1 in H. cbn [to_type_dict] in H.
  cbn in H. unfold mbind in H. cbn [lift] in H. destruct (mmap (from_dict_f n) l R) as [R1 [ts|]]; [|discriminate]. cbn in H. injection H; intros; now subst.
Qed.

Lemma struct_printed t d R0 R2 u : type_name t = "struct" -> c_alias (get_c t) = PNone -> children t <> [] ->
  from_dict d R0 = (R2, Ok u) -> same_meaning (names_in t) t u -> exists l, d = PDict l.
Proof.
  intros T A C F S. inversion S as [u' T1 _ _ FC|a Na]; subst.
  - destruct d as [| | | |s|l|l]; try discriminate F; eauto.
    + apply word_children in F. rewrite F in FC. inversion FC. congruence.
    + apply list_union in F. congruence.
  - exfalso. destruct Na as [(b & I & TS)|s t1 s1 Ns Ps As Ds _ _ _].
    + apply builtin_leaf in I as [X _]. destruct TS as [_ _ _ FC]. rewrite X in FC. inversion FC. congruence.
    + pose proof (defs_In _ _ _ Ns Ps As) as X. rewrite Ds in X. destruct X.
Qed.

Lemma fields_printed fs : Forall (fun f => every printable f /\ (visible_alias true f <> PNone \/ defined_aliases f = [])) fs ->
  tree_within_limits (TStruct c0 fs) -> forall R0, fresh (dkeys R0) (flat_map defined_aliases fs) ->
  exists d R2 t', to_dict true true (TStruct c0 fs) = Ok (PDict d) /\ from_dict (PDict d) R0 = (R2, Ok t') /\
    same_meaning (names_in (TStruct c0 fs)) (TStruct c0 fs) t'.
Proof.
  intros F L R0 FR.
  assert (DA : defined_aliases (TStruct c0 fs) = flat_map defined_aliases fs).
  { rewrite defined_app. cbn. now rewrite app_nil_r. }
  assert (EP : every printable (TStruct c0 fs)).
  { apply every_iff. cbn [children]. split; [|eapply Forall_impl; [|exact F]; cbn; tauto]. split; [|split; [exact I|]].
    - unfold sound_node. cbn. repeat split; try constructor. intros k [].
    - intros _. split; [intros k v []|]. cbn [children]. intros x I. rewrite Forall_forall in F. destruct (F x I) as [_ []]; auto. }
  destruct (printed _ EP L R0) as (d & R2 & t' & E1 & E2 & E3); [now rewrite DA|].
  destruct fs as [|f fs].
  - vm_compute in E1. injection E1; intros; subst d. eauto 6.
  - destruct (struct_printed (TStruct c0 (f :: fs)) d R0 R2 t') as [l ->]; auto; [discriminate|]. eauto 6.
Qed.

Theorem table_printed p cols R R' t : db_parser p -> Forall named cols -> Forall (sized p) cols -> to_recap p cols R = (R', Ok t) ->
  forall R0, (forall a, In (PStr a) (defined_aliases t) -> ~ In a (dkeys R0)) ->
  exists d R2 t', to_dict true true t = Ok (PDict d) /\ from_dict (PDict d) R0 = (R2, Ok t') /\ same_meaning (names_in t) t t'.
Proof.
  intros DB N S H R0 A. pose proof (schema_limits _ _ _ _ _ DB S H) as L.
  unfold to_recap, mbind in H. destruct (fields_of p cols R) as [R1 [fs|]] eqn:E; [|discriminate]. injection H; intros; subst. clear H.
  destruct (fields_ok p DB _ _ _ _ N E) as [F (names & K1 & K2 & K3)].
  apply fields_printed; auto. exists names. split; auto. split; auto. intros a I. split; [|apply K3; auto].
  apply A. rewrite defined_app. cbn [children]. rewrite K1, in_app_iff. left. now apply in_map.
Qed.

(** ** BigQuery *)
Lemma list_type t : every printable t -> defined_aliases t = [] -> column_type (TList c0 t PNone (PBool true)).
Proof.
  intros E D.
  assert (DA : defined_aliases (TList c0 t PNone (PBool true)) = []).
  { rewrite defined_app. cbn [children flat_map]. rewrite D. reflexivity. }
  split; auto.
  - split; [reflexivity|reflexivity|intros k []|discriminate].
  - apply every_iff. cbn [children]. split; [|constructor; [auto|constructor]]. split; [|split; [exact I|]].
    + unfold sound_node. cbn. repeat split; repeat constructor. intros k [].
    + intros _. split; [intros k v' []|]. cbn [children]. intros x [<-|[]]. auto.
Qed.
Lemma struct_type fs : Forall (fun f => every printable f /\ defined_aliases f = []) fs -> column_type (TStruct c0 fs).
Proof.
  intros F.
  assert (DA : defined_aliases (TStruct c0 fs) = []).
  { rewrite defined_app. cbn. rewrite app_nil_r. induction F as [|x l [_ D] F IH]; cbn; auto. now rewrite D. }
  split; auto.
  - split; [reflexivity|reflexivity|intros k []|discriminate].
  - apply every_iff. cbn [children]. split; [|eapply Forall_impl; [|exact F]; cbn; tauto]. split; [|split; [exact I|]].
    + unfold sound_node. cbn. repeat split; try constructor. intros k [].
    + intros _. split; [intros k v []|]. cbn [children]. intros x I. rewrite Forall_forall in F. destruct (F x I); auto.
Qed.

Definition bq_good (t : rtype) : Prop := every printable t /\ defined_aliases t = [] /\ tree_within_limits t.

Lemma bq_finish_good f t u : bq_plain f -> column_type t -> is_proxy t = false -> is_union t = false -> defined_aliases t = [] ->
  tree_within_limits t -> bq_finish f t = Ok u -> bq_good u.
Proof.
  intros B C P U D L H. destruct B as [f PW NU ML _]. unfold bq_finish in H.
  set (t1 := if String.eqb (bq_mode f) "REPEATED" then TList c0 t PNone (PBool true) else t) in *.
  assert (X : column_type t1 /\ is_proxy t1 = false /\ is_union t1 = false /\ defined_aliases t1 = [] /\ tree_within_limits t1).
  { unfold t1. destruct (String.eqb (bq_mode f) "REPEATED"); auto. split; [apply list_type; auto; apply C|].
    repeat split; auto; [|now apply list_limits]. rewrite defined_app. cbn [children flat_map]. rewrite D. reflexivity. }
  clearbody t1. clear t C P U D L. destruct X as (C & P & U & D & L). pose proof (ct_fresh _ C) as F.
  inversion PW as [|? ? W1 PW1]; subst. inversion PW1 as [|? ? W2 PW2]; subst. inversion PW2 as [|? ? W3 PW3]; subst. clear PW PW1 PW2 PW3.
  assert (NN : truthy (bq_name f) = true -> bq_name f <> PNone) by (intros E1 E2; rewrite E2 in E1; discriminate).
  assert (KN : forall k, In k ["default"; "name"; "doc"] -> ~ In k (dkeys (c_extra (get_c t1)))).
  { intros k K I. apply (ft_keys _ F) in I. cbn in *. intuition (subst; discriminate). }
  destruct (String.eqb_spec (bq_mode f) "NULLABLE") as [M|M].
  - rewrite (NU M) in H. rewrite make_nullable_other in H by (auto; now apply fresh_no_clash). cbn [snd rbind] in H.
    rewrite (ft_null _ F), (plain_fresh _ F), (ft_doc _ F) in H.
    assert (UL : union_labels t1 = [("default", PNone)]).
    { pose proof (fresh_absent t1 "default" F) as A1. pose proof (fresh_absent t1 "name" F) as A2. unfold extra in A1, A2.
      unfold union_labels, kwarg. rewrite A1, A2 by (cbn; auto). reflexivity. }
    rewrite UL in H.
    assert (G : forall x, u = TUnion (mkC PNone PNone PNone x) [TNull c0; t1] -> Forall (fun kv => pwf (snd kv)) x -> NoDup (dkeys x) ->
      (forall k, In k (dkeys x) -> k = "default" \/ k = "name") -> dget "name" x <> Some PNone -> dmem "default" x = true -> bq_good u).
    { intros x -> A1 A2 A3 A4 A5. destruct (nullable_field t1 x C U A1 A2 A3 A4 A5) as [B1 _ B3]. split; auto. split; [congruence|].
      apply tree_iff. split; [exact I|]. constructor; [apply leaf_limits; [reflexivity|exact I]|]. constructor; auto. }
    destruct (truthy (bq_name f)) eqn:TN; destruct (truthy (bq_default f)); injection H; intros; subst u;
      try specialize (NN eq_refl); (eapply G; [reflexivity|repeat constructor; auto|..]); clear G H; more.
  - cbn [rbind] in H.
    assert (G : forall doc x, pwf doc -> u = set_c t1 (mkC (c_logical (get_c t1)) (c_alias (get_c t1)) doc (c_extra (get_c t1) ++ x)) ->
      Forall (fun kv => pwf (snd kv)) x -> NoDup (dkeys x) ->
      (forall k, In k (dkeys x) -> k = "default" \/ k = "name") -> dget "name" x <> Some PNone -> bq_good u).
    { intros doc x A0 -> A1 A2 A3 A4. destruct (more_field t1 doc x C P A0 (or_introl U) A1 A2 A3 A4) as [B1 _ B3]. split; auto. split; [congruence|].
      now apply tree_set_c. }
    set (x1 := if truthy (bq_name f) then [("name", bq_name f)] else []).
    set (doc := if truthy (bq_description f) then bq_description f else PNone).
    set (x2 := if truthy (bq_default f) then [("default", bq_default f)] else []).
    injection H; intros E. apply (G doc (x1 ++ x2)).
    + unfold doc. destruct (truthy (bq_description f)); auto. constructor.
    + rewrite <- E. clear E H G.
      assert (S1 : (if truthy (bq_name f) then set_extra "name" (bq_name f) t1 else t1) =
        set_c t1 (mkC (c_logical (get_c t1)) (c_alias (get_c t1)) PNone (c_extra (get_c t1) ++ x1))).
      { unfold x1. destruct (truthy (bq_name f)).
        - rewrite set_extra_new by (apply KN; cbn; auto). now rewrite (ft_doc _ F).
        - rewrite app_nil_r, <- (ft_doc _ F). clear. destruct t1 as [[]|[]|[]|[]|[]|[]|[]|[]|[]|[]|[]|[]]; reflexivity. }
      rewrite S1. clear S1.
      assert (S2 : (if truthy (bq_description f) then set_doc (bq_description f) (set_c t1 (mkC (c_logical (get_c t1)) (c_alias (get_c t1)) PNone (c_extra (get_c t1) ++ x1)))
          else set_c t1 (mkC (c_logical (get_c t1)) (c_alias (get_c t1)) PNone (c_extra (get_c t1) ++ x1))) =
        set_c t1 (mkC (c_logical (get_c t1)) (c_alias (get_c t1)) doc (c_extra (get_c t1) ++ x1))).
      { unfold doc. destruct (truthy (bq_description f)); auto. unfold set_doc. rewrite get_set_c, set_set_c. reflexivity. }
      rewrite S2. clear S2. unfold x2. destruct (truthy (bq_default f)); [|now rewrite app_nil_r].
      rewrite set_extra_new.
      * rewrite get_set_c, set_set_c. cbn [c_logical c_alias c_doc c_extra]. now rewrite <- app_assoc.
      * rewrite get_set_c. cbn [c_extra]. unfold dkeys. rewrite map_app, in_app_iff. intros [J|J].
        -- revert J. apply KN. cbn. auto.
        -- unfold x1 in J. destruct (truthy (bq_name f)); cbn in J; intuition discriminate.
    + unfold x1, x2. destruct (truthy (bq_name f)), (truthy (bq_default f)); repeat constructor; auto.
    + clear E H G. unfold x1, x2. destruct (truthy (bq_name f)), (truthy (bq_default f)); more.
    + clear E H G. unfold x1, x2. destruct (truthy (bq_name f)), (truthy (bq_default f)); more.
    + clear E H G. unfold x1, x2. destruct (truthy (bq_name f)), (truthy (bq_default f)); try specialize (NN eq_refl); more.
Qed.

Lemma bq_scalar_good f t : bq_plain f -> bq_scalar f = Some t ->
  (column_type t /\ is_proxy t = false /\ defines t = PNone) /\ is_union t = false /\ defined_aliases t = [] /\ tree_within_limits t.
Proof.
  intros [g PW _ ML _] H. inversion PW as [|? ? W1 PW1]; subst. inversion PW1 as [|? ? W2 PW2]; subst. inversion PW2 as [|? ? W3 PW3]; subst.
  inversion PW3 as [|? ? W4 PW4]; subst. inversion PW4 as [|? ? W5 PW5]; subst. inversion PW5 as [|? ? W6 PW6]; subst.
  clear PW PW1 PW2 PW3 PW4 PW5 PW6. unfold bq_scalar in H.
  assert (LO : length_ok (bq_max_length g) (PBool true)) by (destruct ML as [->|ML]; [left; auto|right; auto]).
  split_ifs H; try discriminate H; injection H; intros; subst t; (split; [leafy|]); (split; [reflexivity|]); (split; [reflexivity|]);
    (apply leaf_limits; [reflexivity|]); first [exact LO | apply between_int; lia | right; apply between_int; lia | exact I].
Qed.

Lemma bq_field_good : forall f, bq_plain f -> forall t, bq_to_field f = Ok t -> bq_good t.
Proof.
  induction f as [f IH] using bq_ind'. intros B t H. rewrite bq_unfold in H. destruct (bq_scalar f) as [u|] eqn:E.
  - destruct (bq_scalar_good f u B E) as ((C & P & _) & U & D & L). eapply bq_finish_good; eauto.
  - destruct (str_in (bq_type f) ["RECORD"; "STRUCT"]); [|discriminate].
    destruct (rmap bq_to_field (bq_fields f)) as [fs|] eqn:R; cbn [rbind] in H; [|discriminate].
    assert (G : Forall bq_good fs).
    { destruct B as [f _ _ _ BF]. clear H E. revert fs R IH BF. generalize (bq_fields f) as l. induction l as [|x l IHl]; cbn; intros fs R IH BF.
      - injection R; intros; subst. constructor.
      - destruct (bq_to_field x) as [y|] eqn:Ex; cbn [rbind] in R; [|discriminate].
        destruct (rmap bq_to_field l) as [ys|]; cbn [rbind] in R; [|discriminate]. injection R; intros; subst.
        inversion IH; inversion BF; subst. constructor; auto. }
    assert (S : column_type (TStruct c0 fs)) by (apply struct_type; eapply Forall_impl; [|exact G]; intros x (G1 & G2 & _); auto).
    eapply bq_finish_good; eauto; try reflexivity.
    + destruct (ct_alias _ S) as [X|X]; [elim X; reflexivity|exact X].
    + apply tree_iff. split; [exact I|]. cbn [children]. eapply Forall_impl; [|exact G]. intros x (_ & _ & G3). exact G3.
Qed.

Theorem bq_printed fields t : Forall bq_plain fields -> bq_to_recap fields = Ok t -> forall R0,
  exists d R2 t', to_dict true true t = Ok (PDict d) /\ from_dict (PDict d) R0 = (R2, Ok t') /\ same_meaning builtin_ref t t'.
Proof.
  intros B H R0. unfold bq_to_recap in H. destruct (rmap bq_to_field fields) as [fs|] eqn:R; cbn [rbind] in H; [|discriminate].
  injection H; intros; subst t. clear H.
  assert (G : Forall bq_good fs).
  { revert fs R. induction B as [|x l Bx Bl IHl]; cbn; intros fs R.
    - injection R; intros; subst. constructor.
    - destruct (bq_to_field x) as [y|] eqn:Ex; cbn [rbind] in R; [|discriminate].
      destruct (rmap bq_to_field l) as [ys|]; cbn [rbind] in R; [|discriminate]. injection R; intros; subst.
      constructor; auto. eapply bq_field_good; eauto. }
  assert (D : flat_map defined_aliases fs = []).
  { clear R. induction G as [|x l (_ & D & _) G IH]; cbn; auto. now rewrite D. }
  assert (DA : defined_aliases (TStruct c0 fs) = []) by (rewrite defined_app; cbn [children]; now rewrite D).
  destruct (fields_printed fs) with (R0 := R0) as (d & R2 & t' & E1 & E2 & E3).
  - eapply Forall_impl; [|exact G]. intros x (G1 & G2 & _); auto.
  - apply tree_iff. split; [exact I|]. cbn [children]. eapply Forall_impl; [|exact G]. intros x (_ & _ & G3). exact G3.
  - rewrite D. exists []. split; [reflexivity|]. split; [constructor|]. intros a [].
  - exists d, R2, t'. split; auto. split; auto. eapply same_mono; [|exact E3].
    intros a x N [X|s t1 s1 Ns Ps As _ _ _ _]; auto. exfalso. pose proof (defs_In _ _ _ Ns Ps As) as X. rewrite DA in X. destruct X.
Qed.
