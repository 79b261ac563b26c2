(** Repeated PostgreSQL reads, arrays, time units and value ranges (proofs only). *)
From Coq Require Import String Ascii List NArith ZArith QArith Bool Lia.
From Verif Require Import PyVal PyValFacts RType Regex Registry RegexFacts RegistryFacts SpecTypes FromDict
  Nullable NullableFacts Url Dbapi SpecDb DbapiFacts DbapiMore.
Import ListNotations.
Open Scope nat_scope.
Open Scope string_scope.
Open Scope list_scope.

(** ** C49 *)
Lemma time_unit_inv u n : time_unit u n -> (n = 0 \/ n = 3 \/ n = 6 \/ n = 9)%Z.
Proof. intros []; auto. Qed.
Lemma coarsest_unit (p : Z) (u : string) : (0 <= p <= 9)%Z ->
  u = (if (p =? 0)%Z then "second" else if (p <=? 3)%Z then "millisecond"
       else if (p <=? 6)%Z then "microsecond" else "nanosecond") -> coarsest p u.
Proof.
  intros B ->. unfold coarsest.
  destruct (Z.eqb_spec p 0) as [E0|E0]; [|destruct (Z.leb_spec p 3) as [E1|E1]; [|destruct (Z.leb_spec p 6) as [E2|E2]]].
  - exists 0%Z. split; [constructor|]. split; [lia|]. intros u' n' H _. apply time_unit_inv in H. lia.
  - exists 3%Z. split; [constructor|]. split; [lia|]. intros u' n' H K. apply time_unit_inv in H. lia.
  - exists 6%Z. split; [constructor|]. split; [lia|]. intros u' n' H K. apply time_unit_inv in H. lia.
  - exists 9%Z. split; [constructor|]. split; [lia|]. intros u' n' H K. apply time_unit_inv in H. lia.
Qed.
Theorem unit_coarsest : forall p v dflt, (0 <= p <= 9)%Z -> py_int v = Ok p ->
  (dflt = "nanosecond" \/ (dflt = "microsecond" /\ (p <= 6)%Z)) ->
  exists u, get_time_unit (Some [v]) = Ok u /\ coarsest p (unit_or u dflt).
Proof.
  intros p v dflt B V D. unfold get_time_unit. rewrite V. cbn [rbind].
  destruct (Z.eqb_spec p 0); [|destruct (Z.leb_spec p 3); [|destruct (Z.leb_spec p 6)]];
    eexists; (split; [reflexivity|]); cbn [unit_or]; apply coarsest_unit; auto.
  - subst. reflexivity.
  - destruct (Z.eqb_spec p 0); [lia|]. destruct (Z.leb_spec p 3); [auto|lia].
  - destruct (Z.eqb_spec p 0); [lia|]. destruct (Z.leb_spec p 3); [lia|].
    destruct (Z.leb_spec p 6); [auto|lia].
  - destruct (Z.eqb_spec p 0); [lia|]. destruct (Z.leb_spec p 3); [lia|].
    destruct (Z.leb_spec p 6); [lia|]. destruct D as [|[_ X]]; [auto|lia].
Qed.

(** Timestamp columns of MySQL and PostgreSQL. *)
Theorem timestamp_columns : forall p R R' col t v s,
  p = pure mysql_type \/ (exists enforce ns, p = pg_type enforce ns) ->
  dget "DATA_TYPE" col = Some (PStr s) -> starts "timestamp" (lower s) = true ->
  dget "DATETIME_PRECISION" col = Some (PInt v) -> (0 <= v <= 6)%Z ->
  p col R = (R', Ok t) ->
  exists u, t = TInt (lge "build.recap.Timestamp" [("unit", PStr u)]) (PInt 64) (PBool true)
    /\ coarsest v u.
Proof.
  intros p R R' col t v s P DT ST DP B H.
  destruct (unit_coarsest v (PInt v) "microsecond") as (u & U & C); auto; [lia| |].
  { right. split; auto. lia. }
  exists (unit_or u "microsecond"). split; auto.
  apply prefix_spec in ST as [r ST].
  assert (NE : forall l, (forall x, In x l -> String.prefix "t" x = false \/ String.prefix "tinyblob" x = true
       \/ String.prefix "text" x = true \/ String.prefix "tiny" x = true) -> str_in (lower s) l = false).
  { intros l Hl. unfold str_in. destruct (existsb _ l) eqn:E; auto. exfalso.
    apply existsb_exists in E as (x & I & X). apply String.eqb_eq in X. subst x. apply Hl in I. rewrite ST in I.
    cbn in I. intuition discriminate. }
  assert (PF : forall x, String.prefix x "timestamp" = false -> String.prefix "timestamp" x = false ->
     starts x (lower s) = false).
  { intros x. unfold starts. rewrite ST. clear. generalize "timestamp". intros y. revert y.
    induction x as [|a x IH]; intros y A B; [destruct y; discriminate|].
    destruct y as [|b y]; [discriminate|]. cbn in *.
    destruct (ascii_dec a b); [|reflexivity]. subst.
    destruct (ascii_dec b b); [|congruence]. apply IH; auto. }
  destruct P as [->|(enforce & ns & ->)].
  - injection H; intros X _. unfold mysql_type, item in X. rewrite DT in X. cbn [rbind as_str] in X.
    destruct (dget "CHARACTER_OCTET_LENGTH" col); cbn [rbind] in X; [|discriminate].
    destruct (dget "NUMERIC_PRECISION" col); cbn [rbind] in X; [|discriminate].
    destruct (dget "NUMERIC_SCALE" col); cbn [rbind] in X; [|discriminate].
    rewrite DP in X. cbn [rbind] in X. rewrite U in X. cbn [rbind] in X.
    assert (EQ : forall x, String.prefix "timestamp" x = false -> String.eqb (lower s) x = false).
    { intros x Hx. apply String.eqb_neq. intros EX. rewrite <- EX in Hx.
      assert (String.prefix "timestamp" (lower s) = true) by (apply prefix_spec; eauto). congruence. }
    rewrite !EQ in X by reflexivity.
    rewrite !NE in X by (cbn; intuition (subst; cbn; auto)).
    rewrite (PF "varchar"), (PF "char"), (PF "varbinary"), (PF "binary"), (PF "bit") in X by reflexivity.
    cbn [orb] in X.
    assert (TS : starts "timestamp" (lower s) = true) by (apply prefix_spec; eauto).
    rewrite TS in X. cbn [orb] in X. injection X; intros; subst. reflexivity.
  - rewrite pg_type_cases in H. unfold pg_header, item in H.
    destruct (dget "COLUMN_NAME" col); cbn [rbind] in H; [|discriminate].
    rewrite DT in H. cbn [rbind as_str] in H.
    destruct (dget "CHARACTER_OCTET_LENGTH" col); cbn [rbind] in H; [|discriminate].
    destruct (dget "CHARACTER_MAXIMUM_LENGTH" col); cbn [rbind] in H; [|discriminate].
    destruct (dget "UDT_NAME" col) as [ud|]; cbn [rbind] in H; [|discriminate].
    destruct (lower_or_empty ud); cbn [rbind] in H; [|discriminate].
    destruct (dget "ATTNDIMS" col); cbn [rbind] in H; [|discriminate].
    assert (EQ : forall x, String.prefix "timestamp" x = false -> String.eqb (lower s) x = false).
    { intros x Hx. apply String.eqb_neq. intros EX. rewrite <- EX in Hx.
      assert (String.prefix "timestamp" (lower s) = true) by (apply prefix_spec; eauto). congruence. }
    rewrite EQ in H by reflexivity. injection H; intros X _. unfold pg_scalar in X.
    rewrite !EQ in X by reflexivity.
    rewrite !NE in X by (cbn; intuition (subst; cbn; auto)).
    rewrite (PF "varchar"), (PF "character varying"), (PF "char"), (PF "bit varying"), (PF "bit") in X by reflexivity.
    cbn [orb] in X.
    assert (TS : starts "timestamp" (lower s) = true) by (apply prefix_spec; eauto).
    rewrite TS in X. unfold item in X. rewrite DP in X. cbn [rbind] in X. rewrite U in X. cbn [rbind] in X.
    injection X; intros; subst. reflexivity.
Qed.

(** ** C51 *)
Lemma n_lists_nested t n : nested t n (n_lists t n).
Proof. induction n; cbn; constructor; auto. Qed.
Lemma lower_upper_char a : Url.lower_char (upper_char a) = Url.lower_char a.
Proof. destruct a as [[][][][][][][][]]; reflexivity. Qed.
Lemma upper_lower_char a : upper_char (Url.lower_char a) = upper_char a.
Proof. destruct a as [[][][][][][][][]]; reflexivity. Qed.
Lemma lower_upper s : lower (upper s) = lower s.
Proof. induction s as [|c s IH]; cbn; auto. rewrite lower_upper_char, IH. reflexivity. Qed.
Lemma upper_lower s : upper (lower s) = upper s.
Proof. induction s as [|c s IH]; cbn; auto. rewrite upper_lower_char, IH. reflexivity. Qed.
Lemma ci_lower s t : ci_eq s t <-> lower s = lower t.
Proof.
  rewrite ci_eq_upper. split; intros H.
  - rewrite <- (lower_upper s), <- (lower_upper t). congruence.
  - rewrite <- (upper_lower s), <- (upper_lower t). congruence.
Qed.

Definition is_array (col : column) : bool :=
  match dget "DATA_TYPE" col with Some (PStr s) => String.eqb (lower s) "array" | _ => false end.
Lemma is_array_spec col : is_array col = true <-> array_column col.
Proof.
  unfold is_array, array_column. split.
  - destruct (dget "DATA_TYPE" col) as [[| | | |s| |]|]; try discriminate. intros H.
    exists s. split; auto. apply ci_lower. now apply String.eqb_eq.
  - intros (s & -> & C). apply ci_lower in C. now apply String.eqb_eq.
Qed.
Lemma header_array col nm dt oc ml udt nd : pg_header col = Ok (nm, dt, oc, ml, udt, nd) ->
  String.eqb dt "array" = is_array col /\ dget "COLUMN_NAME" col = Some nm /\ dget "ATTNDIMS" col = Some nd
  /\ exists u, dget "UDT_NAME" col = Some u /\ lower_or_empty u = Ok udt.
Proof.
  unfold pg_header, item, is_array. intros H.
  destruct (dget "COLUMN_NAME" col); cbn [rbind] in H; [|discriminate].
  destruct (dget "DATA_TYPE" col) as [[| | | |s| |]|]; cbn [rbind as_str] in H; try discriminate.
  destruct (dget "CHARACTER_OCTET_LENGTH" col); cbn [rbind] in H; [|discriminate].
  destruct (dget "CHARACTER_MAXIMUM_LENGTH" col); cbn [rbind] in H; [|discriminate].
  destruct (dget "UDT_NAME" col) as [ud|]; cbn [rbind] in H; [|discriminate].
  destruct (lower_or_empty ud) eqn:U; cbn [rbind] in H; [|discriminate].
  destruct (dget "ATTNDIMS" col); cbn [rbind] in H; [|discriminate].
  injection H; intros; subst. repeat split; eauto.
Qed.

Theorem array_dimensions : forall ns col R R' t n,
  array_column col -> dget "ATTNDIMS" col = Some (PInt (Z.of_nat n)) ->
  pg_type true ns col R = (R', Ok t) ->
  R' = R /\ exists v, nested v n t /\ children v = [] /\ ~ accepts_null v.
Proof.
  intros ns col R R' t n A D H. rewrite pg_type_cases in H.
  destruct (pg_header col) as [[[[[[nm dt] oc] ml] udt] nd]|] eqn:HD; [|discriminate].
  destruct (header_array _ _ _ _ _ _ _ HD) as (EA & _ & ND & _).
  apply is_array_spec in A. rewrite EA, A in H. rewrite D in ND. injection ND; intros; subst nd.
  destruct (elem (lstrip_under udt)) as [v|] eqn:E; [|discriminate].
  destruct (elem_fresh _ _ E) as [F C]. unfold n_dimension_list in H.
  destruct (Z.ltb_spec (Z.of_nat n) 0); [lia|]. rewrite Nat2Z.id in H. injection H; intros; subst.
  split; auto. exists v. split; [apply n_lists_nested|]. split; auto.
  apply not_null_children; auto. apply (ft_null _ F).
Qed.

(** ** C50: reads with a shared converter *)
Definition alias_of (col : column) : list string :=
  if is_array col then
    match dget "COLUMN_NAME" col with Some (PStr nm) => [array_alias "_root" nm] | _ => [] end
  else [].
Definition aliases (cols : list column) : list string := flat_map alias_of cols.

(** Without arrays the registry plays no role. *)
Lemma pg_scalar_pure col : is_array col = false ->
  exists r, forall R, pg_type false "_root" col R = (R, r).
Proof.
  intros A. destruct (pg_header col) as [[[[[[nm dt] oc] ml] udt] nd]|] eqn:HD.
  - exists (pg_scalar dt oc ml col). intros R. rewrite pg_type_cases, HD.
    destruct (header_array _ _ _ _ _ _ _ HD) as (EA & _). now rewrite EA, A.
  - eexists. intros R. rewrite pg_type_cases, HD. reflexivity.
Qed.
Lemma pg_array_effect col : is_array col = true ->
  (exists e, forall R, pg_type false "_root" col R = (R, Err e)) \/
  (exists a v, alias_of col = [a] /\ re_match alias_regex a = true /\ forall R,
     pg_type false "_root" col R =
     if dmem a R then (R, Err ValueError) else (R ++ [(a, stored R (self_list a v))], Ok (self_list a v))).
Proof.
  intros A. destruct (pg_header col) as [[[[[[nm dt] oc] ml] udt] nd]|] eqn:HD.
  2:{ left. eexists. intros R. rewrite pg_type_cases, HD. reflexivity. }
  destruct (header_array _ _ _ _ _ _ _ HD) as (EA & EN & _).
  destruct (elem (lstrip_under udt)) as [v|] eqn:E.
  2:{ left. eexists. intros R. rewrite pg_type_cases, HD, EA, A, E. reflexivity. }
  destruct nm as [| | | |nm| |];
    try (left; eexists; intros R; rewrite pg_type_cases, HD, EA, A, E; reflexivity).
  destruct (re_match alias_regex (array_alias "_root" nm)) eqn:RM.
  - right. exists (array_alias "_root" nm), v. split; [unfold alias_of; now rewrite A, EN|]. split; auto.
    intros R. rewrite pg_type_cases, HD, EA, A, E. cbv zeta. rewrite RM. destruct (dmem _ R); reflexivity.
  - left. exists ValueError. intros R. rewrite pg_type_cases, HD, EA, A, E. cbv zeta. rewrite RM.
    destruct (dmem _ R); reflexivity.
Qed.

Notation pg := (pg_type false "_root").

Lemma dmem_snoc {V} a (R : list (string * V)) b x : dmem a (R ++ [(b, x)]) = dmem a R || String.eqb a b.
Proof.
  unfold dmem. rewrite dget_app. destruct (dget a R); auto. cbn. now destruct (String.eqb a b).
Qed.

Lemma fields_fresh cols : forall R R' fs, fields_of pg cols R = (R', Ok fs) ->
  (forall a, In a (aliases cols) -> dmem a R = false) /\
  (forall a, dmem a R' = dmem a R || str_in a (aliases cols)).
Proof.
  induction cols as [|c cs IH]; intros R R' fs H; cbn [fields_of] in H.
  - injection H; intros; subst. split; [intros a []|]. intros a. cbn. now rewrite orb_false_r.
  - unfold mbind in H. destruct (pg c R) as [R1 [t|]] eqn:P; [|discriminate].
    unfold lift in H. destruct (finish c t) as [f|]; [|discriminate].
    destruct (fields_of pg cs R1) as [R2 [fs'|]] eqn:G; [|discriminate].
    injection H; intros; subst. destruct (IH _ _ _ G) as [I1 I2]. clear H.
    cbn [aliases flat_map]. destruct (is_array c) eqn:A.
    + destruct (pg_array_effect c A) as [[e Q]|(a & v & AL & RM & Q)]; rewrite Q in P; [discriminate|].
      destruct (dmem a R) eqn:DA; [discriminate|]. injection P; intros; subst.
      rewrite AL. cbn [app]. split.
      * intros x [<-|X]; auto. specialize (I1 x X). rewrite dmem_snoc in I1. apply orb_false_elim in I1. tauto.
      * intros x. rewrite I2, dmem_snoc. unfold str_in. cbn [existsb]. now rewrite <- orb_assoc.
    + destruct (pg_scalar_pure c A) as [r Q]. rewrite Q in P. injection P; intros; subst.
      unfold alias_of. rewrite A. cbn [app]. auto.
Qed.

Lemma fields_again cols : forall R R' fs S, fields_of pg cols R = (R', Ok fs) ->
  (forall a, In a (aliases cols) -> dmem a S = false) ->
  exists S', fields_of pg cols S = (S', Ok fs).
Proof.
  induction cols as [|c cs IH]; intros R R' fs S H NS; cbn [fields_of] in *.
  - injection H; intros; subst. eexists. reflexivity.
  - unfold mbind in *. destruct (pg c R) as [R1 [t|]] eqn:P; [|discriminate].
    unfold lift in *. destruct (finish c t) as [f|] eqn:F; [|discriminate].
    destruct (fields_of pg cs R1) as [R2 [fs'|]] eqn:G; [|discriminate].
    injection H; intros; subst. clear H. cbn [aliases flat_map] in NS. destruct (is_array c) eqn:A.
    + destruct (pg_array_effect c A) as [[e Q]|(a & v & AL & RM & Q)]; rewrite Q in P |- *; [discriminate|].
      destruct (dmem a R) eqn:DA; [discriminate|]. injection P; intros; subst.
      rewrite AL in NS. rewrite NS by (left; reflexivity). rewrite F.
      destruct (fields_fresh _ _ _ _ G) as [NF _].
      destruct (IH _ _ _ (S ++ [(a, stored S (self_list a v))]) G) as [S' ->]; [|eexists; reflexivity].
      intros x X. rewrite dmem_snoc, NS by (right; exact X). cbn [orb].
      specialize (NF x X). rewrite dmem_snoc in NF. apply orb_false_elim in NF. tauto.
    + destruct (pg_scalar_pure c A) as [r Q]. rewrite Q in P |- *. injection P; intros; subst.
      rewrite F. destruct (IH _ _ _ S G) as [S' ->]; [|eexists; reflexivity].
      intros x X. apply NS, in_or_app. right. exact X.
Qed.

Lemma fields_clash cols : forall R R' fs S a, fields_of pg cols R = (R', Ok fs) ->
  In a (aliases cols) -> dmem a S = true -> snd (fields_of pg cols S) = Err ValueError.
Proof.
  induction cols as [|c cs IH]; intros R R' fs S a H I D; [destruct I|]. cbn [fields_of] in *.
  unfold mbind in *. destruct (pg c R) as [R1 [t|]] eqn:P; [|discriminate].
  unfold lift in *. destruct (finish c t) as [f|] eqn:F; [|discriminate].
  destruct (fields_of pg cs R1) as [R2 [fs'|]] eqn:G; [|discriminate].
  injection H; intros; subst. clear H. cbn [aliases flat_map] in I. destruct (is_array c) eqn:A.
  - destruct (pg_array_effect c A) as [[e Q]|(b & v & AL & RM & Q)]; rewrite Q in P |- *; [discriminate|].
    destruct (dmem b R) eqn:DA; [discriminate|]. injection P; intros; subst.
    destruct (dmem b S) eqn:DS; [reflexivity|]. rewrite F.
    rewrite AL in I. destruct I as [<-|I]; [congruence|].
    specialize (IH _ _ _ (S ++ [(b, stored S (self_list b v))]) a G I).
    destruct (fields_of pg cs (S ++ _)) as [S' [x|]]; cbn in *.
    + discriminate IH. rewrite dmem_snoc, D. reflexivity.
    + rewrite <- IH; [reflexivity|]. rewrite dmem_snoc, D. reflexivity.
  - destruct (pg_scalar_pure c A) as [r Q]. rewrite Q in P |- *. injection P; intros; subst.
    rewrite F. unfold alias_of in I. rewrite A in I. cbn [app] in I.
    specialize (IH _ _ _ S a G I D). destruct (fields_of pg cs S) as [S' [x|]]; cbn in *; congruence.
Qed.

(** The registry only grows. *)
Lemma fields_grow cols : forall R R' r a, fields_of pg cols R = (R', r) -> dmem a R = true -> dmem a R' = true.
Proof.
  induction cols as [|c cs IH]; intros R R' r a H D; cbn [fields_of] in H.
  - injection H; intros; subst; auto.
  - unfold mbind in H. destruct (pg c R) as [R1 rt] eqn:P.
    assert (D1 : dmem a R1 = true).
    { destruct (is_array c) eqn:A.
      - destruct (pg_array_effect c A) as [[e Q]|(b & v & AL & RM & Q)]; rewrite Q in P.
        + injection P; intros; subst; auto.
        + destruct (dmem b R); injection P; intros; subst; auto. rewrite dmem_snoc, D. reflexivity.
      - destruct (pg_scalar_pure c A) as [x Q]. rewrite Q in P. injection P; intros; subst; auto. }
    destruct rt as [t|]; [|injection H; intros; subst; auto].
    unfold lift in H. destruct (finish c t); [|injection H; intros; subst; auto].
    destruct (fields_of pg cs R1) as [R2 [fs'|]] eqn:G; injection H; intros; subst; eapply IH; eauto.
Qed.

Fixpoint pg_state (tables : list (list column)) (R : registry) : registry :=
  match tables with
  | [] => R
  | t :: ts => pg_state ts (fst (pg_read t R))
  end.
Lemma pg_state_grow ts : forall R a, dmem a R = true -> dmem a (pg_state ts R) = true.
Proof.
  induction ts as [|t ts IH]; intros R a H; cbn; auto. apply IH.
  unfold pg_read, to_recap, mbind, ret. destruct (fields_of pg t R) as [R1 r] eqn:G.
  assert (dmem a R1 = true) by (eapply fields_grow; eauto). destruct r; auto.
Qed.
Lemma pg_reads_app ts1 : forall ts2 R,
  pg_reads (ts1 ++ ts2) R = pg_reads ts1 R ++ pg_reads ts2 (pg_state ts1 R).
Proof.
  induction ts1 as [|t ts IH]; intros ts2 R; cbn; auto.
  destruct (pg_read t R) as [R1 r]. cbn. now rewrite IH.
Qed.
Lemma pg_reads_length ts : forall R, List.length (pg_reads ts R) = List.length ts.
Proof. induction ts as [|t ts IH]; intros R; cbn; auto. destruct (pg_read t R). cbn. now rewrite IH. Qed.

Lemma pg_read_fields t R R' s : pg_read t R = (R', Ok s) ->
  exists fs, s = TStruct c0 fs /\ fields_of pg t R = (R', Ok fs).
Proof.
  unfold pg_read, to_recap, mbind, ret. destruct (fields_of pg t R) as [R1 [fs|]]; [|discriminate].
  intros H. injection H; intros; subst. eauto.
Qed.

(** Reading a table with an array column again always fails. *)
Theorem second_read_fails : forall R before between t s,
  nth_error (pg_reads (before ++ t :: between ++ [t]) R) (List.length before) = Some (Ok s) ->
  (exists col, In col t /\ array_column col) ->
  nth_error (pg_reads (before ++ t :: between ++ [t]) R) (List.length before + S (List.length between))
    = Some (Err ValueError).
Proof.
  intros R before between t s H (col & IC & AC).
  rewrite pg_reads_app in *. set (R0 := pg_state before R) in *.
  rewrite nth_error_app2 in H by (rewrite pg_reads_length; lia).
  rewrite nth_error_app2 by (rewrite pg_reads_length; lia).
  rewrite pg_reads_length in *. rewrite Nat.sub_diag in H.
  replace (List.length before + S (List.length between) - List.length before)
    with (S (List.length between)) by lia.
  cbn [pg_reads] in *. destruct (pg_read t R0) as [R1 r] eqn:P. cbn in H. injection H; intros; subst r.
  cbn [nth_error]. rewrite pg_reads_app. rewrite nth_error_app2 by (rewrite pg_reads_length; lia).
  rewrite pg_reads_length, Nat.sub_diag. cbn [pg_reads].
  destruct (pg_read_fields _ _ _ _ P) as (fs & -> & FO).
  destruct (fields_fresh _ _ _ _ FO) as [_ GR].
  assert (EA : exists a, In a (aliases t)).
  { apply is_array_spec in AC. destruct (pg_array_effect col AC) as [[e Q]|(a & v & AL & _)].
    - exfalso. clearbody R0. clear -IC Q FO. revert R0 R1 fs FO. induction t as [|c cs IH]; [destruct IC|].
      intros R0 R1 fs FO. cbn [fields_of] in FO. unfold mbind in FO.
      destruct (pg c R0) as [R2 [x|]] eqn:P; [|discriminate].
      destruct IC as [->|IC].
      + rewrite Q in P. discriminate.
      + unfold lift in FO. destruct (finish c x); [|discriminate].
        destruct (fields_of pg cs R2) as [R3 [y|]] eqn:G; [|discriminate]. exact (IH IC _ _ _ G).
    - exists a. apply in_flat_map. exists col. rewrite AL. split; auto. left; auto. }
  destruct EA as [a IA].
  assert (D1 : dmem a R1 = true).
  { rewrite GR. apply orb_true_iff. right. apply existsb_exists. exists a. split; auto. apply String.eqb_refl. }
  assert (D2 : dmem a (pg_state between R1) = true) by (apply pg_state_grow; auto).
  pose proof (fields_clash _ _ _ _ _ _ FO IA D2) as E.
  unfold pg_read, to_recap, mbind, ret.
  destruct (fields_of pg t (pg_state between R1)) as [R4 [x|]]; cbn in *; congruence.
Qed.

(** Histories in which no array column name occurs twice. *)
Theorem distinct_reads : forall tables types,
  Forall2 (fun t s => snd (pg_read t builtin_aliases) = Ok s) tables types ->
  NoDup (flat_map aliases tables) ->
  pg_reads tables builtin_aliases = map Ok types.
Proof.
  intros tables types F N.
  assert (G : forall tables types R,
    Forall2 (fun t s => snd (pg_read t builtin_aliases) = Ok s) tables types ->
    NoDup (flat_map aliases tables) -> (forall a, In a (flat_map aliases tables) -> dmem a R = false) ->
    pg_reads tables R = map Ok types).
  { clear. induction tables as [|t ts IH]; intros types R F N D; inversion F as [|? s ? ss F1 F2]; subst; auto.
    cbn [pg_reads map]. destruct (pg_read t builtin_aliases) as [R0 r] eqn:P. cbn in F1. subst r.
    destruct (pg_read_fields _ _ _ _ P) as (fs & -> & FO).
    cbn [flat_map] in N, D.
    destruct (fields_again _ _ _ _ R FO) as [S' FS].
    { intros a I. apply D, in_or_app. auto. }
    assert (PR : pg_read t R = (S', Ok (TStruct c0 fs))).
    { unfold pg_read, to_recap, mbind, ret. rewrite FS. reflexivity. }
    rewrite PR. f_equal. apply IH; auto.
    - clear -N. induction (aliases t); auto. inversion N; auto.
    - intros a I. destruct (fields_fresh _ _ _ _ FS) as [_ GR]. rewrite GR.
      rewrite (D a) by (apply in_or_app; auto). cbn [orb].
      destruct (str_in a (aliases t)) eqn:E; auto. exfalso.
      apply existsb_exists in E as (x & Ix & Ex). apply String.eqb_eq in Ex. subst x.
      clear -N I Ix. induction (aliases t) as [|y l IHl]; [destruct Ix|].
      inversion N; subst. destruct Ix as [->|Ix]; [apply H1, in_or_app; auto|auto]. }
  apply G; auto. intros a I. apply in_flat_map in I as (t & It & Ia).
  clear -F It Ia. induction F as [|t0 s ts ss P F IH]; [destruct It|].
  destruct It as [->|It]; auto. destruct (pg_read t builtin_aliases) as [R0 r] eqn:E. cbn in P. subst r.
  destruct (pg_read_fields _ _ _ _ E) as (fs & -> & FO). apply (fields_fresh _ _ _ _ FO). exact Ia.
Qed.
