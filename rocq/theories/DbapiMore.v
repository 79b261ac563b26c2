(** PostgreSQL state, repeated reads, arrays, and value ranges (proofs only). *)
From Coq Require Import String Ascii List NArith ZArith QArith Bool Lia.
From Verif Require Import PyVal PyValFacts RType Regex Registry RegexFacts RegistryFacts SpecTypes FromDict
  Nullable NullableFacts Url Dbapi SpecDb DbapiFacts.
Import ListNotations.
Open Scope nat_scope.
Open Scope string_scope.
Open Scope list_scope.

(** ** Element types of arrays *)
Definition elem (s : string) : res rtype :=
  if String.eqb (lower s) "array" then Err ValueError
  else pg_scalar (lower s) (PInt max_field_size) (PInt (max_field_size * 8)) (element_column s).

Lemma pg_elem n enforce ns s R :
  pg_type_fuel (S (S n)) enforce ns (element_column s) R = (R, elem s).
Proof.
  rewrite pg_type_eq. unfold pg_header.
  change (item "COLUMN_NAME" (element_column s)) with (@Ok pyval PNone).
  change (item "DATA_TYPE" (element_column s)) with (@Ok pyval (PStr s)).
  change (item "CHARACTER_OCTET_LENGTH" (element_column s)) with (@Ok pyval (PInt max_field_size)).
  change (item "CHARACTER_MAXIMUM_LENGTH" (element_column s)) with (@Ok pyval (PInt (max_field_size * 8))).
  change (item "UDT_NAME" (element_column s)) with (@Ok pyval PNone).
  change (item "ATTNDIMS" (element_column s)) with (@Ok pyval (PInt 0)).
  cbn [rbind as_str lower_or_empty truthy]. unfold elem.
  destruct (String.eqb (lower s) "array"); [|reflexivity].
  unfold mbind. rewrite pg_type_eq. reflexivity.
Qed.

(** Two levels of recursion are enough. *)
Lemma pg_fuel_enough n enforce ns col R :
  pg_type_fuel (S (S (S n))) enforce ns col R = pg_type enforce ns col R.
Proof.
  unfold pg_type. rewrite !pg_type_eq.
  destruct (pg_header col) as [[[[[[nm dt] oc] ml] udt] nd]|]; [|reflexivity].
  destruct (String.eqb dt "array"); [|reflexivity]. unfold mbind. rewrite !pg_elem. reflexivity.
Qed.

Lemma pg_scalar_fresh dt oc ml col t : pg_scalar dt oc ml col = Ok t -> fresh_type t /\ children t = [].
Proof.
  intros H. unfold pg_scalar in H.
  split_ifs H; try discriminate H; try (injection H; intros; subst t; split; [fresh_leaf|reflexivity]).
  - destruct (ceil_div8 ml); cbn [rbind] in H; [|discriminate]. injection H; intros; subst t; split; [fresh_leaf|reflexivity].
  - destruct (item "DATETIME_PRECISION" col) as [p|]; cbn [rbind] in H; [|discriminate].
    destruct (get_time_unit (Some [p])) as [u|]; cbn [rbind] in H; [|discriminate].
    injection H; intros; subst t; split; [fresh_leaf|reflexivity].
  - destruct (item "NUMERIC_PRECISION" col) as [pr|]; cbn [rbind] in H; [|discriminate].
    destruct (item "NUMERIC_SCALE" col) as [sc|]; cbn [rbind] in H; [|discriminate].
    injection H; intros; subst t; split; [fresh_leaf|reflexivity].
  - destruct (item "ENUM_VALUES" col) as [e|]; cbn [rbind] in H; [|discriminate].
    destruct (truthy e); [|discriminate]. injection H; intros; subst t; split; [fresh_leaf|reflexivity].
Qed.
Lemma elem_fresh s t : elem s = Ok t -> fresh_type t /\ children t = [].
Proof.
  unfold elem. destruct (String.eqb (lower s) "array"); [discriminate|]. apply pg_scalar_fresh.
Qed.

(** What _parse_type does with a column. *)
Lemma pg_type_cases enforce ns col R : pg_type enforce ns col R =
  match pg_header col with
  | Err e => (R, Err e)
  | Ok (name, dt, octet, maxl, udt, ndims) =>
      if String.eqb dt "array" then
        match elem (lstrip_under udt) with
        | Err e => (R, Err e)
        | Ok v =>
            if enforce then (R, n_dimension_list v ndims)
            else match name with
                 | PStr nm =>
                     let a := array_alias ns nm in
                     if dmem a R then (R, Err ValueError)
                     else if re_match alias_regex a
                          then (R ++ [(a, stored R (self_list a v))], Ok (self_list a v))
                          else (R, Err ValueError)
                 | _ => (R, Err AttributeError)
                 end
        end
      else (R, pg_scalar dt octet maxl col)
  end.
Proof.
  unfold pg_type. rewrite pg_type_eq.
  destruct (pg_header col) as [[[[[[nm dt] oc] ml] udt] nd]|]; [|reflexivity].
  destruct (String.eqb dt "array"); [|reflexivity]. unfold mbind. rewrite pg_elem.
  destruct (elem (lstrip_under udt)) as [v|]; [|reflexivity]. destruct enforce; [reflexivity|].
  unfold lift. destruct nm as [| | | |nm| |]; cbn [as_str]; auto.
  unfold register_alias. cbn [self_list get_c c_alias].
  destruct (dmem (array_alias ns nm) R); auto. destruct (re_match alias_regex (array_alias ns nm)); auto.
Qed.

Lemma pg_fresh enforce ns : fresh_parser (pg_type enforce ns).
Proof.
  intros col R R' t H. rewrite pg_type_cases in H.
  destruct (pg_header col) as [[[[[[nm dt] oc] ml] udt] nd]|]; [|discriminate].
  destruct (String.eqb dt "array").
  - destruct (elem (lstrip_under udt)) as [v|] eqn:E; [|discriminate].
    destruct (elem_fresh _ _ E) as [FV _]. destruct enforce.
    + injection H; intros X Y. unfold n_dimension_list in X.
      destruct nd; try discriminate.
      * injection X; intros; subst t. destruct b; cbn; fresh_leaf.
      * destruct (z <? 0)%Z; [discriminate|]. injection X; intros; subst t.
        destruct (Z.to_nat z); cbn; fresh_leaf.
    + destruct nm as [| | | |nm| |]; try discriminate.
      cbv zeta in H. destruct (dmem _ R); [discriminate|]. destruct (re_match _ _); [|discriminate].
      injection H; intros; subst t. split; cbn; try tauto. discriminate.
  - injection H; intros X Y. apply (pg_scalar_fresh _ _ _ _ _ X).
Qed.

(** ** The four databases *)
Inductive db_parser : (column -> M rtype) -> Prop :=
| db_mysql : db_parser (pure mysql_type)
| db_snowflake : db_parser (pure snowflake_type)
| db_sqlite : db_parser (pure sqlite_type)
| db_postgresql enforce ns : db_parser (pg_type enforce ns).

Lemma db_fresh p : db_parser p -> fresh_parser p.
Proof.
  intros []; [| | |apply pg_fresh]; intros col R R' t H; injection H; intros X _.
  - eapply mysql_fresh; eauto.
  - eapply snowflake_fresh; eauto.
  - eapply sqlite_fresh; eauto.
Qed.

Theorem columns_to_fields : forall p cols R R' t, db_parser p ->
  to_recap p cols R = (R', Ok t) ->
  exists bases fields, t = TStruct c0 fields /\ mmap p cols R = (R', Ok bases)
    /\ List.length bases = List.length cols /\ List.length fields = List.length cols
    /\ Forall2 (fun cb f => field_spec (fst cb) (snd cb) f) (combine cols bases) fields.
Proof. intros p cols R R' t H. apply to_recap_spec, db_fresh, H. Qed.

(** ** C48 *)
Lemma not_null_children t : children t = [] -> is_null t = false -> ~ accepts_null t.
Proof. destruct t; cbn; auto; try discriminate. intros -> _ [? []]. Qed.
Ltac nn_leaf := intros X; exact X.
Lemma mysql_not_null col t : mysql_type col = Ok t -> ~ accepts_null t.
Proof.
  intros H. unfold mysql_type in H.
  destruct (item "DATA_TYPE" col) as [dt|]; cbn [rbind] in H; [|discriminate].
  destruct (as_str dt) as [s|]; cbn [rbind] in H; [|discriminate].
  destruct (item "CHARACTER_OCTET_LENGTH" col) as [oc|]; cbn [rbind] in H; [|discriminate].
  destruct (item "NUMERIC_PRECISION" col) as [pr|]; cbn [rbind] in H; [|discriminate].
  destruct (item "NUMERIC_SCALE" col) as [sc|]; cbn [rbind] in H; [|discriminate].
  split_ifs H; try discriminate H; try (injection H; intros; subst t; nn_leaf).
  - destruct (py_gt_z pr 23) as [[]|]; cbn [rbind] in H; try discriminate H; injection H; intros; subst t; nn_leaf.
  - destruct (item "DATETIME_PRECISION" col) as [p|]; cbn [rbind] in H; [|discriminate].
    destruct (get_time_unit (Some [p])) as [u|]; cbn [rbind] in H; [|discriminate].
    injection H; intros; subst t; nn_leaf.
Qed.
Lemma snowflake_not_null col t : snowflake_type col = Ok t -> ~ accepts_null t.
Proof.
  intros H. unfold snowflake_type in H.
  destruct (item "DATA_TYPE" col) as [dt|]; cbn [rbind] in H; [|discriminate].
  destruct (as_str dt) as [s|]; cbn [rbind] in H; [|discriminate].
  destruct (item "CHARACTER_OCTET_LENGTH" col) as [oc|]; cbn [rbind] in H; [|discriminate].
  destruct (get_time_unit _) as [u|]; cbn [rbind] in H;
  split_ifs H; try discriminate H; try (injection H; intros; subst t; nn_leaf);
  (destruct (item "NUMERIC_PRECISION" col) as [pr|]; cbn [rbind] in H; [|discriminate];
   destruct (item "NUMERIC_SCALE" col) as [sc|]; cbn [rbind] in H; [|discriminate];
   injection H; intros; subst t; nn_leaf).
Qed.
Lemma pg_not_null ns col R R' t : pg_type false ns col R = (R', Ok t) -> ~ accepts_null t.
Proof.
  intros H. rewrite pg_type_cases in H.
  destruct (pg_header col) as [[[[[[nm dt] oc] ml] udt] nd]|]; [|discriminate].
  destruct (String.eqb dt "array").
  - destruct (elem (lstrip_under udt)) as [v|] eqn:E; [|discriminate].
    destruct nm as [| | | |nm| |]; try discriminate.
    cbv zeta in H. destruct (dmem _ R); [discriminate|]. destruct (re_match _ _); [|discriminate].
    injection H; intros; subst t. nn_leaf.
  - injection H; intros X Y. destruct (pg_scalar_fresh _ _ _ _ _ X) as [F C].
    apply not_null_children; auto. apply (ft_null _ F).
Qed.
(** A SQLite column whose type no rule but the last one covers. *)
Definition numeric_column (col : column) : Prop :=
  exists s, dget "TYPE" col = Some (PStr s) /\ determined s ClassNumeric.
Lemma sqlite_not_null col t : sqlite_type col = Ok t -> ~ numeric_column col -> ~ accepts_null t.
Proof.
  intros H N. unfold sqlite_type in H. unfold item in H.
  destruct (dget "COLUMN_NAME" col) as [nm|]; cbn [rbind] in H; [|discriminate].
  destruct (dget "TYPE" col) as [ty|] eqn:ET; cbn [rbind] in H; [|discriminate].
  destruct (dget "CHARACTER_OCTET_LENGTH" col) as [oc|]; cbn [rbind] in H; [|discriminate].
  destruct (dget "NUMERIC_PRECISION" col) as [pr|]; cbn [rbind] in H; [|discriminate].
  destruct (type_text ty) as [tt|] eqn:TT; cbn [rbind] in H; [|discriminate].
  destruct (get_affinity tt) eqn:A; try (injection H; intros; subst t; nn_leaf).
  - destruct (truthy pr); [|injection H; intros; subst t; nn_leaf].
    destruct (py_gt_z pr 23) as [[]|]; cbn [rbind] in H; try discriminate H; injection H; intros; subst t; nn_leaf.
  - exfalso. apply N. unfold type_text in TT. destruct (truthy ty) eqn:TR.
    + destruct ty; cbn [as_str rbind] in TT; try discriminate. injection TT; intros; subst tt.
      exists s. split; auto. pose proof (affinity_rules s). rewrite A in H0. exact H0.
    + injection TT; intros; subst tt. discriminate.
Qed.

Lemma required_not_null col base f : field_spec col base f -> ~ nullable_column col ->
  ~ accepts_null base -> ~ accepts_null f.
Proof.
  intros FS N A. destruct (fs_required _ _ _ FS N) as (E & _). rewrite <- E in A.
  destruct f; exact A.
Qed.

Lemma Forall2_combine {A B C} (P : A * B -> C -> Prop) (l : list A) (m : list B) (n : list C) x z :
  Forall2 P (combine l m) n -> List.length m = List.length l ->
  forall i, nth_error l i = Some x -> nth_error n i = Some z ->
  exists y, nth_error m i = Some y /\ P (x, y) z.
Proof.
  revert m n. induction l as [|a l IH]; intros m n F L i Hx Hz.
  - destruct i; discriminate.
  - destruct m as [|b m]; [discriminate|]. inversion F as [|? ? ? ? P1 P2]; subst.
    destruct i; cbn in *.
    + injection Hx; injection Hz; intros; subst. eauto.
    + eapply IH; eauto.
Qed.
Lemma mmap_nth {A B} (p : A -> M B) l : forall R R' bs i x b,
  mmap p l R = (R', Ok bs) -> nth_error l i = Some x -> nth_error bs i = Some b ->
  exists R1 R2, p x R1 = (R2, Ok b).
Proof.
  induction l as [|a l IH]; intros R R' bs i x b H Hx Hb; cbn in H.
  - destruct i; discriminate.
  - unfold mbind in H. destruct (p a R) as [R1 [y|]] eqn:E; [|discriminate].
    destruct (mmap p l R1) as [R2 [ys|]] eqn:G; [|discriminate].
    injection H; intros; subst. destruct i; cbn in *.
    + injection Hx; injection Hb; intros; subst. eauto.
    + eapply IH; eauto.
Qed.

Inductive strict_parser : (column -> M rtype) -> Prop :=
| st_mysql : strict_parser (pure mysql_type)
| st_snowflake : strict_parser (pure snowflake_type)
| st_postgresql ns : strict_parser (pg_type false ns).

Theorem not_null_columns : forall p cols R R' fields i col f,
  strict_parser p -> to_recap p cols R = (R', Ok (TStruct c0 fields)) ->
  nth_error cols i = Some col -> nth_error fields i = Some f ->
  (nullable_column col <-> accepts_null f).
Proof.
  intros p cols R R' fields i col f SP H Hc Hf.
  assert (DB : db_parser p) by (destruct SP; constructor).
  destruct (columns_to_fields _ _ _ _ _ DB H) as (bs & fs & E & M & L & _ & Q).
  injection E; intros; subst fs.
  destruct (Forall2_combine _ _ _ _ _ _ Q L _ Hc Hf) as (b & Hb & FS). cbn in FS.
  destruct (mmap_nth _ _ _ _ _ _ _ _ M Hc Hb) as (R1 & R2 & PB).
  split; [apply (fs_null _ _ _ FS)|].
  intros A.
  destruct (dget "IS_NULLABLE" col) as [n|] eqn:EN.
  2:{ exfalso. eapply (required_not_null _ _ _ FS); eauto.
      - intros (s & X & _). congruence.
      - destruct SP; [injection PB; intros X _; eapply mysql_not_null; eauto
                     |injection PB; intros X _; eapply snowflake_not_null; eauto|eapply pg_not_null; eauto]. }
  assert (D : nullable_column col \/ ~ nullable_column col).
  { destruct n as [| | | |s| |]; try (right; intros (x & X & _); congruence).
    destruct (String.eqb (upper s) "YES") eqn:Y.
    - left. exists s. split; auto. now apply nullable_upper.
    - right. intros (x & X & C). rewrite EN in X. injection X; intros; subst.
      apply nullable_upper in C. congruence. }
  destruct D as [D|D]; auto. exfalso. eapply (required_not_null _ _ _ FS); eauto.
  destruct SP; [injection PB; intros X _; eapply mysql_not_null; eauto
               |injection PB; intros X _; eapply snowflake_not_null; eauto|eapply pg_not_null; eauto].
Qed.

Theorem sqlite_not_null_columns : forall cols R R' fields i col f,
  to_recap (pure sqlite_type) cols R = (R', Ok (TStruct c0 fields)) ->
  nth_error cols i = Some col -> nth_error fields i = Some f ->
  ~ numeric_column col -> ~ nullable_column col -> ~ accepts_null f.
Proof.
  intros cols R R' fields i col f H Hc Hf N NN.
  destruct (columns_to_fields _ _ _ _ _ db_sqlite H) as (bs & fs & E & M & L & _ & Q).
  injection E; intros; subst fs.
  destruct (Forall2_combine _ _ _ _ _ _ Q L _ Hc Hf) as (b & Hb & FS). cbn in FS.
  destruct (mmap_nth _ _ _ _ _ _ _ _ M Hc Hb) as (R1 & R2 & PB). injection PB; intros X _.
  eapply required_not_null; eauto. eapply sqlite_not_null; eauto.
Qed.
