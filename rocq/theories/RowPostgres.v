(** C109: the values of PostgreSQL columns. *)
From Coq Require Import String Ascii List NArith ZArith QArith Bool Lia.
From Verif Require Import PyVal RType Regex Registry SpecTypes FromDict Nullable Url Dbapi SpecDb SpecInstances SpecRows
  PyValFacts DbapiFacts DbapiMore DbReads DbRanges RowFacts RowTypes RowMysql.
Import ListNotations.
Open Scope nat_scope.
Open Scope string_scope.
Open Scope list_scope.

(** The type that is read for a column that is not an array. *)
Definition pg_base_read (b : pg_base) : res rtype :=
  let nat_v n := PInt (Z.of_nat n) in
  match b with
  | PgSmall => Ok (int_t 16 true)
  | PgInteger => Ok (int_t 32 true)
  | PgBig => Ok (int_t 64 true)
  | PgReal => Ok (float_t 32)
  | PgDouble => Ok (float_t 64)
  | PgBool => Ok (TBool c0)
  | PgNumeric (Some (p, s)) => Ok (decimal_t 32 (PInt p) (PInt s))
  | PgNumeric None => Ok (decimal_t 32 PNone PNone)
  | PgText | PgVarchar None => Ok (TString c0 (PInt pg_largest) (PBool true))
  | PgVarchar (Some n) => Ok (TString c0 (nat_v (4 * n)) (PBool true))
  | PgChar n => Ok (TString c0 (nat_v (4 * n)) (PBool false))
  | PgJson _ => Ok (TString c0 PNone (PBool true))
  | PgUuid => Ok (TString (lg "build.recap.UUID") (PInt 36) (PBool false))
  | PgBytea | PgVarbit _ => Ok (TBytes c0 (PInt max_field_size) (PBool true))
  | PgBit n => Ok (TBytes c0 (PInt (- ((- Z.of_nat n) / 8))) (PBool false))
  | PgEnum _ ls => Ok (TEnum c0 (PList (map PStr ls)))
  | PgTimestamp _ p => Ok (time_t "build.recap.Timestamp" 64 (unit_of p))
  | PgDate | PgTime _ | PgInterval => Err ValueError
  end.
Definition pg_element_read (b : pg_base) : res rtype :=
  match b with
  | PgInteger => Ok (int_t 32 true)
  | PgBig => Ok (int_t 64 true)
  | PgReal => Ok (float_t 32)
  | PgDouble => Ok (float_t 64)
  | PgText | PgVarchar _ | PgJson _ => Ok (TString c0 (PInt max_field_size) (PBool true))
  | PgUuid => Ok (TString (lg "build.recap.UUID") (PInt 36) (PBool false))
  | PgBytea => Ok (TBytes c0 (PInt max_field_size) (PBool true))
  | PgBit _ => Ok (TBytes c0 (PInt max_field_size) (PBool false))
  | PgNumeric _ | PgTimestamp _ _ => Err KeyError
  | _ => Err ValueError
  end.

Lemma pg_header_read d col : described pg_decl pg_facts d col ->
  exists oc ml nd, pg_header col = Ok (PStr (d_name d),
    match d_type d with PgColumn b => lower (pg_sql_name b) | PgArray _ _ => "array" end, oc, ml,
    match d_type d with PgColumn b => lower (pg_udt_name b) | PgArray b _ => lower ("_" ++ pg_udt_name b) end, nd) /\
    item "CHARACTER_OCTET_LENGTH" col = Ok oc /\ item "CHARACTER_MAXIMUM_LENGTH" col = Ok ml /\
    nd = PInt (Z.of_nat (match d_type d with PgColumn _ => 0 | PgArray _ n => n end)).
Proof.
  intros D.
  assert (F : forall k v, In (k, v) (pg_facts (d_type d)) -> item k col = Ok v) by (intros; eapply fact_item; eauto).
  assert (LE : forall s, lower_or_empty (PStr s) = Ok (lower s)) by (intros [|c s]; reflexivity).
  unfold pg_header, item at 1. rewrite (de_name _ _ _ _ D). cbn [rbind].
  destruct (d_type d) as [b|b n].
  - destruct b as [| | | | | |[[p s]|]| |[n|]|n|bi| | |n|n|nm ls|z p| |p| ]; try destruct bi; try destruct z; cbn [pg_facts In] in F;
      rewrite (F "DATA_TYPE" _ ltac:(auto)), (F "CHARACTER_OCTET_LENGTH" _ ltac:(auto)),
        (F "CHARACTER_MAXIMUM_LENGTH" _ ltac:(auto 10)), (F "UDT_NAME" _ ltac:(auto)), (F "ATTNDIMS" _ ltac:(auto));
      cbn [rbind as_str]; rewrite LE; cbn [rbind]; eexists _, _, _; repeat split; reflexivity.
  - cbn [pg_facts In] in F. 
    rewrite (F "DATA_TYPE" _ ltac:(auto)), (F "CHARACTER_OCTET_LENGTH" _ ltac:(auto)),
        (F "CHARACTER_MAXIMUM_LENGTH" _ ltac:(auto 10)), (F "UDT_NAME" _ ltac:(auto)), (F "ATTNDIMS" _ ltac:(auto)).
    cbn [rbind as_str]. rewrite LE. cbn [rbind]. eexists _, _, _. repeat split; reflexivity.
Qed.

Lemma pg_scalar_read d col b oc ml : pg_legal_base b -> described pg_decl pg_facts d col -> d_type d = PgColumn b ->
  item "CHARACTER_OCTET_LENGTH" col = Ok oc -> item "CHARACTER_MAXIMUM_LENGTH" col = Ok ml ->
  lower (pg_sql_name b) <> "array" /\ pg_scalar (lower (pg_sql_name b)) oc ml col = pg_base_read b.
Proof.
  intros L D T O M.
  assert (F : forall k v, In (k, v) (pg_facts (d_type d)) -> item k col = Ok v) by (intros; eapply fact_item; eauto).
  rewrite T in F. unfold pg_scalar.
  destruct b as [| | | | | |[[p s]|]| |[n|]|n|bi| | |n|n|nm ls|z p| |p| ]; try destruct bi; try destruct z; cbn [pg_facts In] in F;
    rewrite (F "CHARACTER_OCTET_LENGTH" _ ltac:(auto)) in O; rewrite (F "CHARACTER_MAXIMUM_LENGTH" _ ltac:(auto 10)) in M;
    injection O as <-; injection M as <-;
    try rewrite (F "NUMERIC_PRECISION" _ ltac:(auto 10)), (F "NUMERIC_SCALE" _ ltac:(auto 10));
    try rewrite (F "DATETIME_PRECISION" _ ltac:(auto 12)); try rewrite (F "ENUM_VALUES" _ ltac:(auto 14));
    (split; [discriminate|]); try reflexivity.
  - cbn [pg_legal_base] in L. destruct ls; [congruence|reflexivity].
  - cbn [pg_legal_base] in L. destruct (unit_of_spec p ltac:(lia)) as ((u & E & ->) & _). cbn [rbind]. rewrite E. reflexivity.
  - cbn [pg_legal_base] in L. destruct (unit_of_spec p ltac:(lia)) as ((u & E & ->) & _). cbn [rbind]. rewrite E. reflexivity.
Qed.

Lemma pg_elem_read b : (forall n ls, b <> PgEnum n ls) ->
  elem (lstrip_under (lower ("_" ++ pg_udt_name b))) = pg_element_read b.
Proof.
  intros NE. destruct b as [| | | | | |o| |o|n|[|]| | |n|n|nm ls|[|] p| |p| ]; try reflexivity. exfalso. eapply NE; eauto.
Qed.

Section Env.
  Variable env : string -> rtype -> Prop.
  Lemma ceil8 n : (- ((- Z.of_nat n) / 8) = Z.of_nat (Nat.div (n + 7) 8))%Z.
  Proof.
    rewrite Nat2Z.inj_div, Nat2Z.inj_add.
    pose proof (Z.div_mod (- Z.of_nat n) 8 ltac:(lia)). pose proof (Z.mod_pos_bound (- Z.of_nat n) 8 ltac:(lia)).
    pose proof (Z.div_mod (Z.of_nat n + Z.of_nat 7) (Z.of_nat 8) ltac:(lia)).
    pose proof (Z.mod_pos_bound (Z.of_nat n + Z.of_nat 7) (Z.of_nat 8) ltac:(lia)).
    change (Z.of_nat 8) with 8%Z in *. change (Z.of_nat 7) with 7%Z in *. lia.
  Qed.
  Lemma bits_small n : (Z.of_nat n <= 8 * pg_max_length)%Z -> (Z.of_nat (Nat.div (n + 7) 8) <= pg_max_length)%Z.
  Proof.
    intros H. rewrite <- ceil8. pose proof (Z.div_mod (- Z.of_nat n) 8 ltac:(lia)).
    pose proof (Z.mod_pos_bound (- Z.of_nat n) 8 ltac:(lia)). unfold pg_max_length in *. lia.
  Qed.

  Lemma pg_base_holds b t v : pg_legal_base b -> pg_base_read b = Ok t -> pg_base_values b v ->
    (holds env t v <-> pg_base_covered b v).
  Proof.
    intros L H V. pose proof (eq_refl (2 ^ 30)%Z : pg_largest = max_field_size) as ML.
    destruct b as [| | | | | |[[p s]|]| |[n|]|n|bi| | |n|n|nm ls|z p| |p| ];
      cbn [pg_legal_base pg_base_read pg_base_values pg_base_covered] in *; try discriminate H; injection H as <-.
    - destruct V as (z & -> & V). rewrite holds_int. tauto.
    - destruct V as (z & -> & V). rewrite holds_int. tauto.
    - destruct V as (z & -> & V). rewrite holds_int. tauto.
    - destruct V as (q & -> & V). rewrite holds_float, format32. tauto.
    - destruct V as (q & -> & V). rewrite holds_float, format64. tauto.
    - destruct V as (x & ->). split; auto. intros _. constructor.
    - destruct V as (u & -> & V). rewrite holds_decimal by lia. change (8 * 32)%Z with 256%Z. tauto.
    - destruct V as (u & k & ->). split; [|tauto]. inversion 1; subst. unfold extra_is in *. cbn in *. discriminate.
    - destruct V as (s & -> & V). rewrite holds_string. cbn [fits truthy]. split; auto. lia.
    - destruct V as (s & -> & V & V1 & V2). rewrite holds_string. cbn [fits truthy]. split; auto. nia.
    - destruct V as (s & -> & V). rewrite holds_string. cbn [fits truthy]. split; auto. lia.
    - destruct V as (s & -> & V). rewrite holds_string. cbn [fits truthy]. lia.
    - destruct V as (s & -> & V). rewrite holds_string. cbn [fits truthy]. tauto.
    - destruct V as (s & -> & V). rewrite holds_string. cbn [fits truthy]. lia.
    - destruct V as (s & -> & V). rewrite holds_bytes. cbn [fits truthy]. split; auto. lia.
    - destruct V as (s & -> & V). rewrite holds_bytes, ceil8. cbn [fits truthy]. lia.
    - destruct V as (s & -> & V). rewrite holds_bytes. cbn [fits truthy]. split; auto. intros _.
      pose proof (bits_small n ltac:(lia)). unfold pg_max_length, pg_largest in *. lia.
    - destruct V as (s & -> & V). rewrite holds_enum. split; auto. intros _. apply in_map. auto.
    - destruct V as (n & -> & V1 & V2). destruct (unit_of_spec p ltac:(lia)) as (_ & m & U & P).
      rewrite (holds_instant env 64 _ m) by (auto; lia).
      pose proof (pow10_pos p ltac:(lia)) as P0.
      assert (C : (p <= 3 /\ m <= 3 \/ 4 <= p /\ m = 6)%Z).
      { unfold unit_of in U. destruct (Z.eqb_spec p 0); [inversion U; lia|].
        destruct (Z.leb_spec p 3); inversion U; lia. }
      unfold int_range. change (64 - 1)%Z with 63%Z. destruct C as [[C1 C2]|[C1 ->]].
      + split; auto. intros _.
        assert (E : (10 ^ 3 = 10 ^ p * 10 ^ (m - p) * 10 ^ (3 - m))%Z) by (rewrite <- !Z.pow_add_r by lia; f_equal; lia).
        pose proof (pow10_pos (m - p) ltac:(lia)) as P2. pose proof (pow10_pos (3 - m) ltac:(lia)) as P3.
        set (x := (10 ^ p)%Z) in *. set (y := (10 ^ (m - p))%Z) in *. set (w := (10 ^ (3 - m))%Z) in *. clearbody x y w.
        change (10 ^ 3)%Z with 1000%Z in E. unfold pg_first_second, pg_end_second in *.
        assert (x * y <= 1000)%Z by nia.
        assert (-210866803200 * (x * y) <= n * y)%Z by nia. assert (n * y < 9224318016000 * (x * y))%Z by nia.
        change (2 ^ 63)%Z with 9223372036854775808%Z. lia.
      + split; [intros; right; lia|]. intros [X|X]; [lia|]. split; [|lia].
        assert (E : (10 ^ 6 = 10 ^ p * 10 ^ (6 - p))%Z) by (rewrite <- !Z.pow_add_r by lia; f_equal; lia).
        pose proof (pow10_pos (6 - p) ltac:(lia)) as P2.
        set (x := (10 ^ p)%Z) in *. set (y := (10 ^ (6 - p))%Z) in *. clearbody x y. unfold pg_first_second in V1.
        assert (-210866803200 * (x * y) <= n * y)%Z by nia. rewrite <- E in *.
        change (10 ^ 6)%Z with 1000000%Z in *. change (2 ^ 63)%Z with 9223372036854775808%Z. lia.
  Qed.

  Lemma pg_element_holds b t v : pg_legal_base b -> pg_element_read b = Ok t -> pg_base_values b v ->
    (holds env t v <-> pg_element_covered b).
  Proof.
    intros L H V. pose proof (eq_refl (2 ^ 30)%Z : pg_largest = max_field_size) as ML.
    destruct b as [| | | | | |[[p s]|]| |[n|]|n|bi| | |n|n|nm ls|z p| |p| ];
      cbn [pg_legal_base pg_element_read pg_base_values pg_element_covered] in *; try discriminate H; injection H as <-.
    - destruct V as (z & -> & V). rewrite holds_int. tauto.
    - destruct V as (z & -> & V). rewrite holds_int. tauto.
    - destruct V as (q & -> & V). rewrite holds_float, format32. tauto.
    - destruct V as (q & -> & V). rewrite holds_float, format64. tauto.
    - destruct V as (s & -> & V). rewrite holds_string. cbn [fits truthy]. split; auto. lia.
    - destruct V as (s & -> & V & V1 & V2). rewrite holds_string. cbn [fits truthy]. split; auto. lia.
    - destruct V as (s & -> & V). rewrite holds_string. cbn [fits truthy]. split; auto. lia.
    - destruct V as (s & -> & V). rewrite holds_string. cbn [fits truthy]. split; auto. lia.
    - destruct V as (s & -> & V). rewrite holds_string. cbn [fits truthy]. lia.
    - destruct V as (s & -> & V). rewrite holds_bytes. cbn [fits truthy]. split; auto. lia.
    - destruct V as (s & -> & V). rewrite holds_bytes. cbn [fits truthy]. split; [|tauto]. rewrite V.
      pose proof (bits_small n ltac:(lia)). unfold pg_max_length, pg_largest in *. rewrite <- ML. lia.
  Qed.

  Definition never_list (t : rtype) : Prop := ~ holds env t DNull /\ forall l, ~ holds env t (DList l).
  Lemma pg_element_flat b t : pg_element_read b = Ok t -> never_list t.
  Proof.
    intros H. destruct b; cbn in H; try discriminate; injection H as <-; (split; [inversion 1|intros l; inversion 1]).
  Qed.

  Lemma n_lists_holds (P Q : datum -> Prop) v n : forall d,
    (forall x, P x -> (holds env v x <-> Q x)) -> never_list v -> (exists k, levels P k d) ->
    (forall x l, P x -> x <> DNull /\ x <> DList l) ->
    (holds env (n_lists v n) d <-> levels (fun x => P x /\ Q x) n d).
  Proof.
    induction n as [|n IH]; intros d H [N1 N2] (k & LV) NL; cbn [n_lists].
    - rewrite holds_nullable. split.
      + intros [->|X]; [constructor|]. destruct LV as [|x Px|j l A].
        * constructor.
        * constructor 2. split; auto. apply H; auto.
        * exfalso. eapply N2; eauto.
      + inversion 1 as [|x [Px Qx]|]; subst; auto. right. apply H; auto.
    - split.
      + inversion 1 as [ | | | | | | | | | |? ? ? ? l FT A| | | | | ]; subst. constructor. intros x I.
        apply IH; auto; [split; auto| ].
        inversion LV as [|? Px|j l' B]; subst; [exfalso; apply (NL _ l Px); auto|]. eauto.
      + inversion 1 as [| |? l A]; subst. constructor; [exact Logic.I|]. intros x I.
        apply IH; auto; [split; auto| ].
        inversion LV as [|? Px|j l' B]; subst; [exfalso; apply (NL _ l Px); auto|]. eauto.
  Qed.

  (** A list that contains itself under the name [a]. *)
  Lemma self_list_holds (P Q : datum -> Prop) v a : 
    (forall x, P x -> (holds env v x <-> Q x)) -> never_list v ->
    (forall x l, P x -> x <> DNull /\ x <> DList l) ->
    (exists t, env a t) ->
    (forall t, env a t -> exists c cu cp rg, t = TList c (TUnion cu [v; TProxy cp rg]) PNone (PBool true) /\ c_alias cp = PStr a) ->
    forall n d c cu cp rg, c_alias cp = PStr a -> levels P (S n) d ->
    (holds env (TList c (TUnion cu [v; TProxy cp rg]) PNone (PBool true)) d <->
     forall x, leaf x d -> x <> DNull /\ (P x -> Q x)).
  Proof.
    intros H [N1 N2] NL (t0 & E0) E. induction n as [|n IH]; intros d c cu cp rg CA LV;
      inversion LV as [| |? l A]; subst.
    - split.
      + inversion 1 as [ | | | | | | | | | |? ? ? ? ? FT B| | | | | ]; subst. intros x X.
        inversion X as [|? y I X']; subst.
        { split; [discriminate|]. intros Px. exfalso. apply (NL _ l Px); auto. }
        specialize (A y I). specialize (B y I). inversion B as [| | | | | | | | | | | | | |? ? t ? J K|]; subst.
        assert (HV : holds env v y \/ exists l, y = DList l).
        { destruct J as [<-|[<-|[]]]; auto. inversion K as [| | | | | | | | | | | | | | |? ? a' t' ? X1 X2 X3]; subst.
          rewrite CA in X1. injection X1 as <-. destruct (E _ X2) as (c1 & cu1 & cp1 & rg1 & -> & _).
          inversion X3; subst. eauto. }
        inversion A as [|? Px|]; subst.
        * exfalso. destruct HV as [HV|(l' & HV)]; [auto|discriminate].
        * inversion X' as [|l1 ? ? ?]; subst.
          -- destruct HV as [HV|(l' & ->)]; [|exfalso; apply (NL _ l' Px); auto]. split; [apply (NL _ [] Px)|].
             intros _. apply H; auto.
          -- exfalso. apply (NL _ l1 Px); auto.
      + intros B. constructor; [exact Logic.I|]. intros x I. eapply h_union; [left; reflexivity|].
        specialize (A x I). destruct (B x) as [X1 X2]. { eapply leaf_in; eauto. constructor. }
        inversion A as [|? Px|]; subst; [congruence|]. apply H; auto.
    - split.
      + inversion 1 as [ | | | | | | | | | |? ? ? ? ? FT B| | | | | ]; subst. intros x X.
        inversion X as [|? y I X']; subst.
        { split; [discriminate|]. intros Px. exfalso. apply (NL _ l Px); auto. }
        specialize (A y I). specialize (B y I). inversion B as [| | | | | | | | | | | | | |? ? t ? J K|]; subst.
        destruct J as [<-|[<-|[]]].
        { exfalso. inversion A; subst. eapply N2; eauto. }
        inversion K as [| | | | | | | | | | | | | | |? ? a' t' ? X1 X2 X3]; subst.
        rewrite CA in X1. injection X1 as <-. destruct (E _ X2) as (c1 & cu1 & cp1 & rg1 & -> & CA1).
        exact (proj1 (IH y c1 cu1 cp1 rg1 CA1 A) X3 x X').
      + intros B. constructor; [exact Logic.I|]. intros x I. eapply h_union; [right; left; reflexivity|].
        destruct (E _ E0) as (c1 & cu1 & cp1 & rg1 & -> & CA1).
        eapply h_proxy; eauto. apply (IH x c1 cu1 cp1 rg1 CA1 (A x I)). intros y Y. apply B. eapply leaf_in; eauto.
  Qed.
End Env.

Lemma pg_base_not_list b x l : pg_base_values b x -> x <> DNull /\ x <> DList l.
Proof.
  destruct b as [| | | | | |[[p s]|]| |[n|]|n|bi| | |n|n|nm ls|z p| |p| ]; cbn; unfold instants;
    intros V; decompose [ex and] V; subst; split; discriminate.
Qed.

Lemma frozen_leaf R v : children v = [] -> is_proxy v = false -> freeze R v = v.
Proof. destruct v; cbn; intros; try discriminate; try reflexivity; subst; reflexivity. Qed.

Lemma names_snoc (R Rf : registry) a t : dmem a R = false -> grow (R ++ [(a, t)]) Rf -> forall u, names_in Rf a u <-> u = t.
Proof.
  intros D G u. unfold names_in. assert (E : dget a Rf = Some t).
  { apply G. rewrite dget_app. unfold dmem in D. destruct (dget a R); [discriminate|]. cbn. now rewrite String.eqb_refl. }
  rewrite E. split; congruence.
Qed.
Lemma grow_snoc (R : registry) a t : grow R (R ++ [(a, t)]).
Proof. intros b u E. rewrite dget_app, E. reflexivity. Qed.

Lemma pg_grows enforce ns col R R' t : pg_type enforce ns col R = (R', Ok t) -> grow R R'.
Proof.
  rewrite pg_type_cases. destruct (pg_header col) as [[[[[[nm dt] oc] ml] udt] nd]|]; [|discriminate].
  destruct (String.eqb dt "array"); [|intros [= <- _]; apply grow_refl].
  destruct (elem (lstrip_under udt)); [|discriminate].
  destruct enforce; [intros [= <- _]; apply grow_refl|].
  destruct nm; try discriminate. cbv zeta. destruct (dmem _ R); [discriminate|].
  destruct (re_match _ _); [|discriminate]. intros [= <- _]. apply grow_snoc.
Qed.

Lemma pg_element_shape b t : pg_element_read b = Ok t -> children t = [] /\ is_proxy t = false.
Proof. intros H. destruct b; cbn in H; try discriminate; injection H as <-; auto. Qed.

Lemma pg_column enforce ns d col R R' Rf t v : pg_legal (d_type d) -> described pg_decl pg_facts d col ->
  pg_type enforce ns col R = (R', Ok t) -> grow R' Rf -> pg_values (d_type d) v ->
  (holds (names_in Rf) t v <-> pg_covered enforce (d_type d) v).
Proof.
  intros L D H G V. rewrite pg_type_cases in H.
  destruct (pg_header_read d col D) as (oc & ml & nd & E & O & M & ND). rewrite E in H.
  destruct (d_type d) as [b|b n] eqn:T; cbn [pg_legal pg_values pg_covered] in *.
  - destruct (pg_scalar_read d col b oc ml L D T O M) as [NA S]. apply String.eqb_neq in NA. rewrite NA, S in H.
    injection H as _ H. apply (pg_base_holds (names_in Rf) b t v L H V).
  - destruct L as [L NE]. change (String.eqb "array" "array") with true in H. cbv iota in H.
    rewrite (pg_elem_read b NE) in H. destruct (pg_element_read b) as [vt|] eqn:EL; [|discriminate].
    destruct V as (k & K & LV). destruct enforce.
    + injection H as <- H. subst nd. unfold n_dimension_list in H.
      destruct (Z.ltb_spec (Z.of_nat n) 0); [lia|]. rewrite Nat2Z.id in H. injection H as <-.
      apply (n_lists_holds (names_in Rf) (pg_base_values b) (fun _ => pg_element_covered b)); eauto.
      * intros x X. apply pg_element_holds; auto.
      * eapply pg_element_flat; eauto.
      * intros x l X. eapply pg_base_not_list; eauto.
    + cbv zeta in H. set (a := array_alias ns (d_name d)) in *. clearbody a.
      destruct (dmem a R) eqn:DM; [discriminate|]. destruct (re_match _ a); [|discriminate].
      injection H as <- <-. destruct k as [|k]; [lia|].
      pose proof (names_snoc _ _ _ _ DM G) as NA. destruct (pg_element_shape _ _ EL) as [CH PX].
      unfold self_list. eapply (self_list_holds (names_in Rf) (pg_base_values b) (fun _ => pg_element_covered b)); eauto.
      * intros x X. apply pg_element_holds; auto.
      * eapply pg_element_flat; eauto.
      * intros x l X. eapply pg_base_not_list; eauto.
      * exists (stored R (self_list a vt)). apply NA. reflexivity.
      * intros u U. apply NA in U. subst u. unfold stored, self_list. cbn [freeze get_c set_c map].
        rewrite frozen_leaf by auto. eexists _, _, _, _. split; reflexivity.
      * reflexivity.
Qed.

Theorem pg_rows : forall enforce ns ds cols R R' t row,
  Forall (fun d => pg_legal (d_type d)) ds -> Forall2 (described pg_decl pg_facts) ds cols ->
  to_recap (pg_type enforce ns) cols R = (R', Ok t) -> in_table pg_decl pg_values ds row ->
  (holds (names_in R') t (DRow row) <-> row_of pg_decl (pg_covered enforce) ds row).
Proof.
  intros enforce ns ds cols R R' t row. apply rows_of_table.
  - apply pg_fresh.
  - intros. eapply pg_grows; eauto.
  - intros. eapply pg_column; eauto.
Qed.

(** ** Which tables can be read *)
Definition not_array (t : pg_decl) : Prop := match t with PgColumn _ => True | PgArray _ _ => False end.
Lemma pg_type_readable enforce ns d col R : pg_legal (d_type d) -> described pg_decl pg_facts d col ->
  (forall R' t, pg_type enforce ns col R = (R', Ok t) -> pg_readable (d_type d)) /\
  (enforce = true \/ not_array (d_type d) -> pg_readable (d_type d) -> exists t, pg_type enforce ns col R = (R, Ok t)).
Proof.
  intros L D. rewrite pg_type_cases.
  destruct (pg_header_read d col D) as (oc & ml & nd & E & O & M & ND). rewrite E.
  destruct (d_type d) as [b|b n] eqn:T; cbn [pg_legal] in *.
  - destruct (pg_scalar_read d col b oc ml L D T O M) as [NA S]. apply String.eqb_neq in NA. rewrite NA, S.
    split.
    + intros R' t [= _ H]. destruct b; cbn in *; auto; discriminate.
    + intros _ RD. destruct b as [| | | | | |[[p s]|]| |[m|]|m|bi| | |m|m|nm ls|z p| |p| ]; cbn in *; try tauto; eauto.
  - destruct L as [L NE]. change (String.eqb "array" "array") with true. cbv iota.
    rewrite (pg_elem_read b NE). split.
    + intros R' t H. destruct (pg_element_read b) eqn:EL; [|discriminate]. destruct b; cbn in *; auto; discriminate.
    + intros [->|[]] RD. subst nd. unfold n_dimension_list. destruct (Z.ltb_spec (Z.of_nat n) 0); [lia|].
      destruct b; cbn [pg_readable pg_element_read] in *; try tauto; eauto.
Qed.
Theorem pg_tables : forall enforce ns ds cols R,
  Forall (fun d => pg_legal (d_type d)) ds -> Forall2 (described pg_decl pg_facts) ds cols ->
  (forall R' t, to_recap (pg_type enforce ns) cols R = (R', Ok t) -> Forall (fun d => pg_readable (d_type d)) ds) /\
  (enforce = true \/ Forall (fun d => not_array (d_type d)) ds -> Forall (fun d => pg_readable (d_type d)) ds ->
   exists t, to_recap (pg_type enforce ns) cols R = (R, Ok t)).
Proof.
  intros enforce ns ds cols R L F.
  assert (X : (forall R' fs, fields_of (pg_type enforce ns) cols R = (R', Ok fs) -> Forall (fun d => pg_readable (d_type d)) ds) /\
    (enforce = true \/ Forall (fun d => not_array (d_type d)) ds -> Forall (fun d => pg_readable (d_type d)) ds ->
     exists fs, fields_of (pg_type enforce ns) cols R = (R, Ok fs))).
  { revert R L. induction F as [|d col ds cols D F IH]; intros R L; cbn [fields_of].
    - split; auto. intros _ _. eexists. reflexivity.
    - inversion L as [|? ? Ld L']; subst. unfold mbind, lift, ret.
      split.
      + intros R' fs H. destruct (pg_type enforce ns col R) as [R1 [t|]] eqn:E; [|discriminate].
        destruct (finish col t); [|discriminate].
        destruct (fields_of (pg_type enforce ns) cols R1) as [R2 [fs'|]] eqn:E2; [|discriminate].
        constructor; [eapply (pg_type_readable enforce ns d col R); eauto|]. eapply (IH R1); eauto.
      + intros C RD. inversion RD as [|? ? Rd RD']; subst.
        destruct (proj2 (pg_type_readable enforce ns d col R Ld D)) as (t & E); auto.
        { destruct C as [C|C]; auto. inversion C; auto. }
        rewrite E. destruct (finish_ok _ _ d col t D) as (f & ->). { eapply pg_fresh; eauto. }
        destruct (proj2 (IH R L')) as (fs & ->); eauto. destruct C as [C|C]; auto. inversion C; auto. }
  unfold to_recap, mbind, ret. split.
  - intros R' t H. destruct (fields_of (pg_type enforce ns) cols R) as [R1 [fs|]] eqn:E; [|discriminate]. eapply X; eauto.
  - intros C RD. destruct (proj2 X C RD) as (fs & ->). eauto.
Qed.

(** Values that are lost. *)
Fixpoint repeat_char (n : nat) : string := match n with O => "" | S m => String "a" (repeat_char m) end.
Lemma repeat_length n : String.length (repeat_char n) = n.
Proof. induction n; cbn; auto. Qed.
Lemma repeat_chars n : chars (repeat_char n) = n.
Proof. induction n; cbn; auto. Qed.

Theorem pg_lost :
  (forall n, pg_legal_base (PgChar n) -> exists v, pg_base_values (PgChar n) v /\ ~ pg_base_covered (PgChar n) v) /\
  (forall v, pg_base_values (PgNumeric None) v -> ~ pg_base_covered (PgNumeric None) v) /\
  (forall p s, pg_legal_base (PgNumeric (Some (p, s))) -> (77 <= p)%Z ->
     exists v, pg_base_values (PgNumeric (Some (p, s))) v /\ ~ pg_base_covered (PgNumeric (Some (p, s))) v) /\
  (forall z p, (4 <= p <= 6)%Z -> exists v, pg_base_values (PgTimestamp z p) v /\ ~ pg_base_covered (PgTimestamp z p) v) /\
  (forall b n, exists v, pg_values (PgArray b n) v /\ ~ pg_covered false (PgArray b n) v) /\
  (forall b n x, n <= 5 -> pg_base_values b x -> exists v, pg_values (PgArray b n) v /\ ~ pg_covered true (PgArray b n) v).
Proof.
  repeat split.
  - intros n [N1 N2]. exists (DText (repeat_char n)). split.
    + exists (repeat_char n). split; auto. rewrite repeat_length. unfold text_within. rewrite repeat_length, repeat_chars.
      unfold pg_max_length, pg_largest in *. lia.
    + cbn. rewrite repeat_length. lia.
  - intros v _. cbn. auto.
  - intros p s [P S] P77. exists (DNumber (10 ^ p - 1) s). pose proof (pow10_pos p ltac:(lia)). split.
    + eexists. split; [reflexivity|]. lia.
    + cbn [pg_base_covered]. unfold int_range. pose proof (not_fits32 p P77) as NF. unfold decimal_fits in NF.
      change (8 * 32 - 1)%Z with 255%Z in NF. change (256 - 1)%Z with 255%Z. 
      assert (NE : (10 ^ p <> 2 ^ 255 + 1)%Z -> (10 ^ p - 1 < 2 ^ 255)%Z -> False) by lia.
      assert (10 ^ 77 <= 10 ^ p)%Z by (apply Z.pow_le_mono_r; lia).
      assert (2 ^ 255 < 10 ^ 77 - 1)%Z by (vm_compute; reflexivity). lia.
  - intros z p P. exists (DInstant (pg_end_second * 10 ^ p - 1) p). pose proof (pow10_pos p ltac:(lia)) as PP. split.
    + eexists. split; [reflexivity|]. unfold pg_first_second, pg_end_second. lia.
    + cbn [pg_base_covered]. intros [X|X]; [lia|].
      assert (C : (p = 4 \/ p = 5 \/ p = 6)%Z) by lia. destruct C as [-> | [-> | ->]]; vm_compute in X; discriminate.
  - intros b n. exists (DList [DNull]). split.
    + exists 1. split; [lia|]. constructor. intros x [<-|[]]. constructor.
    + cbn. intros H. destruct (H DNull) as [X _]; [|congruence]. eapply leaf_in; [left; reflexivity|constructor].
  - intros b n x N V. 
    assert (EX : forall k, exists d, levels (pg_base_values b) k d /\ forall Q m, levels (fun y => pg_base_values b y /\ Q y) m d -> m = k).
    { induction k as [|k (d & A & B)].
      - exists x. split; [constructor 2; auto|]. intros Q m H. inversion H as [|? [P1 _]|? l C]; subst; auto.
        exfalso. apply (pg_base_not_list _ _ l V); auto.
      - exists (DList [d]). split; [constructor; intros y [<-|[]]; auto|]. intros Q m H.
        inversion H as [|? [P1 _]|m' l C]; subst.
        + exfalso. apply (pg_base_not_list _ _ [d] P1); auto.
        + f_equal. apply (B Q). apply C. cbn. auto. }
    destruct (EX (S n)) as (d & A & B). exists d. split.
    + exists (S n). split; auto. lia.
    + cbn. intros H. apply (B (fun _ => pg_element_covered b)) in H. lia.
Qed.
