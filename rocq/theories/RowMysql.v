(** C108: the values of MySQL columns. *)
From Coq Require Import String Ascii List NArith ZArith QArith Bool Lia.
From Verif Require Import PyVal RType Registry SpecTypes FromDict Nullable Url Dbapi SpecDb SpecInstances SpecRows
  DbapiFacts DbapiMore DbReads DbRanges RowFacts RowTypes.
Import ListNotations.
Open Scope nat_scope.
Open Scope string_scope.
Open Scope list_scope.

(** The type that is read for a column. *)
Definition my_read (t : my_type) : res rtype :=
  let octets n := PInt (Z.of_nat n) in
  match t with
  | MyInteger i _ => Ok (int_t (my_int_bits i) true)
  | MyYear => Ok (int_t 16 false)
  | MyFloat => Ok (float_t 32)
  | MyDouble => Ok (float_t 64)
  | MyDecimal p s => Ok (decimal_t 32 (PInt p) (PInt s))
  | MyChar n w => Ok (TString c0 (octets (n * w)) (PBool false))
  | MyVarchar n w => Ok (TString c0 (octets (n * w)) (PBool true))
  | MyText s => Ok (TString c0 (PInt (my_size_max s)) (PBool true))
  | MyJson => Ok (TString c0 PNone (PBool true))
  | MyEnum ls w => Ok (TString c0 (octets (list_max (map chars ls) * w)) (PBool false))
  | MyBinary n => Ok (TBytes c0 (octets n) (PBool false))
  | MyVarbinary n => Ok (TBytes c0 (octets n) (PBool true))
  | MyBlob s => Ok (TBytes c0 (PInt (my_size_max s)) (PBool true))
  | MyBit n => Ok (TBytes c0 (PInt 8) (PBool false))
  | MyDatetime p | MyTimestamp p => Ok (time_t "build.recap.Timestamp" 64 (unit_of p))
  | MyDate | MyTime _ | MyGeometry => Err ValueError
  end.

Lemma my_type_read d col : my_legal (d_type d) -> described my_type my_facts d col ->
  mysql_type col = my_read (d_type d).
Proof.
  intros L D.
  assert (F : forall k v, In (k, v) (my_facts (d_type d)) -> item k col = Ok v) by (intros; eapply fact_item; eauto).
  unfold mysql_type. destruct (d_type d) as [i u| | | |p s|n w|n w|sz| |ls w|n|n|sz|n|p|p| |p| ];
    cbn [my_facts In] in F; cbn [my_legal] in L.
  all: rewrite (F "DATA_TYPE" _ ltac:(auto)), (F "CHARACTER_OCTET_LENGTH" _ ltac:(auto)),
    (F "NUMERIC_PRECISION" _ ltac:(auto)), (F "NUMERIC_SCALE" _ ltac:(auto 10)); cbn [rbind as_str].
  all: try (rewrite (F "DATETIME_PRECISION" _ ltac:(auto 10)); cbn [rbind]).
  all: try reflexivity.
  - destruct i; reflexivity.
  - destruct sz; reflexivity.
  - destruct sz; reflexivity.
  - destruct (unit_of_spec p ltac:(lia)) as ((u & E & ->) & _). rewrite E. reflexivity.
  - destruct (unit_of_spec p ltac:(lia)) as ((u & E & ->) & _). rewrite E. reflexivity.
Qed.

Lemma my_column d col R R' Rf t v : my_legal (d_type d) -> described my_type my_facts d col ->
  pure mysql_type col R = (R', Ok t) -> grow R' Rf -> my_values (d_type d) v ->
  (holds (names_in Rf) t v <-> my_covered (d_type d) v).
Proof.
  intros L D H _ V. unfold pure, lift in H. injection H as _ H. rewrite (my_type_read d col L D) in H.
  set (env := names_in Rf). clearbody env. destruct d as [nm nl ty]. cbn [d_type] in *. clear D.
  destruct ty as [i u| | | |p s|n w|n w|sz| |ls w|n|n|sz|n|p|p| |p| ];
    cbn [my_read my_values my_legal my_covered] in *; try discriminate H; injection H as <-.
  - destruct V as (z & -> & V). rewrite holds_int. destruct u; cbn [negb] in V; unfold int_range in *.
    + split; [lia|]. intros. split; [|lia]. assert (0 < 2 ^ (my_int_bits i - 1))%Z by (apply Z.pow_pos_nonneg; destruct i; cbn; lia). lia.
    + tauto.
  - destruct V as (z & -> & V). rewrite holds_int. unfold int_range. split; auto. intros _. change (2 ^ 16)%Z with 65536%Z. lia.
  - destruct V as (q & -> & V). rewrite holds_float, format32. tauto.
  - destruct V as (q & -> & V). rewrite holds_float, format64. tauto.
  - destruct V as (u & -> & V). rewrite holds_decimal by lia. split; auto. intros _. split; auto.
    apply decimal_fit with (p := p); auto; [lia|]. apply fits32. lia.
  - destruct V as (s & -> & V). rewrite holds_string. cbn [fits truthy]. lia.
  - destruct V as (s & -> & V1 & V2). rewrite holds_string. cbn [fits truthy]. split; auto. intros _. nia.
  - destruct V as (s & -> & V). rewrite holds_string. cbn [fits truthy]. tauto.
  - destruct V as (s & ->). rewrite holds_string. cbn [fits truthy]. tauto.
  - destruct V as (s & -> & V). rewrite holds_string. cbn [fits truthy]. lia.
  - destruct V as (s & -> & V). rewrite holds_bytes. cbn [fits truthy]. rewrite V. tauto.
  - destruct V as (s & -> & V). rewrite holds_bytes. cbn [fits truthy]. split; auto. lia.
  - destruct V as (s & -> & V). rewrite holds_bytes. cbn [fits truthy]. tauto.
  - destruct V as (s & -> & V). rewrite holds_bytes. cbn [fits truthy]. rewrite V.
    pose proof (Nat.div_mod (n + 7) 8 ltac:(lia)). pose proof (Nat.mod_upper_bound (n + 7) 8 ltac:(lia)). lia.
  - destruct V as (n & -> & V). destruct (unit_of_spec p ltac:(lia)) as (_ & m & U & P).
    rewrite (holds_instant env 64 _ m) by (auto; lia). split; auto. intros _.
    eapply instant_range; eauto; try lia; unfold year_1000, year_10000; lia.
  - destruct V as (n & -> & V). destruct (unit_of_spec p ltac:(lia)) as (_ & m & U & P).
    rewrite (holds_instant env 64 _ m) by (auto; lia). split; auto. intros _.
    eapply instant_range; eauto; try lia; unfold year_1000, year_10000; lia.
Qed.

Lemma mysql_fresh_parser : fresh_parser (pure mysql_type).
Proof. intros col R R' t H. unfold pure, lift in H. injection H as _ H. eapply mysql_fresh; eauto. Qed.
Lemma pure_grows q col R R' t : pure q col R = (R', Ok t) -> grow R R'.
Proof. unfold pure, lift. intros [= <- _]. apply grow_refl. Qed.

Theorem mysql_rows : forall ds cols R R' t row,
  Forall (fun d => my_legal (d_type d)) ds -> Forall2 (described my_type my_facts) ds cols ->
  to_recap (pure mysql_type) cols R = (R', Ok t) -> in_table my_type my_values ds row ->
  (holds (names_in R') t (DRow row) <-> row_of my_type my_covered ds row).
Proof.
  intros ds cols R R' t row. apply rows_of_table.
  - apply mysql_fresh_parser.
  - intros. eapply pure_grows; eauto.
  - exact my_column.
Qed.

Lemma Forall2_Forall {A B} (P : A -> Prop) (Q : B -> Prop) (rel : A -> B -> Prop) l m : Forall2 rel l m ->
  (forall a b, In a l -> rel a b -> (P a <-> Q b)) -> (Forall P l <-> Forall Q m).
Proof.
  induction 1 as [|a b l m H F IH]; intros E.
  - split; constructor.
  - rewrite !Forall_cons_iff, (E a b), IH; [tauto| | |]; cbn; auto. intros; apply E; cbn; auto.
Qed.
Theorem mysql_readable : forall ds cols R,
  Forall (fun d => my_legal (d_type d)) ds -> Forall2 (described my_type my_facts) ds cols ->
  ((exists t, to_recap (pure mysql_type) cols R = (R, Ok t)) <-> Forall (fun d => my_readable (d_type d)) ds).
Proof.
  intros ds cols R L F. rewrite (pure_table_ok _ my_facts _ ds cols R mysql_fresh_parser F).
  symmetry. apply (Forall2_Forall _ _ _ _ _ F). intros d col I D. rewrite Forall_forall in L.
  rewrite (my_type_read d col) by (auto; apply L; auto).
  destruct (d_type d); cbn; split; eauto; try tauto; intros (t & E); discriminate.
Qed.

(** Every column of one of these types has values that are lost. *)
Theorem mysql_lost :
  (forall i, exists v, my_values (MyInteger i true) v /\ ~ my_covered (MyInteger i true) v) /\
  (forall n w, 1 <= n -> 1 <= w -> exists v, my_values (MyChar n w) v /\ ~ my_covered (MyChar n w) v) /\
  (forall ls w l l', In l ls -> In l' ls -> String.length l <> String.length l' ->
     exists v, my_values (MyEnum ls w) v /\ ~ my_covered (MyEnum ls w) v) /\
  (forall n v, 1 <= n <= 56 -> my_values (MyBit n) v -> ~ my_covered (MyBit n) v).
Proof.
  repeat split.
  - intros i. exists (DInt (2 ^ my_int_bits i - 1)). split.
    + eexists. split; [reflexivity|]. destruct i; cbn; lia.
    + destruct i; cbn; lia.
  - intros n w N W. exists (DText ""). split.
    + exists "". split; auto. split; cbn; lia.
    + cbn. intros E. nia.
  - intros ls w l l' I I' N.
    destruct (Nat.eq_dec (String.length l) (list_max (map chars ls) * w)) as [E|E].
    + exists (DText l'). split; [exists l'; auto|]. cbn. congruence.
    + exists (DText l). split; [exists l; auto|]. cbn. auto.
  - intros n v N V. cbn. lia.
Qed.
