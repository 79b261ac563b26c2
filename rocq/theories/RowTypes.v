(** The values of the types that the database converters build. *)
From Coq Require Import String Ascii List NArith ZArith QArith Bool Lia.
From Verif Require Import PyVal RType Registry SpecTypes FromDict Nullable Url Dbapi SpecDb SpecInstances SpecRows
  DbapiFacts DbapiMore DbReads DbRanges RowFacts.
Import ListNotations.
Open Scope nat_scope.
Open Scope string_scope.
Open Scope list_scope.

Section Env.
  Variable env : string -> rtype -> Prop.

  Lemma holds_int b s z : holds env (int_t b s) (DInt z) <-> int_range b s z.
  Proof. split. - inversion 1; auto. - intros H. apply h_int; auto. Qed.
  Lemma holds_bool b : holds env (TBool c0) (DBool b).
  Proof. constructor. Qed.
  Lemma holds_float b q : holds env (float_t b) (DFloat q) <-> float_format b q.
  Proof. split. - inversion 1; auto. - intros H. apply h_float; auto. Qed.
  Lemma holds_string c n va s : holds env (TString c n va) (DText s) <-> fits n va (String.length s).
  Proof. split. - inversion 1; auto. - intros H. apply h_string; auto. Qed.
  Lemma holds_bytes n va s : holds env (TBytes c0 n va) (DBytes s) <-> fits n va (String.length s).
  Proof. split. - inversion 1; auto. - intros H. apply h_bytes; auto. Qed.
  Lemma holds_enum c l s : holds env (TEnum c (PList l)) (DText s) <-> In (PStr s) l.
  Proof. split. - inversion 1; auto. - intros H. apply h_enum; auto. Qed.

  Lemma pow10_pos k : (0 <= k)%Z -> (0 < 10 ^ k)%Z.
  Proof. intros. apply Z.pow_pos_nonneg; lia. Qed.
  Lemma same_cancel z n k : (0 <= k)%Z -> (same_number z k n k <-> z = n).
  Proof.
    intros K. unfold same_number. split; [|intros ->; auto].
    intros E. pose proof (pow10_pos k K). nia.
  Qed.
  Lemma same_finer z m n k : (0 <= k <= m)%Z -> (same_number z m n k <-> z = n * 10 ^ (m - k))%Z.
  Proof.
    intros K. unfold same_number. replace m with ((m - k) + k)%Z at 1 by lia.
    rewrite Z.pow_add_r by lia. pose proof (pow10_pos k ltac:(lia)). split; intros E; nia.
  Qed.

  Lemma holds_decimal b p m u : (0 <= m)%Z ->
    (holds env (decimal_t b (PInt p) (PInt m)) (DNumber u m) <-> (Z.abs u < 10 ^ p)%Z /\ int_range (8 * b) true u).
  Proof.
    intros M. split.
    - inversion 1; subst. unfold extra_is in *. cbn [c_extra lge dget String.eqb Ascii.eqb Bool.eqb] in *.
      repeat match goal with E : Some (PInt _) = Some (PInt _) |- _ => injection E as E; subst end.
      match goal with E : same_number _ _ _ _ |- _ => apply same_cancel in E; auto; subst end. auto.
    - intros [H1 H2]. apply (h_decimal env _ b _ p m u m u); auto; reflexivity.
  Qed.
  Lemma decimal_fit b p u : (1 <= b)%Z -> decimal_fits b p -> (Z.abs u < 10 ^ p)%Z -> int_range (8 * b) true u.
  Proof. unfold decimal_fits, int_range. intros. lia. Qed.

  Lemma unit_inj u m m' : time_unit u m -> time_unit u m' -> m = m'.
  Proof. intros H K. destruct H; inversion K; auto. Qed.
  Lemma holds_instant b u m n k : time_unit u m -> (0 <= k <= m)%Z ->
    (holds env (time_t "build.recap.Timestamp" b u) (DInstant n k) <-> int_range b true (n * 10 ^ (m - k))).
  Proof.
    intros U K. split.
    - inversion 1; subst. unfold extra_is in *. cbn [c_extra lge dget String.eqb Ascii.eqb Bool.eqb] in *.
      match goal with E : Some (PStr _) = Some (PStr _) |- _ => injection E as E; subst end.
      match goal with T : time_unit u0 ?x |- _ => rewrite (unit_inj _ _ _ T U) in * end.
      match goal with E : same_number _ _ _ _ |- _ => apply same_finer in E; auto; subst end. auto.
    - intros H. apply (h_instant env _ b true u m n k (n * 10 ^ (m - k))); auto; try reflexivity. apply same_finer; auto.
  Qed.
  Lemma holds_clock b u m n k : time_unit u m -> (0 <= k <= m)%Z ->
    (holds env (time_t "build.recap.Time" b u) (DClock n k) <-> int_range b true (n * 10 ^ (m - k))).
  Proof.
    intros U K. split.
    - inversion 1; subst. unfold extra_is in *. cbn [c_extra lge dget String.eqb Ascii.eqb Bool.eqb] in *.
      match goal with E : Some (PStr _) = Some (PStr _) |- _ => injection E as E; subst end.
      match goal with T : time_unit u0 ?x |- _ => rewrite (unit_inj _ _ _ T U) in * end.
      match goal with E : same_number _ _ _ _ |- _ => apply same_finer in E; auto; subst end. auto.
    - intros H. apply (h_clock env _ b true u m n k (n * 10 ^ (m - k))); auto; try reflexivity. apply same_finer; auto.
  Qed.
  Lemma holds_day b n : holds env (time_t "build.recap.Date" b "day") (DDay n) <-> int_range b true n.
  Proof. split. - inversion 1; auto. - intros H. eapply h_day; try reflexivity; auto. Qed.
End Env.

Lemma single_double q : single q -> double q.
Proof.
  intros (m & e & A & B & C). exists m, e. split; [|split; [lia|auto]].
  change (2 ^ 53)%Z with (2 ^ 24 * 2 ^ 29)%Z. lia.
Qed.
Lemma format32 q : float_format 32 q <-> single q.
Proof. unfold float_format. split; [intros [[_ H]|[H _]]; [auto|discriminate]|auto]. Qed.
Lemma format64 q : float_format 64 q <-> double q.
Proof. unfold float_format. split; [intros [[H _]|[_ H]]; [discriminate|auto]|auto]. Qed.

(** The unit chosen for a precision. *)
Definition unit_of (p : Z) : string :=
  if (p =? 0)%Z then "second" else if (p <=? 3)%Z then "millisecond" else "microsecond".
Lemma unit_of_spec p : (0 <= p <= 6)%Z ->
  (exists u, get_time_unit (Some [PInt p]) = Ok (Some u) /\ u = unit_of p) /\
  exists m, time_unit (unit_of p) m /\ (p <= m <= 6)%Z.
Proof.
  intros P. unfold get_time_unit, unit_of. cbn [py_int rbind].
  destruct (Z.eqb_spec p 0). { split; eauto. exists 0%Z. split; [constructor|lia]. }
  destruct (Z.leb_spec p 3). { split; eauto. exists 3%Z. split; [constructor|lia]. }
  destruct (Z.leb_spec p 6); [|lia]. split; eauto. exists 6%Z. split; [constructor|lia].
Qed.
(** Times between [lo] and [hi] seconds fit if their microseconds do. *)
Lemma instant_range lo hi p m n : (0 <= p <= m)%Z -> (m <= 6)%Z -> (lo * 10 ^ p <= n < hi * 10 ^ p)%Z ->
  (- 2 ^ 63 <= lo * 10 ^ 6)%Z -> (hi * 10 ^ 6 <= 2 ^ 63)%Z -> (lo <= 0 <= hi)%Z ->
  int_range 64 true (n * 10 ^ (m - p)).
Proof.
  intros P M N L H Z0. unfold int_range. change (64 - 1)%Z with 63%Z.
  assert (E : (10 ^ 6 = 10 ^ p * 10 ^ (m - p) * 10 ^ (6 - m))%Z).
  { rewrite <- !Z.pow_add_r by lia. f_equal. lia. }
  rewrite E in L, H.
  pose proof (pow10_pos p ltac:(lia)) as P1. pose proof (pow10_pos (m - p) ltac:(lia)) as P2.
  pose proof (pow10_pos (6 - m) ltac:(lia)) as P3.
  set (a := (10 ^ p)%Z) in *. set (b := (10 ^ (m - p))%Z) in *. set (c := (10 ^ (6 - m))%Z) in *.
  clearbody a b c.
  assert (lo * a * b <= n * b)%Z by nia. assert (n * b < hi * a * b)%Z by nia.
  assert (lo * (a * b * c) <= lo * a * b)%Z by nia. assert (hi * a * b <= hi * (a * b * c))%Z by nia.
  lia.
Qed.

(** Item lookup in a described column. *)
Lemma fact_item A facts (d : decl A) col k v : described A facts d col -> In (k, v) (facts (d_type d)) -> item k col = Ok v.
Proof. intros D I. unfold item. rewrite (de_facts _ _ _ _ D k v I). reflexivity. Qed.
