(** C113: the values of Hive columns. *)
From Coq Require Import String Ascii List NArith ZArith QArith Bool Lia.
From Verif Require Import PyVal PyValFacts RType FromDict Nullable NullableFacts Hive SpecTypes SpecDb SpecInstances SpecRows
  SpecNested SpecHive HiveFacts HiveMore Dbapi DbapiFacts RowFacts RowTypes RowBigQuery.
Import ListNotations.
Open Scope nat_scope.
Open Scope string_scope.
Open Scope list_scope.

(** ** Types with attributes of the expected kinds *)
Definition typed_c (c : common) : Prop :=
  (c_logical c = PNone \/ exists s, c_logical c = PStr s) /\
  (forall v, dget "unit" (c_extra c) = Some v -> exists s, v = PStr s) /\
  (forall k v, In k ["precision"; "scale"] -> dget k (c_extra c) = Some v -> exists z, v = PInt z).
Definition typed_n (n va : pyval) : Prop := (n = PNone \/ exists z, n = PInt z) /\ exists x, va = PBool x.
Definition typed (t : rtype) : Prop :=
  match t with
  | TInt c b s => typed_c c /\ (exists z, b = PInt z) /\ exists x, s = PBool x
  | TFloat _ b => exists z, b = PInt z
  | TString _ n va => typed_n n va
  | TBytes c n va => typed_c c /\ typed_n n va
  | TList _ _ l r => l = PNone /\ r = PBool true
  | TStruct _ fs => Forall (fun f => is_union f = true \/ is_null f = true) fs
  | TEnum _ _ | TProxy _ _ => False
  | _ => True
  end.

Lemma eq_int a b : py_eq (PInt a) (PInt b) = true -> a = b.
Proof. cbn. rewrite Qeq_bool_iff. intros H. now apply (proj1 (inject_Z_injective _ _)) in H. Qed.
Lemma eq_bool a b : py_eq (PBool a) (PBool b) = true -> a = b.
Proof. destruct a, b; cbn; auto; discriminate. Qed.
Lemma eq_limit n va n' va' : typed_n n va -> typed_n n' va' -> py_eq n n' = true -> py_eq va va' = true -> n = n' /\ va = va'.
Proof.
  intros [N (x & ->)] [N' (x' & ->)] E1 E2. apply eq_bool in E2 as ->. split; auto.
  destruct N as [->|(z & ->)], N' as [->|(z' & ->)]; try discriminate; auto. now apply eq_int in E1 as ->.
Qed.
Lemma eq_dict d d' k v : dict_eq d d' = true -> dget k d = Some v -> exists w, dget k d' = Some w /\ py_eq v w = true.
Proof.
  unfold dict_eq. rewrite py_eq_dict. intros E G. apply andb_true_iff in E as [_ E]. unfold dict_sub in E.
  rewrite forallb_forall in E. specialize (E _ (dget_In _ _ _ G)). cbn in E. destruct (dget k d'); [eauto|discriminate].
Qed.
Lemma eq_string s w : py_eq (PStr s) w = true -> w = PStr s.
Proof. destruct w; cbn; try discriminate. intros E%String.eqb_eq. now subst. Qed.
Lemma c_eq_parts c c' : c_eq c c' = true -> py_eq (c_logical c) (c_logical c') = true /\ dict_eq (c_extra c) (c_extra c') = true.
Proof. unfold c_eq. rewrite !andb_true_iff. tauto. Qed.
Lemma eq_logical c c' : typed_c c -> typed_c c' -> c_eq c c' = true -> c_logical c = c_logical c'.
Proof.
  intros (L & _) (L' & _) E. apply c_eq_parts in E as [E _].
  destruct L as [L|(s & L)], L' as [L'|(s' & L')]; rewrite L, L' in *; try discriminate; auto.
  now apply eq_string in E as ->.
Qed.
Lemma eq_unit c c' u : c_eq c c' = true -> extra_is c "unit" (PStr u) -> extra_is c' "unit" (PStr u).
Proof.
  intros E H. apply c_eq_parts in E as [_ E]. destruct (eq_dict _ _ _ _ E H) as (w & W & X). apply eq_string in X as ->. exact W.
Qed.
Lemma eq_number c c' k z : typed_c c' -> In k ["precision"; "scale"] -> c_eq c c' = true -> extra_is c k (PInt z) -> extra_is c' k (PInt z).
Proof.
  intros (_ & _ & T) I E H. apply c_eq_parts in E as [_ E]. destruct (eq_dict _ _ _ _ E H) as (w & W & X).
  destruct (T k w I W) as (z' & ->). apply eq_int in X as ->. exact W.
Qed.
Lemma rt_eq_c a b : rt_eq a b = true -> c_eq (get_c a) (get_c b) = true.
Proof. destruct a, b; cbn [rt_eq get_c]; try discriminate; auto; rewrite andb_true_iff; tauto. Qed.
Lemma eq_name a b n : rt_eq a b = true -> extra "name" a = Some (PStr n) -> extra "name" b = Some (PStr n).
Proof.
  intros E H. apply rt_eq_c in E. apply c_eq_parts in E as [_ E].
  destruct (eq_dict _ _ _ _ E H) as (w & W & X). apply eq_string in X as ->. exact W.
Qed.

Lemma Forall2_in_l {A B} (P : A -> B -> Prop) l l' a : Forall2 P l l' -> In a l -> exists b, In b l' /\ P a b.
Proof. induction 1; intros []; subst; eauto using in_eq. destruct IHForall2 as (z & I & Q); auto. eauto using in_cons. Qed.
Lemma eq_fields fs : forall fs', all2 rt_eq fs fs' = true -> length fs = length fs' /\
  forall i f', nth_error fs' i = Some f' -> exists f, nth_error fs i = Some f /\ rt_eq f f' = true.
Proof.
  induction fs as [|f fs IH]; intros [|f' fs'] E; cbn in E; try discriminate.
  - split; auto. intros [|i] ?; discriminate.
  - apply andb_true_iff in E as [E1 E2]. destruct (IH _ E2) as [L H]. split; [cbn; auto|].
    intros [|i] g; cbn; [intros [= <-]; eauto|apply H].
Qed.

Section Env.
  Variable env : string -> rtype -> Prop.
  Lemma eq_holds a : forall b v, every typed a -> every typed b -> rt_eq a b = true -> holds env a v -> holds env b v.
  Proof.
    induction a as [c|c|c b0 s0|c b0|c n0 va|c n0 va|c x l r IH|c k x IHk IHx|c fs IH|c s|c ts IH|c rg] using rtype_ind';
      intros b v Ta Tb E H; apply every_iff in Ta as [Ta Fa]; apply every_iff in Tb as [Tb Fb];
      destruct b as [c'|c'|c' b' s'|c' b'|c' n' va'|c' n' va'|c' x' l' r'|c' k' x'|c' fs'|c' s'|c' ts'|c' rg']; try discriminate E; cbn [typed] in Ta, Tb.
    - inversion H; subst. constructor.
    - inversion H; subst. constructor.
    - cbn [rt_eq] in E. rewrite !andb_true_iff in E. destruct E as (EC & E1 & E2).
      destruct Ta as (TC & (z & ->) & (x & ->)), Tb as (TC' & (z' & ->) & (x' & ->)).
      apply eq_int in E1 as ->. apply eq_bool in E2 as ->. pose proof (eq_logical _ _ TC TC' EC) as EL.
      inversion H; subst; unfold logical_is in *; rewrite EL in *.
      + now apply h_int.
      + eapply h_instant; eauto. eapply eq_unit; eauto.
      + eapply h_clock; eauto. eapply eq_unit; eauto.
      + apply h_day; auto. eapply eq_unit; eauto.
    - cbn [rt_eq] in E. rewrite !andb_true_iff in E. destruct E as (EC & E1).
      destruct Ta as (z & ->), Tb as (z' & ->). apply eq_int in E1 as ->. inversion H; subst. now apply h_float.
    - cbn [rt_eq] in E. rewrite !andb_true_iff in E. destruct E as (EC & E1 & E2).
      destruct (eq_limit _ _ _ _ Ta Tb E1 E2) as [-> ->]. inversion H; subst. now apply h_string.
    - cbn [rt_eq] in E. rewrite !andb_true_iff in E. destruct E as (EC & E1 & E2).
      destruct Ta as [TC Ta], Tb as [TC' Tb]. destruct (eq_limit _ _ _ _ Ta Tb E1 E2) as [-> ->].
      pose proof (eq_logical _ _ TC TC' EC) as EL. inversion H; subst; unfold logical_is in *; rewrite EL in *.
      + now apply h_bytes.
      + eapply h_decimal; eauto; eapply eq_number; eauto; cbn; auto.
    - cbn [rt_eq] in E. rewrite !andb_true_iff in E. destruct E as (EC & E1 & _).
      destruct Ta as [-> ->], Tb as [-> ->]. cbn [children] in *. inversion Fa; inversion Fb; subst.
      inversion H; subst. apply h_list; auto.
    - cbn [rt_eq] in E. rewrite !andb_true_iff in E. destruct E as (EC & E1 & E2).
      cbn [children] in *. inversion Fa as [|? ? A1 A2]; inversion A2; inversion Fb as [|? ? B1 B2]; inversion B2; subst.
      inversion H; subst. apply h_map; eauto.
    - rewrite rt_eq_struct in E. apply andb_true_iff in E as [_ E]. destruct (eq_fields _ _ E) as [LN NE].
      cbn [children] in *. rewrite Forall_forall in *. inversion H; subst. apply h_struct; [congruence| |].
      + intros i f n d I J. destruct (NE _ _ I) as (f0 & I0 & E0). eapply eq_name; eauto.
      + intros i f n d I J. destruct (NE _ _ I) as (f0 & I0 & E0).
        eapply (IH f0); eauto using nth_error_In.
    - contradiction.
    - rewrite rt_eq_union in E. apply andb_true_iff in E as [_ E]. cbn [children] in *.
      apply holds_union in H as (t & I & H). apply holds_union. apply all2_spec in E.
      destruct (Forall2_in_l _ _ _ _ E I) as (t' & I' & E').
      exists t'. split; auto. rewrite Forall_forall in *. eapply (IH t); eauto.
    - contradiction.
  Qed.

  (** The attributes of lists and maps do not matter. *)
  Lemma erase_name f : is_union f = true \/ is_null f = true -> extra "name" (erase f) = extra "name" f.
  Proof. destruct f; intros [E|E]; try discriminate; reflexivity. Qed.
  Lemma erase_kind f : is_union (erase f) = is_union f /\ is_null (erase f) = is_null f.
  Proof. destruct f; split; reflexivity. Qed.
  Lemma erase_typed t : every typed t <-> every typed (erase t).
  Proof.
    induction t as [c|c|c b0 s0|c b0|c n0 va|c n0 va|c x l r IH|c k x IHk IHx|c fs IH|c s|c ts IH|c rg] using rtype_ind';
      cbn [erase]; try tauto; rewrite !every_iff; cbn [children typed].
    - rewrite !Forall_cons_iff, IH. tauto.
    - rewrite !Forall_cons_iff, IHk, IHx. tauto.
    - rewrite !Forall_map.
      assert (E1 : Forall (every typed) fs <-> Forall (fun x => every typed (erase x)) fs).
      { rewrite !Forall_forall in *. split; intros H x I; apply (IH x I); auto. }
      rewrite E1. assert (E2 : Forall (fun f => is_union f = true \/ is_null f = true) fs <->
        Forall (fun x => is_union (erase x) = true \/ is_null (erase x) = true) fs).
      { rewrite !Forall_forall. split; intros H x I; specialize (H x I); destruct (erase_kind x) as [A B]; rewrite A, B in *; auto. }
      rewrite E2. tauto.
    - rewrite !Forall_map.
      assert (E1 : Forall (every typed) ts <-> Forall (fun x => every typed (erase x)) ts).
      { rewrite !Forall_forall in *. split; intros H x I; apply (IH x I); auto. }
      rewrite E1. tauto.
  Qed.
  Lemma erase_holds t : forall v, every typed t -> (holds env (erase t) v <-> holds env t v).
  Proof.
    induction t as [c|c|c b0 s0|c b0|c n0 va|c n0 va|c x l r IH|c k x IHk IHx|c fs IH|c s|c ts IH|c rg] using rtype_ind';
      intros v T; apply every_iff in T as [T F]; cbn [erase children typed] in *; try tauto.
    - inversion F; subst. split; inversion 1; subst; apply h_list; auto; intros y I; apply IH; auto.
    - inversion F as [|? ? A1 A2]; inversion A2; subst. split; inversion 1; subst; apply h_map; intros a b I; (apply IHk || apply IHx); eauto.
    - rewrite Forall_forall in *.
      assert (N : forall i f, nth_error (map erase fs) i = Some f <-> exists g, nth_error fs i = Some g /\ f = erase g).
      { intros i f. rewrite nth_error_map. destruct (nth_error fs i); cbn; split.
        - intros [= <-]. eauto.
        - intros (g & [= <-] & ->). reflexivity.
        - discriminate.
        - intros (g & [=] & _). }
      split; inversion 1 as [| | | | | | | | | | | |? ? ? LN NM HV| | |]; subst.
      + rewrite map_length in LN. apply h_struct; auto.
        * intros i f n d I J. rewrite <- (erase_name f) by eauto using nth_error_In. apply (NM i _ n d); auto. apply N. eauto.
        * intros i f n d I J. apply IH; eauto using nth_error_In. apply (HV i _ n d); auto. apply N. eauto.
      + apply h_struct; [now rewrite map_length| |].
        * intros i f n d I J. apply N in I as (g & I & ->). rewrite erase_name by eauto using nth_error_In. eapply NM; eauto.
        * intros i f n d I J. apply N in I as (g & I & ->). apply IH; eauto using nth_error_In.
    - rewrite Forall_forall in *. rewrite !holds_union. split.
      + intros (t & I & H). apply in_map_iff in I as (y & <- & I). exists y. split; auto. apply IH; auto.
      + intros (t & I & H). exists (erase t). split; [now apply in_map|]. apply IH; auto.
  Qed.

  (** A flattened union holds what its members hold. *)
  Lemma merged_typed us ms : Forall (every typed) us -> merged us ms -> Forall (every typed) ms.
  Proof.
    intros F (_ & _ & M & _). rewrite Forall_forall in *. intros m I.
    apply M in I as [->|(u & x & Iu & Ix & E)].
    - apply every_iff. split; [exact Logic.I|constructor].
    - apply erase_typed. rewrite <- E. apply (proj1 (erase_typed x)). apply (every_member _ u x (F u Iu) Ix).
  Qed.
  Lemma merged_holds c us ms v : Forall (every typed) us -> merged us ms ->
    (holds env (TUnion c ms) v <-> v = DNull \/ exists u, In u us /\ holds env u v).
  Proof.
    intros F M. pose proof (merged_typed us ms F M) as FM. destruct M as (N & _ & M1 & M2).
    rewrite Forall_forall in *. rewrite holds_union. split.
    - intros (m & I & H). pose proof (M1 m I) as [->|(u & x & Iu & Ix & E)].
      + apply holds_nulltype in H. auto.
      + right. exists u. split; auto.
        assert (Hx : holds env x v).
        { apply erase_holds; [apply (every_member _ u x (F u Iu) Ix)|]. rewrite E. apply erase_holds; auto. }
        destruct u; cbn [members] in Ix; try (destruct Ix as [<-|[]]; exact Hx). eapply h_union; eauto.
    - intros [->|(u & Iu & H)]; [exists (TNull c0); split; auto; constructor|].
      assert (X : exists x, In x (members u) /\ holds env x v).
      { destruct u; cbn [members]; try (eexists; split; [left; reflexivity|exact H]). now apply holds_union in H. }
      destruct X as (x & Ix & Hx). destruct (M2 u x Iu Ix) as (y & m & Im & Ey & EE).
      pose proof (every_member _ u x (F u Iu) Ix) as Tx.
      assert (Ty : every typed y) by (apply erase_typed; rewrite EE; now apply (proj1 (erase_typed x))).
      assert (Hy : holds env y v) by (apply erase_holds; auto; rewrite EE; now apply erase_holds).
      exists m. split; auto. destruct Ey as [->|Ey]; auto. eapply eq_holds; eauto.
  Qed.

  (** ** Hive types *)
  Definition exact (h : htype) (t : rtype) : Prop :=
    every typed t /\ (is_union t = true \/ is_null t = true) /\
    forall v, holds env t v <-> v = DNull \/ hive_in hive_taken h v.
  Lemma exact_finished d e h b r : finished d e b r -> every typed b ->
    (forall v, holds env b v <-> hive_in hive_taken h v) -> exact h r.
  Proof.
    intros -> T H. split; [|split].
    - apply every_iff. split; [exact Logic.I|]. constructor; [apply every_iff; split; [exact Logic.I|constructor]|]. constructor; auto.
    - auto.
    - intros v. rewrite holds_nullable, H. tauto.
  Qed.
  Lemma leaf_typed t : children t = [] -> typed t -> every typed t.
  Proof. intros C T. apply every_iff. rewrite C. auto. Qed.

  Lemma any_in P hs v : hive_in P (HUnion hs) v <-> exists h, In h hs /\ hive_in P h v.
  Proof.
    cbn [hive_in]. induction hs as [|x r IH].
    - split; [tauto|intros (h & [] & _)].
    - rewrite IH. split.
      + intros [H|(h & I & H)]; [exists x|exists h]; cbn; auto.
      + intros (h & [<-|I] & H); eauto.
  Qed.

  Lemma take_bool c v : holds env (TBool c) v <-> exists b, v = DBool b.
  Proof. split; [inversion 1; eauto|intros (b & ->); constructor]. Qed.
  Lemma take_int c b v : c_logical c = PNone ->
    (holds env (TInt c (PInt b) (PBool true)) v <-> exists z, v = DInt z /\ int_range b true z).
  Proof.
    intros L. split; [|intros (z & -> & H); now constructor].
    inversion 1; unfold logical_is in *; subst; try congruence. eauto.
  Qed.
  Lemma take_float c b v : holds env (TFloat c (PInt b)) v <-> exists q, v = DFloat q /\ float_format b q.
  Proof. split; [inversion 1; eauto|intros (z & -> & H); now constructor]. Qed.
  Lemma take_string c n va v : holds env (TString c n va) v <-> exists s, v = DText s /\ fits n va (String.length s).
  Proof. split; [inversion 1; eauto|intros (z & -> & H); now constructor]. Qed.
  Lemma take_bytes c n va v : c_logical c = PNone ->
    (holds env (TBytes c n va) v <-> exists s, v = DBytes s /\ fits n va (String.length s)).
  Proof.
    intros L. split; [|intros (z & -> & H); now constructor].
    inversion 1; unfold logical_is in *; subst; try congruence. eauto.
  Qed.
  Lemma take_instant x b u m v : time_unit u m -> dget "unit" x = Some (PStr u) ->
    (holds env (TInt (mkC (PStr "build.recap.Timestamp") PNone PNone x) (PInt b) (PBool true)) v <->
     exists n k z, v = DInstant n k /\ same_number z m n k /\ int_range b true z).
  Proof.
    intros U X. split.
    - inversion 1; unfold logical_is, extra_is in *; cbn [c_logical c_extra] in *; subst; try congruence.
      match goal with H : dget "unit" x = Some (PStr ?y), T : time_unit ?y ?w |- _ =>
        assert (y = u) by congruence; subst y; rewrite (unit_inj _ _ _ T U) in * end. eauto 8.
    - intros (n & k & z & -> & S & R). eapply h_instant; eauto; reflexivity.
  Qed.
  Lemma take_day x b v : dget "unit" x = Some (PStr "day") ->
    (holds env (TInt (mkC (PStr "build.recap.Date") PNone PNone x) (PInt b) (PBool true)) v <->
     exists n, v = DDay n /\ int_range b true n).
  Proof.
    intros X. split.
    - inversion 1; unfold logical_is, extra_is in *; cbn [c_logical c_extra] in *; subst; try congruence. eauto.
    - intros (n & -> & R). eapply h_day; eauto; reflexivity.
  Qed.
  Lemma take_interval x n va v : ~ holds env (TBytes (mkC (PStr "build.recap.Interval") PNone PNone x) n va) v.
  Proof. inversion 1; unfold logical_is in *; cbn [c_logical] in *; congruence. Qed.
  Lemma take_decimal p s v : (p <= 38)%Z ->
    (holds env (decimal_t 16 (PInt p) (PInt s)) v <-> hive_taken (HDecimal p s) v).
  Proof.
    intros P. split.
    - intros H. assert (X : exists u k, v = DNumber u k).
      { inversion H; unfold logical_is in *; cbn in *; try congruence. eauto. }
      destruct X as (u & k & ->). apply holds_decimal_any in H as (z & A & B & _). exists u, k, z. auto.
    - intros (u & k & z & -> & A & B). apply holds_decimal_any. exists z. split; auto. split; auto.
      apply decimal_fit with (p := p); auto; [lia|]. now apply fits_38.
  Qed.

  Lemma prim_exact d e p t : name_only e -> hive_finish (hive_prim d e p) = Ok t -> exact (HPrim p) t.
  Proof.
    intros NO E.
    assert (W : forall l x b, (exists r, hive_finish (hive_prim d e p) = Ok r /\ finished d e (set_c b (mkC l PNone PNone x)) r) ->
       children b = [] -> typed (set_c b (mkC l PNone PNone x)) ->
       (forall v, holds env (set_c b (mkC l PNone PNone x)) v <-> hive_in hive_taken (HPrim p) v) -> exact (HPrim p) t).
    { intros l x b (r & Er & Fr) C T H. rewrite E in Er. injection Er as <-. eapply exact_finished; eauto.
      apply leaf_typed; auto. rewrite <- C. destruct b; reflexivity. }
    destruct p; unfold hive_prim in *;
    try (match type of E with hive_finish ?t = _ =>
      match t with
      | context [mkC ?l PNone d (?x ++ e)] => refine (W l x t _ eq_refl _ _);
          [apply finish_other; [assumption|reflexivity|cbn; auto 8|intros; cbn; congruence|reflexivity|reflexivity]| |]
      | context [mkC ?l PNone d e] => refine (W l [] t _ eq_refl _ _);
          [apply finish_other; [assumption|reflexivity|cbn; auto 8|intros; cbn; congruence|reflexivity|reflexivity]| |]
      end end; cbn [set_c typed typed_n]; clear W E).
    all: try (intros v; cbn [hive_in hive_taken hive_stored]).
    - injection E as <-. split; [apply leaf_typed; [reflexivity|exact Logic.I]|]. split; [auto|]. intros v. rewrite holds_nulltype. cbn. tauto.
    - exact Logic.I.
    - apply take_bool.
    - split; [|eauto]. split; [auto|]. split; [discriminate|]. intros ? ? _ [=].
    - apply take_int. reflexivity.
    - split; [|eauto]. split; [auto|]. split; [discriminate|]. intros ? ? _ [=].
    - apply take_int. reflexivity.
    - split; [|eauto]. split; [auto|]. split; [discriminate|]. intros ? ? _ [=].
    - apply take_int. reflexivity.
    - split; [|eauto]. split; [auto|]. split; [discriminate|]. intros ? ? _ [=].
    - apply take_int. reflexivity.
    - eauto.
    - rewrite take_float. split; intros (q & -> & H); exists q; split; auto; now apply format32.
    - eauto.
    - rewrite take_float. split; intros (q & -> & H); exists q; split; auto; now apply format64.
    - split; eauto.
    - rewrite take_string. cbn [fits]. split; intros (s & H); exists s; tauto.
    - split; [|split; eauto]. split; [auto|]. split; [discriminate|]. intros ? ? _ [=].
    - rewrite take_bytes by reflexivity. cbn [fits truthy]. change (2 ^ 31)%Z with 2147483648%Z.
      split; intros (s & -> & H); exists s; (split; [auto|lia]).
    - split; [|eauto]. split; [right; eexists; reflexivity|]. split; [intros ? [= <-]; eauto|]. intros ? ? [<-|[<-|[]]] [=].
    - apply take_day. reflexivity.
    - split; [|eauto]. split; [right; eexists; reflexivity|]. split; [intros ? [= <-]; eauto|]. intros ? ? [<-|[<-|[]]] [=].
    - apply (take_instant _ _ "nanosecond"); [constructor|reflexivity].
    - split; [|eauto]. split; [right; eexists; reflexivity|]. split; [intros ? [= <-]; eauto|]. intros ? ? [<-|[<-|[]]] [=].
    - apply (take_instant _ _ "nanosecond"); [constructor|reflexivity].
    - split; [|split; eauto]. split; [right; eexists; reflexivity|]. split; [intros ? [= <-]; eauto|]. intros ? ? [<-|[<-|[]]] [=].
    - split; [intros H; exfalso; eapply take_interval; eauto|tauto].
    - split; [|split; eauto]. split; [right; eexists; reflexivity|]. split; [intros ? [= <-]; eauto|]. intros ? ? [<-|[<-|[]]] [=].
    - split; [intros H; exfalso; eapply take_interval; eauto|tauto].
  Qed.

  Lemma hive_exact h : forall d e t, name_only e -> hive_parse d e h = Ok t -> exact h t.
  Proof.
    induction h using htype_ind'; intros d e t NO E.
    - eapply prim_exact; eauto.
    - cbn [hive_parse] in E. destruct (Z.ltb_spec 38 p); [discriminate|].
      destruct (finish_other (TBytes (mkC (PStr "build.recap.Decimal") PNone d
             (("precision", PInt p) :: ("scale", PInt s) :: e)) (PInt 16) (PBool false))
             (PStr "build.recap.Decimal") d [("precision", PInt p); ("scale", PInt s)] e) as (r & E' & Fr);
        auto; try (cbn; auto 8; fail); try (intros; cbn; congruence).
      rewrite E in E'. injection E' as <-. eapply exact_finished; eauto.
      + apply leaf_typed; [reflexivity|]. cbn [set_c typed]. split; [|split; eauto]. split; [right; eexists; reflexivity|]. split; [discriminate|].
        intros ? ? [<-|[<-|[]]] [= <-]; eauto.
      + intros v. now apply take_decimal.
    - cbn [hive_parse] in E. destruct (finish_other (TString (mkC PNone PNone d e) (PInt n) (PBool true)) PNone d [] e)
        as (r & E' & Fr); auto; try (cbn; auto; fail); try (intros; cbn; congruence).
      rewrite E in E'. injection E' as <-. eapply exact_finished; eauto.
      + apply leaf_typed; [reflexivity|]. cbn [set_c typed]. split; eauto.
      + intros v. cbn [set_c]. rewrite take_string. reflexivity.
    - cbn [hive_parse] in E. destruct (finish_other (TString (mkC PNone PNone d e) (PInt n) (PBool false)) PNone d [] e)
        as (r & E' & Fr); auto; try (cbn; auto; fail); try (intros; cbn; congruence).
      rewrite E in E'. injection E' as <-. eapply exact_finished; eauto.
      + apply leaf_typed; [reflexivity|]. cbn [set_c typed]. split; eauto.
      + intros v. cbn [set_c]. rewrite take_string. reflexivity.
    - cbn [hive_parse] in E.
      destruct (hive_parse PNone [] h1) as [k|] eqn:E1; cbn [rbind] in E; [|discriminate].
      destruct (hive_parse PNone [] h2) as [x|] eqn:E2; cbn [rbind] in E; [|discriminate].
      destruct (IHh1 _ _ _ (or_introl eq_refl) E1) as (T1 & _ & H1). destruct (IHh2 _ _ _ (or_introl eq_refl) E2) as (T2 & _ & H2).
      destruct (finish_other (TMap (mkC PNone PNone d e) k x) PNone d [] e) as (r & E' & Fr);
        auto; try (cbn; auto; fail); try (intros; cbn; congruence).
      rewrite E in E'. injection E' as <-. eapply exact_finished; eauto.
      + apply every_iff. split; [exact Logic.I|]. cbn. auto.
      + intros v. cbn [set_c hive_in]. split.
        * inversion 1; subst. eexists. split; [reflexivity|]. intros a b I. rewrite <- H1, <- H2. eauto.
        * intros (l & -> & H). apply h_map; intros a b I; destruct (H a b I) as [A B]; [apply H1|apply H2]; auto.
    - cbn [hive_parse] in E.
      destruct (hive_parse PNone [] h) as [x|] eqn:E1; cbn [rbind] in E; [|discriminate].
      destruct (IHh _ _ _ (or_introl eq_refl) E1) as (T1 & _ & H1).
      destruct (finish_other (TList (mkC PNone PNone d e) x PNone (PBool true)) PNone d [] e) as (r & E' & Fr);
        auto; try (cbn; auto; fail); try (intros; cbn; congruence).
      rewrite E in E'. injection E' as <-. eapply exact_finished; eauto.
      + apply every_iff. split; [cbn; auto|]. cbn. auto.
      + intros v. cbn [set_c hive_in]. split.
        * inversion 1; subst. eexists. split; [reflexivity|]. intros a I. rewrite <- H1. auto.
        * intros (l & -> & H). apply h_list; [exact Logic.I|]. intros a I. apply H1. auto.
    - rewrite parse_union in E. destruct (parse_all ts) as [us|] eqn:EA; cbn [rbind] in E; [|discriminate].
      unfold parse_all in EA.
      assert (U : Forall2 exact ts us).
      { clear E. revert us EA. induction H as [|x l Hx Hl IH]; intros us EA; cbn [rmap] in EA; [injection EA as <-; constructor|].
        destruct (hive_parse PNone [] x) as [y|] eqn:Ex; cbn [rbind] in EA; [|discriminate].
        destruct (rmap (hive_parse PNone []) l) as [ys|] eqn:El; cbn [rbind] in EA; [|discriminate]. injection EA as <-.
        constructor; [apply (Hx PNone [] y (or_introl eq_refl) Ex)|eauto]. }
      assert (N : Forall (every hive_node) us).
      { clear E U H. revert us EA. induction ts as [|x l IH]; intros us EA; cbn [rmap] in EA; [injection EA as <-; constructor|].
        destruct (hive_parse PNone [] x) as [y|] eqn:Ex; cbn [rbind] in EA; [|discriminate].
        destruct (rmap (hive_parse PNone []) l) as [ys|] eqn:El; cbn [rbind] in EA; [|discriminate]. injection EA as <-.
        constructor; eauto. apply (g_nodes _ _ _ _ (proj1 (hive_main x PNone [] (or_introl eq_refl)) _ Ex)). }
      destruct (merged_flatten (mkC PNone PNone d (("default", PNone) :: e)) us N) as (ms & E' & M & _).
      rewrite E' in E. cbn [hive_finish] in E. injection E as <-.
      assert (T : Forall (every typed) us).
      { clear - U. induction U as [|h u l m X]; constructor; auto. apply X. }
      split; [|split; [auto|]].
      + apply every_iff. split; [exact Logic.I|]. exact (merged_typed us ms T M).
      + intros v. rewrite (merged_holds _ us ms v T M), any_in. clear - U.
        assert (X : (exists u, In u us /\ holds env u v) -> v = DNull \/ exists h, In h ts /\ hive_in hive_taken h v).
        { intros (u & I & H). induction U as [|h u' l m X U IH]; [destruct I|]. destruct I as [->|I].
          - apply X in H as [->|H]; auto. right. exists h. cbn; auto.
          - destruct (IH I) as [->|(h' & I' & H')]; auto. right. exists h'. cbn; auto. }
        assert (Y : (exists h, In h ts /\ hive_in hive_taken h v) -> exists u, In u us /\ holds env u v).
        { intros (h & I & H). destruct (Forall2_in_l _ _ _ _ U I) as (u & Iu & EX). exists u. split; auto. apply EX. auto. }
        tauto.
    - rewrite parse_struct in E. destruct (parse_fields ns ts) as [fs|] eqn:EA; cbn [rbind] in E; [|discriminate].
      destruct (finish_other (TStruct (mkC PNone PNone d e) fs) PNone d [] e) as (r & E' & Fr);
        auto; try (cbn; auto; fail); try (intros; cbn; congruence).
      rewrite E in E'. injection E' as <-. clear E.
      assert (X : Forall (every typed) fs /\ Forall (fun f => is_union f = true \/ is_null f = true) fs /\
        forall row, (length fs = length row /\
          (forall i f n d, nth_error fs i = Some f -> nth_error row i = Some (n, d) -> extra "name" f = Some (PStr n)) /\
          (forall i f n d, nth_error fs i = Some f -> nth_error row i = Some (n, d) -> holds env f d)) <->
          (fix fields (ns : list string) (hs : list htype) (row : list (string * datum)) {struct hs} : Prop :=
           match ns, hs with
           | n :: ns', x :: hs' =>
               match row with
               | (m, w) :: row' => m = n /\ (w = DNull \/ hive_in hive_taken x w) /\ fields ns' hs' row'
               | [] => False
               end
           | _, _ => row = []
           end) ns ts row).
      { clear Fr. revert ns fs EA. induction H as [|x l Hx Hl IH]; intros ns fs EA.
        - assert (fs = []) by (destruct ns; cbn in EA; congruence). subst. split; [constructor|]. split; [constructor|].
          intros row. assert (G : (length (@nil rtype) = length row /\
            (forall i f n d, nth_error (@nil rtype) i = Some f -> nth_error row i = Some (n, d) -> extra "name" f = Some (PStr n)) /\
            (forall i f n d, nth_error (@nil rtype) i = Some f -> nth_error row i = Some (n, d) -> holds env f d)) <-> row = []).
          { split; [intros (L & _); destruct row; [auto|discriminate]|intros ->; split; auto; split; intros [|i]; discriminate]. }
          destruct ns; exact G.
        - destruct ns as [|n ns]; cbn [parse_fields] in EA.
          + injection EA as <-. split; [constructor|]. split; [constructor|].
            intros row. split; [intros (L & _); destruct row; [auto|discriminate]|intros ->; split; auto; split; intros [|i]; discriminate].
          + destruct (hive_parse PNone [("name", PStr n)] x) as [y|] eqn:Ex; cbn [rbind] in EA; [|discriminate].
            destruct (parse_fields ns l) as [ys|] eqn:El; cbn [rbind] in EA; [|discriminate]. injection EA as <-.
            assert (NO' : name_only [("name", PStr n)]) by (right; eauto).
            destruct (Hx _ _ _ NO' Ex) as (T1 & K1 & H1). destruct (IH _ _ El) as (T2 & K2 & H2).
            assert (NM : extra "name" y = Some (PStr n)).
            { unfold extra. rewrite (g_attrs _ _ _ _ (proj1 (hive_main x PNone _ NO') _ Ex)). cbn [c_extra]. destruct (is_null y); reflexivity. }
            split; [constructor; auto|]. split; [constructor; auto|].
            intros [|[m w] row]; [split; [intros (L & _); discriminate|tauto]|].
            rewrite <- H2, <- H1. split.
            * intros (L & A & B). split; [|split; [apply (B 0 y m w); reflexivity|]].
              -- specialize (A 0 y m w eq_refl eq_refl). congruence.
              -- split; [cbn in L; auto|]. split; intros i f n0 d0 I J; [apply (A (Datatypes.S i) f n0 d0)|apply (B (Datatypes.S i) f n0 d0)]; auto.
            * intros (-> & HW & L & A & B). split; [cbn; auto|]. split; intros [|i] f n0 d0; cbn; eauto.
              -- intros [= <-] [= <- <-]. exact NM.
              -- intros [= <-] [= <- <-]. exact HW. }
      destruct X as (T & K & H0). eapply exact_finished; eauto.
      + apply every_iff. split; auto.
      + intros v. cbn [set_c hive_in]. split.
        * inversion 1; subst. eexists. split; [reflexivity|]. apply H0. auto.
        * intros (row & -> & HR). apply H0 in HR as (A & B & C). apply h_struct; auto.
    - discriminate.
  Qed.

  Theorem hive_rows_in name cols t row : hive_to_recap name cols = Ok t ->
    (holds env t (DRow row) <-> hive_row hive_taken cols row).
  Proof.
    unfold hive_to_recap. intros H. destruct (rmap hive_column cols) as [fs|] eqn:E; cbn [rbind] in H; [|discriminate].
    injection H as <-. unfold hive_row.
    assert (X : forall fs, rmap hive_column cols = Ok fs -> forall row,
      (length fs = length row /\
        (forall i f n d, nth_error fs i = Some f -> nth_error row i = Some (n, d) -> extra "name" f = Some (PStr n)) /\
        (forall i f n d, nth_error fs i = Some f -> nth_error row i = Some (n, d) -> holds env f d)) <->
      Forall2 (fun col nv => fst nv = hc_name col /\ (snd nv = DNull \/ hive_in hive_taken (hc_type col) (snd nv))) cols row).
    { clear. induction cols as [|col cols IH]; cbn [rmap]; intros fs E row.
      - injection E as <-. split; [intros (L & _); destruct row; [constructor|discriminate]|].
        inversion 1; subst. split; auto. split; intros [|i]; discriminate.
      - destruct (hive_column col) as [y|] eqn:Ex; cbn [rbind] in E; [|discriminate].
        destruct (rmap hive_column cols) as [ys|] eqn:El; cbn [rbind] in E; [|discriminate]. injection E as <-.
        unfold hive_column in Ex. assert (NO : name_only [("name", PStr (hc_name col))]) by (right; eauto).
        destruct (hive_exact _ _ _ _ NO Ex) as (T1 & K1 & H1).
        assert (NM : extra "name" y = Some (PStr (hc_name col))).
        { unfold extra. rewrite (g_attrs _ _ _ _ (proj1 (hive_main _ _ _ NO) _ Ex)). cbn [c_extra]. destruct (is_null y); reflexivity. }
        destruct row as [|[m w] row]; [split; [intros (L & _); discriminate|inversion 1]|].
        specialize (IH ys eq_refl row). split.
        + intros (L & A & B). constructor.
          * cbn [fst snd]. rewrite <- H1. split; [|apply (B 0 y m w); reflexivity].
            specialize (A 0 y m w eq_refl eq_refl). congruence.
          * apply IH. split; [cbn in L; auto|]. split; intros i f n0 d0 I J; [apply (A (Datatypes.S i) f n0 d0)|apply (B (Datatypes.S i) f n0 d0)]; auto.
        + intros F. inversion F as [|? ? ? ? HD TL]; subst. cbn [fst snd] in HD. destruct HD as [-> HW]. rewrite <- H1 in HW.
          apply IH in TL as (L & A & B). split; [cbn; auto|]. split; intros [|i] f n0 d0; cbn; eauto.
          * intros [= <-] [= <- <-]. exact NM.
          * intros [= <-] [= <- <-]. exact HW. }
    rewrite <- (X fs E). split; [inversion 1; subst; auto|intros (A & B & C); now apply h_struct].
  Qed.
End Env.

Theorem hive_rows : forall env name cols t row, hive_to_recap name cols = Ok t ->
  (holds env t (DRow row) <-> hive_row hive_taken cols row).
Proof. intros. eapply hive_rows_in; eauto. Qed.

Lemma day_range n : (day_1 <= n <= last_day)%Z -> int_range 32 true n.
Proof. unfold day_1, last_day, int_range. change (2 ^ (32 - 1))%Z with 2147483648%Z. lia. Qed.
(** Types without timestamps and texts of limited length lose nothing. *)
Theorem hive_kept : forall h, hive_safe h -> forall v, hive_in hive_stored h v -> hive_in hive_taken h v.
Proof.
  induction h using htype_ind'; intros SF v V; inversion SF; subst.
  - destruct p; cbn [hive_in hive_taken hive_stored] in *; auto; try congruence.
    destruct V as (n & -> & R). exists n. split; auto. now apply day_range.
  - cbn in *. destruct V as (u & -> & A & B & C). exists u, s, u. unfold same_number. auto.
  - cbn [hive_in] in *. destruct V as (l & -> & F). exists l. split; auto. intros a b I. destruct (F a b I) as [[A|A] [B|B]]; auto.
  - cbn [hive_in] in *. destruct V as (l & -> & F). exists l. split; auto. intros a I. destruct (F a I) as [A|A]; auto.
  - apply any_in in V as (h & I & V). apply any_in. exists h. split; auto. rewrite Forall_forall in *. auto.
  - cbn [hive_in] in *. destruct V as (row & -> & V). exists row. split; auto. clear SF.
    revert ns row V. induction H as [|x l Hx Hl IH]; intros [|n ns] row V; auto.
    inversion H1; subst. destruct row as [|[m w] row]; auto. destruct V as (-> & W & V). split; auto. split; [destruct W; auto|].
    apply IH; auto.
Qed.

Theorem hive_lost :
  (forall n, (1 <= n)%Z -> exists v, (hive_stored (HVarchar n) v /\ ~ hive_taken (HVarchar n) v) /\
     (hive_stored (HChar n) v /\ ~ hive_taken (HChar n) v)) /\
  (forall p, p = HTimestamp \/ p = HTimestampLocalTz ->
     exists v, hive_stored (HPrim p) v /\ ~ hive_taken (HPrim p) v).
Proof.
  split.
  - intros n N. exists (DText (accents (Z.to_nat n))). destruct (accents_chars (Z.to_nat n)) as [A B].
    split; split; cbn [hive_stored hive_taken]; try (eexists; split; [reflexivity|]; unfold text_within; lia);
      intros (s & [= <-] & L); lia.
  - intros p P. exists (DInstant (32503680000 * 10 ^ 9) 9). destruct P as [-> | ->]; cbn [hive_stored hive_taken];
      (split; [eexists; split; [reflexivity|unfold year_1, year_10000; lia]|]);
      intros (n & k & z & E & S & R); injection E as <- <-; unfold same_number in S;
      assert (z = 32503680000 * 10 ^ 9)%Z by (apply (Z.mul_cancel_r _ _ (10 ^ 9)); [discriminate|exact S]); subst z;
      revert R; vm_compute; intros [_ X]; discriminate.
Qed.
