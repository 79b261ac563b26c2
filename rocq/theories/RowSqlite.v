(** C111: the values of SQLite columns. *)
From Coq Require Import String Ascii List NArith ZArith QArith Qpower Bool Lia.
From Verif Require Import PyVal PyValFacts RType Registry FromDict Nullable Url Dbapi SpecTypes SpecDb SpecInstances SpecRows
  DbapiFacts DbapiMore DbReads DbRanges RowFacts RowTypes RowMysql RowPostgres.
Import ListNotations.
Open Scope nat_scope.
Open Scope string_scope.
Open Scope list_scope.

(** ** The pattern finds the numbers of a sized type *)
Lemma digit_true c : digit_char c -> is_digit c = true.
Proof.
  unfold digit_char, is_digit, digit_of. intros [A B].
  apply N.leb_le in A, B. rewrite A, B. reflexivity.
Qed.
Lemma word_true c : word_char c -> is_word c = true.
Proof.
  unfold word_char, digit_char, is_word. rewrite !orb_true_iff, !andb_true_iff, !N.leb_le, N.eqb_eq.
  intros [H|[H|[H|H]]]; try tauto. right. subst. reflexivity.
Qed.
Lemma span_all (P : ascii -> Prop) (q : ascii -> bool) (s r : string) : (forall c, P c -> q c = true) -> all_chars P s ->
  (forall c r', r = String c r' -> q c = false) -> span q (s ++ r) = (s, r).
Proof.
  intros PQ A E. induction s as [|c s IH]; cbn [append span].
  - destruct r as [|c r]; auto. cbn [span]. now rewrite (E c r).
  - destruct A as [A1 A2]. rewrite (PQ _ A1), (IH A2). reflexivity.
Qed.
Lemma span_app q s : forall a b, span q s = (a, b) -> s = (a ++ b)%string.
Proof.
  induction s as [|c s IH]; cbn [span]; intros a b H.
  - injection H as <- <-. reflexivity.
  - destruct (q c); [|injection H as <- <-; reflexivity].
    destruct (span q s) as [a' b']. injection H as <- <-. cbn. now rewrite (IH a' b').
Qed.
Lemma here_no_paren s : (forall a c r, span is_word s = (a, String c r) -> c <> "("%char) -> numeric_here s = None.
Proof.
  intros H. unfold numeric_here. destruct (span is_word s) as [w r]. destruct (nonempty w); auto.
  destruct r as [|c r]; auto. specialize (H _ _ _ eq_refl).
  destruct c as [[] [] [] [] [] [] [] []]; try reflexivity. congruence.
Qed.
Lemma search_plain s : all_chars (fun c => c <> "("%char) s -> numeric_search s = None.
Proof.
  induction s as [|c s IH]; intros A; [reflexivity|].
  cbn [numeric_search]. rewrite here_no_paren; [apply IH, A|].
  intros a d r E. apply span_app in E. revert A. rewrite E. clear E IH.
  induction a as [|x a IHa]; cbn; [tauto|]. intros [_ X]. auto.
Qed.
Lemma search_prefix a rest : (a = "" \/ exists b, a = (b ++ " ")%string) -> all_chars (fun c => c <> "("%char) a ->
  numeric_search (a ++ rest) = numeric_search rest.
Proof.
  intros [->|(b & ->)] A; [reflexivity|].
  assert (X : forall x y, ((x ++ " ") ++ y = x ++ String " " y)%string).
  { induction x as [|c x IH]; intros; cbn; [reflexivity|now rewrite IH]. }
  induction b as [|c b IH].
  - cbn [append numeric_search]. reflexivity.
  - rewrite X. cbn [append numeric_search]. rewrite here_no_paren.
    + rewrite <- X. apply IH. apply A.
    + clear IH. change (String c (b ++ String " " rest)) with (String c b ++ String " " rest)%string.
      assert (Y : forall q, all_chars (fun c => c <> "("%char) (q ++ " ") -> forall s d r, span is_word (q ++ String " " rest) = (s, String d r) -> d <> "("%char).
      { induction q as [|x q IH]; intros Q s d r; cbn [append span].
        - change (is_word " ") with false. cbn. intros [= <- <- <-]. discriminate.
        - destruct (is_word x).
          + destruct (span is_word (q ++ String " " rest)) as [s' r'] eqn:E. intros [= <- ->].
            eapply (IH (proj2 Q)); eauto.
          + intros [= <- <- <-]. apply Q. }
      intros s d r. apply Y. exact A.
Qed.
Lemma search_sized a w n m : sq_legal (SqSized a w n m) ->
  exists k, numeric_search (sq_text (SqSized a w n m)) = Some (w, n, k).
Proof.
  intros (L1 & L2 & L3 & L4 & [L5 L6] & L7).
  assert (W : forall r, span is_word (w ++ "(" ++ r) = (w, ("(" ++ r)%string)).
  { intros r. apply (span_all word_char); auto using word_true. intros c r' [= <- _]. reflexivity. }
  assert (NW : nonempty w = true) by (destruct w; [congruence|reflexivity]).
  assert (NN : nonempty n = true) by (destruct n; [congruence|reflexivity]).
  assert (S : forall s x, numeric_here s = Some x -> numeric_search s = Some x).
  { intros s x H. destruct s; cbn [numeric_search]; rewrite H; reflexivity. }
  destruct m as [k|]; cbn [sq_text]; rewrite search_prefix by auto.
  - destruct (L7 k eq_refl) as [K1 K2]. exists k. apply S. unfold numeric_here. rewrite W, NW.
    cbn [append]. change (String "," (k ++ ")"))%string with ("," ++ k ++ ")")%string.
    rewrite (span_all digit_char is_digit n) by (auto using digit_true; intros c r' [= <- _]; reflexivity).
    rewrite NN. cbn [append].
    assert (SP : span is_space (k ++ ")") = ("", (k ++ ")")%string)).
    { destruct k as [|c k]; [congruence|]. cbn [append span]. replace (is_space c) with false; auto.
      destruct K2 as [K2 _]. destruct c as [[] [] [] [] [] [] [] []]; vm_compute in K2 |- *; try reflexivity;
        destruct K2 as [K2 K3]; try (exfalso; apply K2; reflexivity); exfalso; apply K3; reflexivity. }
    rewrite SP. rewrite (span_all digit_char is_digit k) by (auto using digit_true; intros c r' [= <- _]; reflexivity).
    destruct k; [congruence|reflexivity].
  - exists "". apply S. unfold numeric_here. rewrite W, NW. cbn [append].
    rewrite (span_all digit_char is_digit n) by (auto using digit_true; intros c r' [= <- _]; reflexivity).
    rewrite NN. reflexivity.
Qed.
Lemma digits_number n : forall acc, all_chars digit_char n -> digits acc n = number_of acc n.
Proof.
  induction n as [|c n IH]; intros acc A; cbn [digits number_of]; auto. destruct A as [[A1 A2] A].
  rewrite <- (IH _ A). f_equal. unfold digit_of. pose proof (proj2 (N.leb_le _ _) A1) as B1.
  pose proof (proj2 (N.leb_le _ _) A2) as B2. rewrite B1, B2. cbn [andb]. lia.
Qed.
Lemma number_pos n : forall acc, (0 <= acc)%Z -> all_chars digit_char n -> (0 <= number_of acc n)%Z.
Proof.
  induction n as [|c n IH]; intros acc P A; cbn [number_of]; auto. destruct A as [[A1 A2] A]. apply IH; auto. lia.
Qed.

(** ** What add_information_schema says about a column *)
Definition sq_sizes (t : sq_type) : pyval * pyval :=
  match t with
  | SqPlain _ => (PNone, PNone)
  | SqSized _ w n _ => match get_affinity (Some (upper w)) with
      | AText | ABlob => (PInt (number_of 0 n), PNone)
      | _ => (PNone, PInt (number_of 0 n))
      end
  end.
Definition sq_facts (t : sq_type) : list (string * pyval) :=
  [("TYPE", PStr (sq_text t)); ("CHARACTER_OCTET_LENGTH", fst (sq_sizes t)); ("NUMERIC_PRECISION", snd (sq_sizes t))].

Lemma sq_added d row : sq_legal (d_type d) -> sq_described d row ->
  exists col, add_information_schema row = Ok col /\ described sq_type sq_facts d col.
Proof.
  intros L D. destruct (sd_null _ _ D) as (n & k & N & K & NK). destruct (sd_default _ _ D) as (v & V).
  unfold add_information_schema, item. rewrite N. cbn [rbind].
  assert (P : exists pk, (if truthy (PInt n) then Ok PNone else match dget "PK" row with Some v => Ok v | None => Err KeyError end) = Ok pk
     /\ (if (truthy (PInt n) || truthy pk)%bool then "NO" else "YES") = (if d_null d then "YES" else "NO")).
  { rewrite K. cbn [truthy]. destruct (Z.eqb_spec n 0) as [->|NZ]; cbn [negb].
    - eexists. split; [reflexivity|]. cbn [truthy orb]. destruct (Z.eqb_spec k 0) as [->|KZ]; cbn [negb].
      + now rewrite (proj2 NK).
      + destruct (d_null d); auto. destruct (proj1 NK eq_refl). congruence.
    - eexists. split; [reflexivity|]. cbn [orb]. destruct (d_null d); auto. destruct (proj1 NK eq_refl). congruence. }
  destruct P as (pk & -> & P). cbn [rbind]. rewrite (sd_name _ _ D), V, (sd_type _ _ D). cbn [rbind].
  eexists. split; [reflexivity|]. rewrite P. clear P.
  set (X := match numeric_search _ with Some _ => _ | None => _ end).
  assert (HX : dget "NUMERIC_PRECISION" (rev X) = Some (snd (sq_sizes (d_type d))) /\
    dget "CHARACTER_OCTET_LENGTH" (rev X) = Some (fst (sq_sizes (d_type d))) /\
    dget "COLUMN_NAME" (rev X) = None /\ dget "IS_NULLABLE" (rev X) = None /\ dget "COLUMN_DEFAULT" (rev X) = None /\
    dget "TYPE" (rev X) = None).
  { subst X. destruct (d_type d) as [s|a w m sc] eqn:E.
    - cbn [sq_text sq_sizes]. rewrite search_plain by exact L. cbn. repeat split.
    - destruct (search_sized _ _ _ _ L) as (z & ->). cbn [sq_sizes].
      destruct L as (_ & _ & _ & _ & [_ L6] & _). rewrite (digits_number m 0 L6).
      destruct (get_affinity (Some (upper w))); cbn; repeat split. }
  clearbody X. destruct HX as (X1 & X2 & X3 & X4 & X5 & X6).
  constructor; [rewrite dget_dupd, rev_app_distr, dget_app..|].
  - rewrite X3. reflexivity.
  - rewrite X4. reflexivity.
  - rewrite X5. discriminate.
  - intros key val I. rewrite dget_dupd, rev_app_distr, dget_app.
    destruct I as [[= <- <-]|[[= <- <-]|[[= <- <-]|[]]]].
    + rewrite X6. cbn. apply (sd_type _ _ D).
    + rewrite X2. reflexivity.
    + rewrite X1. reflexivity.
Qed.

(** ** Columns *)
Lemma upper_char_idem c : upper_char (upper_char c) = upper_char c.
Proof. destruct c as [[] [] [] [] [] [] [] []]; reflexivity. Qed.
Lemma upper_idem s : upper (upper s) = upper s.
Proof. induction s as [|c s IH]; cbn [upper]; [reflexivity|]. now rewrite upper_char_idem, IH. Qed.
Lemma affinity_upper w : get_affinity (Some (upper w)) = get_affinity (Some w).
Proof. unfold get_affinity. now rewrite upper_idem. Qed.

Lemma str_app_assoc (a b c : string) : ((a ++ b) ++ c = a ++ b ++ c)%string.
Proof. induction a; cbn; [reflexivity|now rewrite IHa]. Qed.
Lemma contains_in x w a b : ci_contains x w -> ci_contains x (a ++ w ++ b).
Proof.
  intros (p & m & q & -> & E). exists (a ++ p)%string, m, (q ++ b)%string. split; auto.
  now rewrite !str_app_assoc.
Qed.
Lemma sized_in x a w n m : ci_contains x w -> ci_contains x (sq_text (SqSized a w n m)).
Proof. destruct m; cbn [sq_text]; apply contains_in. Qed.

Definition sq_base (t : sq_type) : rtype :=
  match get_affinity (Some (sq_text t)) with
  | AInteger => int_t 64 true
  | AReal => float_t (match snd (sq_sizes t) with PInt n => if (Z.eqb n 0 || Z.ltb 23 n)%bool then 64 else 32 | _ => 64 end)
  | AText => TString c0 (or_else (fst (sq_sizes t)) (PInt sqlite_max_length)) (PBool true)
  | ABlob => TBytes c0 (or_else (fst (sq_sizes t)) (PInt sqlite_max_length)) (PBool true)
  | ANumeric => TUnion c0 [TNull c0; int_t 64 true; float_t 64; TString c0 (PInt sqlite_max_length) (PBool true);
                  TBytes c0 (PInt sqlite_max_length) (PBool true)]
  end.
Lemma sizes_cases t : sq_sizes t = (PNone, PNone) \/ exists z, sq_sizes t = (PInt z, PNone) \/ sq_sizes t = (PNone, PInt z).
Proof. destruct t as [s|a w n m]; cbn; auto. right. exists (number_of 0 n). destruct (get_affinity _); auto. Qed.
Lemma sq_type_read d col : described sq_type sq_facts d col -> sqlite_type col = Ok (sq_base (d_type d)).
Proof.
  intros D. assert (F : forall k v, In (k, v) (sq_facts (d_type d)) -> item k col = Ok v) by (intros; eapply fact_item; eauto).
  unfold sqlite_type. unfold item at 1. rewrite (de_name _ _ _ _ D). cbn [rbind].
  rewrite (F "TYPE" _ (or_introl eq_refl)), (F "CHARACTER_OCTET_LENGTH" _ (or_intror (or_introl eq_refl))),
    (F "NUMERIC_PRECISION" _ (or_intror (or_intror (or_introl eq_refl)))). cbn [rbind].
  assert (T : forall (k : option string -> res rtype), k None = k (Some "") ->
     rbind (type_text (PStr (sq_text (d_type d)))) k = k (Some (sq_text (d_type d)))).
  { intros k K. unfold type_text. cbn [truthy as_str]. destruct (sq_text (d_type d)); [exact K|reflexivity]. }
  rewrite T by reflexivity. unfold sq_base.
  destruct (get_affinity (Some (sq_text (d_type d)))); auto.
  destruct (sizes_cases (d_type d)) as [E|(z & [E|E])]; rewrite E; cbn [fst snd truthy]; try reflexivity.
  destruct (Z.eqb_spec z 0); cbn [negb orb]; [reflexivity|]. cbn [py_gt_z rbind].
  unfold py_gt_z. cbn [num_of rbind].
  unfold Qle_bool. cbn [Qnum Qden inject_Z]. rewrite !Z.mul_1_r.
  replace (negb (z <=? 23)%Z) with (23 <? z)%Z; [reflexivity|]. destruct (Z.ltb_spec 23 z), (Z.leb_spec z 23); auto; lia.
Qed.

Lemma length_word_class w : w <> "" -> ~ rule1 w ->
  (length_word w <-> get_affinity (Some w) = AText \/ get_affinity (Some w) = ABlob).
Proof.
  intros N R1. pose proof (affinity_rules w) as A. unfold length_word.
  destruct (get_affinity (Some w)); cbn [class_of] in A; inversion A; unfold rule3 in *; try tauto; split; try tauto;
    try (intros [X|X]; discriminate).
Qed.
Lemma limit_fits t s : sq_legal t -> ~ rule1 (sq_text t) -> (Z.of_nat (String.length s) <= sq_max)%Z ->
  (fits (or_else (fst (sq_sizes t)) (PInt sqlite_max_length)) (PBool true) (String.length s) <->
   forall w n, sq_size t w n -> length_word w -> (1 <= n)%Z -> (Z.of_nat (String.length s) <= n)%Z).
Proof.
  intros L R1 M. destruct t as [x|a w n m]; cbn [sq_sizes fst].
  - cbn. split; [intros _ w n H; inversion H|intros _; exact M].
  - destruct L as (_ & _ & L3 & _ & [_ L6] & _). pose proof (number_pos n 0 ltac:(lia) L6) as NP.
    assert (RW : ~ rule1 w) by (intros X; apply R1; now apply sized_in).
    pose proof (length_word_class w L3 RW) as LW. rewrite affinity_upper.
    assert (Y : (fits (or_else (PInt (number_of 0 n)) (PInt sqlite_max_length)) (PBool true) (String.length s)) <->
      ((1 <= number_of 0 n)%Z -> (Z.of_nat (String.length s) <= number_of 0 n)%Z)).
    { unfold or_else. cbn [truthy]. destruct (Z.eqb_spec (number_of 0 n) 0) as [E|E]; cbn [negb fits truthy].
      - rewrite E. split; [lia|intros _; exact M].
      - split; auto. intros H. apply H. lia. }
    assert (Z : (forall w0 n0, sq_size (SqSized a w n m) w0 n0 -> length_word w0 -> (1 <= n0)%Z -> (Z.of_nat (String.length s) <= n0)%Z) <->
      (length_word w -> (1 <= number_of 0 n)%Z -> (Z.of_nat (String.length s) <= number_of 0 n)%Z)).
    { split.
      - intros H. apply H. constructor.
      - intros H w0 n0 X. inversion X; subst. exact H. }
    rewrite Z, LW. clear Z.
    destruct (get_affinity (Some w)); cbn [fst].
    1,2,5: split; [intros _ [X|X]; discriminate|intros _; exact M].
    all: rewrite Y; intuition congruence.
Qed.
Lemma real_size t q : sq_legal t -> ~ rule1 (sq_text t) -> ~ rule2 (sq_text t) -> ~ rule3 (sq_text t) -> double q ->
  (float_format (match snd (sq_sizes t) with PInt n => if (Z.eqb n 0 || Z.ltb 23 n)%bool then 64 else 32 | _ => 64 end)%Z q <->
   forall w n, sq_size t w n -> (1 <= n <= 23)%Z -> single q).
Proof.
  intros L R1 R2 R3 DQ. destruct t as [x|a w n m]; cbn [sq_sizes snd].
  - rewrite format64. split; [intros _ w n H; inversion H|auto].
  - destruct L as (_ & _ & L3 & _ & [_ L6] & _). pose proof (number_pos n 0 ltac:(lia) L6) as NP.
    assert (RW : ~ rule1 w) by (intros X; apply R1; now apply sized_in).
    assert (LW : ~ length_word w).
    { intros [[X|[X|X]]|X]; [apply R2; left|apply R2; right; left|apply R2; right; right|apply R3; left]; now apply sized_in. }
    rewrite (length_word_class w L3 RW) in LW. rewrite affinity_upper.
    assert (Z : (forall w0 n0, sq_size (SqSized a w n m) w0 n0 -> (1 <= n0 <= 23)%Z -> single q) <->
      ((1 <= number_of 0 n <= 23)%Z -> single q)).
    { split.
      - intros H. eapply H. constructor.
      - intros H w0 n0 X. inversion X; subst. exact H. }
    rewrite Z.
    assert (Y : float_format (if ((number_of 0 n =? 0)%Z || (23 <? number_of 0 n)%Z)%bool then 64 else 32) q <->
      ((1 <= number_of 0 n <= 23)%Z -> single q)).
    { destruct (Z.eqb_spec (number_of 0 n) 0); cbn [orb].
      - rewrite format64. split; auto. intros _ X. lia.
      - destruct (Z.ltb_spec 23 (number_of 0 n)).
        + rewrite format64. split; auto. intros _ X. lia.
        + rewrite format32. split; auto. intros H'. apply H'. lia. }
    destruct (get_affinity (Some w)); cbn [snd]; try exact Y; tauto.
Qed.

Lemma sq_column d col R R' Rf t v : sq_legal (d_type d) -> described sq_type sq_facts d col ->
  pure sqlite_type col R = (R', Ok t) -> grow R' Rf -> sq_values (d_type d) v ->
  (holds (names_in Rf) t v <-> sq_covered (d_type d) v).
Proof.
  intros L D H _ V. unfold pure, lift in H. injection H as _ H. rewrite (sq_type_read d col D) in H. injection H as <-.
  set (env := names_in Rf). clearbody env. destruct d as [nm nl ty]. cbn [d_type] in *. clear D.
  pose proof (affinity_rules (sq_text ty)) as A. unfold sq_base.
  assert (C : sq_covered ty v <-> match class_of (get_affinity (Some (sq_text ty))), v with
    | ClassInteger, DInt _ => True
    | ClassReal, DFloat q => forall w n, sq_size ty w n -> (1 <= n <= 23)%Z -> single q
    | ClassText, DText s | ClassBlob, DBytes s => forall w n, sq_size ty w n -> length_word w -> (1 <= n)%Z -> (Z.of_nat (String.length s) <= n)%Z
    | ClassNumeric, _ => True
    | _, _ => False
    end).
  { unfold sq_covered. split.
    - intros (c & X & Y). rewrite (determined_unique _ _ _ A X). exact Y.
    - intros Y. exists (class_of (get_affinity (Some (sq_text ty)))). split; auto. }
  rewrite C. clear C.
  destruct (get_affinity (Some (sq_text ty))); cbn [class_of] in *.
  - destruct v; cbn [sq_values] in V; try contradiction; try (split; [inversion 1|tauto]).
    rewrite holds_int. tauto.
  - inversion A as [| | |? ? ? ?|]; subst.
    destruct v; cbn [sq_values] in V; try contradiction; try (split; [inversion 1|tauto]).
    rewrite holds_float. now apply real_size.
  - inversion A; subst.
    destruct v; cbn [sq_values] in V; try contradiction; try (split; [inversion 1|tauto]).
    rewrite holds_string. now apply limit_fits.
  - inversion A; subst.
    destruct v; cbn [sq_values] in V; try contradiction; try (split; [inversion 1|tauto]).
    rewrite holds_bytes. now apply limit_fits.
  - split; auto. intros _.
    destruct v; cbn [sq_values] in V; try contradiction.
    + apply h_union with (int_t 64 true); [cbn; auto|]. now apply holds_int.
    + apply h_union with (float_t 64); [cbn; auto|]. now apply holds_float, format64.
    + apply h_union with (TString c0 (PInt sqlite_max_length) (PBool true)); [cbn; auto|]. apply holds_string. exact V.
    + apply h_union with (TBytes c0 (PInt sqlite_max_length) (PBool true)); [cbn; auto 10|]. apply holds_bytes. exact V.
Qed.

Lemma sqlite_fresh_parser : fresh_parser (pure sqlite_type).
Proof. intros col R R' t H. unfold pure, lift in H. injection H as _ H. eapply sqlite_fresh; eauto. Qed.

Lemma sq_columns ds : forall rows, Forall (fun d => sq_legal (d_type d)) ds -> Forall2 sq_described ds rows ->
  exists cols, rmap add_information_schema rows = Ok cols /\ Forall2 (described sq_type sq_facts) ds cols.
Proof.
  induction ds as [|d ds IH]; intros rows L F; inversion F as [|? row ? rows' D F']; subst.
  - exists []. split; auto.
  - inversion L; subst. destruct (sq_added d row) as (col & E & DC); auto.
    destruct (IH rows') as (cols & E' & DC'); auto. exists (col :: cols). cbn [rmap]. rewrite E, E'. split; auto.
Qed.
Theorem sqlite_rows : forall ds rows R R' t row,
  Forall (fun d => sq_legal (d_type d)) ds -> Forall2 sq_described ds rows ->
  sqlite_schema rows R = (R', Ok t) -> in_table sq_type sq_values ds row ->
  (holds (names_in R') t (DRow row) <-> row_of sq_type sq_covered ds row).
Proof.
  intros ds rows R R' t row L F H. destruct (sq_columns ds rows L F) as (cols & E & DC).
  unfold sqlite_schema, mbind, lift in H. rewrite E in H. revert L DC H. apply rows_of_table.
  - apply sqlite_fresh_parser.
  - intros. eapply pure_grows; eauto.
  - exact sq_column.
Qed.
Theorem sqlite_readable : forall ds rows R,
  Forall (fun d => sq_legal (d_type d)) ds -> Forall2 sq_described ds rows ->
  exists t, sqlite_schema rows R = (R, Ok t).
Proof.
  intros ds rows R L F. destruct (sq_columns ds rows L F) as (cols & E & DC).
  unfold sqlite_schema, mbind, lift. rewrite E. apply (pure_table_ok _ sq_facts _ ds cols R sqlite_fresh_parser DC).
  clear - DC. induction DC; constructor; auto. eexists. eapply sq_type_read; eauto.
Qed.

(** ** Values that are lost *)
(** 2^24 + 1, a number with 25 significant bits. *)
Definition wide : Q := inject_Z 16777217.
Lemma wide_double : double wide.
Proof. exists 16777217%Z, 0%Z. split; [cbn; lia|]. split; [lia|]. reflexivity. Qed.
Lemma wide_not_single : ~ single wide.
Proof.
  intros (m & e & M & E & H). change (2 ^ 24)%Z with 16777216%Z in M. destruct (Z.le_gt_cases 1 e) as [P|P].
  - change 2%Q with (inject_Z 2) in H. rewrite <- Zpower_Qpower, <- inject_Z_mult in H by lia.
    unfold wide in H. apply (proj1 (inject_Z_injective _ _)) in H.
    replace e with (1 + (e - 1))%Z in H by lia. rewrite Z.pow_add_r in H by lia. change (2 ^ 1)%Z with 2%Z in H.
    rewrite Z.mul_assoc, (Z.mul_comm m 2), <- Z.mul_assoc in H. lia.
  - assert (X : (wide * inject_Z (2 ^ (- e)) == inject_Z m)%Q).
    { rewrite H, <- Qmult_assoc. rewrite Zpower_Qpower by lia. change 2%Q with (inject_Z 2). rewrite <- Qpower_plus by discriminate.
      replace (e + - e)%Z with 0%Z by lia. cbn. ring. }
    unfold wide in X. rewrite <- inject_Z_mult in X. apply (proj1 (inject_Z_injective _ _)) in X.
    assert (0 < 2 ^ (- e))%Z by (apply Z.pow_pos_nonneg; lia). nia.
Qed.
Lemma half_double : double (1 # 2).
Proof. exists 1%Z, (-1)%Z. split; [cbn; lia|]. split; [lia|]. reflexivity. Qed.
Theorem sqlite_lost :
  (forall t c v, determined (sq_text t) c -> c <> ClassNumeric ->
     (v = DInt 1 \/ v = DFloat (1 # 2) \/ v = DText "a" \/ v = DBytes "a") -> sq_values t v /\
     (sq_covered t v -> match c with ClassInteger => v = DInt 1 | ClassReal => v = DFloat (1 # 2) | ClassText => v = DText "a" | _ => v = DBytes "a" end)) /\
  (forall t w n, determined (sq_text t) ClassReal -> sq_size t w n -> (1 <= n <= 23)%Z ->
     sq_values t (DFloat wide) /\ ~ sq_covered t (DFloat wide)) /\
  (forall t w n, determined (sq_text t) ClassText -> sq_size t w n -> length_word w -> (1 <= n < sq_max)%Z ->
     exists s, sq_values t (DText s) /\ ~ sq_covered t (DText s)).
Proof.
  split; [|split].
  - intros t c v D N V. split.
    + destruct V as [->|[->|[->| ->]]]; cbn [sq_values String.length]; try (unfold sq_max; lia).
      * vm_compute. split; [discriminate|reflexivity].
      * exact half_double.
    + intros (c' & D' & C). rewrite (determined_unique _ _ _ D' D) in C.
      destruct c; try congruence; destruct V as [->|[->|[->| ->]]]; tauto.
  - intros t w n D S L. split.
    + exact wide_double.
    + intros (c' & D' & C). rewrite (determined_unique _ _ _ D' D) in C.
      specialize (C w n S L). exact (wide_not_single C).
  - intros t w n D S W L. exists (repeat_char (Z.to_nat n + 1)). split.
    + cbn [sq_values]. rewrite repeat_length. lia.
    + intros (c' & D' & C). rewrite (determined_unique _ _ _ D' D) in C.
      specialize (C w n S W ltac:(lia)). rewrite repeat_length in C. lia.
Qed.
