(** Facts about the database converters (proofs only). *)
From Coq Require Import String Ascii List NArith ZArith QArith Bool Lia.
From Verif Require Import PyVal PyValFacts RType Registry RegistryFacts FromDict Nullable NullableFacts
  Url Dbapi SpecDb.
Import ListNotations.
Open Scope nat_scope.
Open Scope string_scope.
Open Scope list_scope.

(** ** Letter case *)
Lemma ascii_N_inj a b : N_of_ascii a = N_of_ascii b -> a = b.
Proof. intros H. rewrite <- (ascii_N_embedding a), <- (ascii_N_embedding b). congruence. Qed.
Lemma N_ascii_lt c : (N_of_ascii c < 256)%N.
Proof. apply N_ascii_bounded. Qed.
Lemma upper_char_N c : N_of_ascii (upper_char c) =
  (if (97 <=? N_of_ascii c)%N && (N_of_ascii c <=? 122)%N then N_of_ascii c - 32 else N_of_ascii c)%N.
Proof.
  unfold upper_char. pose proof (N_ascii_lt c).
  destruct ((97 <=? N_of_ascii c)%N && (N_of_ascii c <=? 122)%N) eqn:E; auto.
  apply N_ascii_embedding. lia.
Qed.
Lemma same_letter_upper a b : same_letter a b <-> upper_char a = upper_char b.
Proof.
  unfold same_letter, is_lower_of. split.
  - intros [->|[H|H]]; auto; apply ascii_N_inj; rewrite !upper_char_N;
    repeat match goal with |- context [(?x <=? ?y)%N] => destruct (N.leb_spec x y) end; cbn [andb]; lia.
  - intros H. apply (f_equal N_of_ascii) in H. rewrite !upper_char_N in H.
    destruct (N.eq_dec (N_of_ascii a) (N_of_ascii b)) as [E|E]; [left; now apply ascii_N_inj|right].
    repeat match goal with H : context [(?x <=? ?y)%N] |- _ => destruct (N.leb_spec x y) end; cbn [andb] in H; lia.
Qed.
Lemma ci_eq_upper s : forall t, ci_eq s t <-> upper s = upper t.
Proof.
  induction s as [|a s IH]; intros [|b t]; cbn; try easy.
  rewrite IH, same_letter_upper. split; [intros [-> ->]; auto|intros H; injection H; auto].
Qed.
Lemma upper_app a b : upper (a ++ b) = (upper a ++ upper b)%string.
Proof. induction a as [|c a IH]; cbn; auto. now rewrite IH. Qed.
Lemma upper_split h : forall a b, upper h = (a ++ b)%string ->
  exists a' b', h = (a' ++ b')%string /\ upper a' = a /\ upper b' = b.
Proof.
  induction h as [|c h IH]; intros a b H.
  - exists "", "". destruct a; cbn in H; [|discriminate]. subst. auto.
  - destruct a as [|x a]; cbn in H.
    + exists "", (String c h). cbn. auto.
    + injection H; intros H2 H1. destruct (IH _ _ H2) as (a' & b' & -> & <- & <-).
      exists (String c a'), b'. cbn. rewrite H1. auto.
Qed.
Lemma prefix_spec p s : String.prefix p s = true <-> exists r, s = (p ++ r)%string.
Proof.
  revert s. induction p as [|a p IH]; intros s.
  - split; [exists s; reflexivity|]. destruct s; reflexivity.
  - destruct s as [|b s]; cbn.
    + split; [discriminate|intros [r H]; discriminate].
    + destruct (ascii_dec a b) as [->|N].
      * rewrite IH. split; intros [r H]; exists r; [now rewrite H|now injection H].
      * split; [discriminate|intros [r H]; injection H; congruence].
Qed.
Lemma substr_spec needle hay : substr_in needle hay = true <->
  exists a b, hay = (a ++ needle ++ b)%string.
Proof.
  induction hay as [|c h IH].
  - change (substr_in needle "") with (String.prefix needle "" || false)%bool.
    rewrite orb_false_r, prefix_spec. split.
    + intros [r H]. exists "", r. exact H.
    + intros (a & b & H). destruct a; [|discriminate]. exists b. exact H.
  - change (substr_in needle (String c h)) with (String.prefix needle (String c h) || substr_in needle h)%bool.
    rewrite orb_true_iff, prefix_spec, IH. split.
    + intros [[r H]|(a & b & H)]; [exists "", r; exact H|exists (String c a), b; now rewrite H].
    + intros (a & b & H). destruct a as [|x a]; [left; exists b; exact H|].
      right. cbn in H. injection H; intros; subst. eauto.
Qed.
Lemma substr_ci needle hay : upper needle = needle ->
  (substr_in needle (upper hay) = true <-> ci_contains needle hay).
Proof.
  intros U. rewrite substr_spec. unfold ci_contains. split.
  - intros (a & b & H). destruct (upper_split _ _ _ H) as (a' & r & -> & Ha & Hr).
    destruct (upper_split _ _ _ Hr) as (m & b' & -> & Hm & Hb).
    exists a', m, b'. split; auto. apply ci_eq_upper. congruence.
  - intros (a & m & b & -> & H). apply ci_eq_upper in H. exists (upper a), (upper b).
    rewrite !upper_app. congruence.
Qed.

(** ** C52 *)
Definition class_of (a : affinity) : sqlite_class :=
  match a with
  | AInteger => ClassInteger | AReal => ClassReal | AText => ClassText
  | ABlob => ClassBlob | ANumeric => ClassNumeric
  end.
Lemma ci_empty needle : needle <> "" -> ~ ci_contains needle "".
Proof.
  intros N (a & m & b & H & C). destruct a; [|discriminate]. destruct m; [|discriminate].
  destruct needle; [congruence|exact C].
Qed.
Ltac sub n := match goal with |- context [substr_in n (upper ?t)] =>
  let E := fresh "E" in let F := fresh "F" in
  pose proof (substr_ci n t eq_refl) as F; destruct (substr_in n (upper t)) eqn:E;
  [assert (ci_contains n t) by (apply F; reflexivity)
  |assert (~ ci_contains n t) by (intros X; apply F in X; discriminate)]; clear F end.
Theorem affinity_rules : forall t, determined t (class_of (get_affinity (Some t))).
Proof.
  intros t. unfold get_affinity. destruct t as [|c t'].
  - cbn. apply by_rule3; unfold rule1, rule2, rule3; auto.
    + apply ci_empty; discriminate.
    + intros [H|[H|H]]; revert H; apply ci_empty; discriminate.
  - remember (String c t') as t.
    assert (NE : nonempty (upper t) = true) by (subst; reflexivity). rewrite NE. cbn [negb].
    assert (NT : t <> "") by (subst; discriminate). clear Heqt NE.
    sub "INT"; cbn [orb class_of].
    { now apply by_rule1. }
    sub "CHAR"; cbn [orb class_of]; [apply by_rule2; unfold rule1, rule2; auto|].
    sub "TEXT"; cbn [orb class_of]; [apply by_rule2; unfold rule1, rule2; auto|].
    sub "CLOB"; cbn [orb class_of]; [apply by_rule2; unfold rule1, rule2; auto|].
    assert (~ rule2 t) by (unfold rule2; tauto).
    sub "BLOB"; cbn [orb class_of]; [apply by_rule3; unfold rule3; auto|].
    assert (~ rule3 t) by (unfold rule3; tauto).
    sub "REAL"; cbn [orb class_of]; [apply by_rule4; unfold rule4; auto|].
    sub "FLOA"; cbn [orb class_of]; [apply by_rule4; unfold rule4; auto|].
    sub "DOUB"; cbn [orb class_of]; [apply by_rule4; unfold rule4; auto|].
    apply by_rule5; auto. unfold rule4; tauto.
Qed.
Lemma determined_unique t a b : determined t a -> determined t b -> a = b.
Proof. intros H K; destruct H; destruct K; tauto. Qed.

(** ** The loop of to_recap *)
(** A freshly parsed column type. *)
Record fresh_type (t : rtype) : Prop := {
  ft_null : is_null t = false;
  ft_doc : c_doc (get_c t) = PNone;
  ft_keys : forall k, In k (dkeys (c_extra (get_c t))) -> In k ["unit"; "precision"; "scale"];
  ft_union : forall c ts, t = TUnion c ts -> c = c0
}.
Lemma fresh_no_clash t : fresh_type t -> no_clash t.
Proof.
  intros H k Hk. apply (ft_keys _ H) in Hk. destruct t; cbn in *; intuition (subst; discriminate).
Qed.
Lemma fresh_absent t k : fresh_type t -> In k ["name"; "default"; "doc"] -> extra k t = None.
Proof.
  intros H K. unfold extra. destruct dget eqn:E; auto.
  apply dget_In_key, (ft_keys _ H) in E. cbn in *. intuition (subst; discriminate).
Qed.
Lemma plain_fresh t : fresh_type t -> plain t = t.
Proof.
  intros H. unfold plain.
  assert (A : forall k, In k ["name"; "default"] -> ddel k (c_extra (get_c t)) = c_extra (get_c t)).
  { intros k K. apply ddel_notin. intros X. apply (ft_keys _ H) in X. cbn in *; intuition (subst; discriminate). }
  rewrite A by (cbn; auto). rewrite A by (cbn; auto). rewrite <- (ft_doc _ H).
  destruct t as [[]|[]|[]|[]|[]|[]|[]|[]|[]|[]|[]|[]]; reflexivity.
Qed.

Lemma nullable_upper s : String.eqb (upper s) "YES" = true <-> ci_eq s "YES".
Proof. rewrite ci_eq_upper. change (upper "YES") with "YES". apply String.eqb_eq. Qed.

Lemma get_set_c t c : get_c (set_c t c) = c.
Proof. destruct t; reflexivity. Qed.
Lemma set_set_c t c d : set_c (set_c t c) d = set_c t d.
Proof. destruct t; reflexivity. Qed.
Lemma set_get_c t : set_c t (get_c t) = t.
Proof. destruct t; reflexivity. Qed.

Lemma extra_set k k' v t : extra k (set_extra k' v t) = if String.eqb k k' then Some v else extra k t.
Proof.
  unfold extra, set_extra. rewrite get_set_c. cbn.
  rewrite dget_dset. reflexivity.
Qed.

Theorem finish_spec : forall col t f, fresh_type t -> finish col t = Ok f -> field_spec col t f.
Proof.
  intros col t f FT H. unfold finish, item in H.
  destruct (dget "IS_NULLABLE" col) as [n|] eqn:EN; cbn [rbind] in H; [|discriminate].
  destruct n as [| | | |s| |]; cbn [as_str rbind] in H; try discriminate.
  assert (NC : nullable_column col <-> String.eqb (upper s) "YES" = true).
  { rewrite nullable_upper. unfold nullable_column. split.
    - intros (x & E & C). rewrite EN in E. injection E; intros; subst; auto.
    - eauto. }
  destruct (String.eqb (upper s) "YES") eqn:Y.
  - (* nullable *)
    assert (NB : nullable_column col) by (apply NC; reflexivity). clear NC.
    set (mn := snd (make_nullable t)) in *.
    assert (M : exists c ts, mn = Ok (TUnion c ts) /\ existsb is_null ts = true /\
      match t with
      | TUnion _ ts0 => forall x, In x ts <-> In x ts0 \/ ((forall c', ~ In (TNull c') ts0) /\ x = TNull c0)
      | _ => ts = [TNull c0; t]
      end).
    { unfold mn. destruct (is_union t) eqn:U.
      - destruct t as [| | | | | | | | | |c ts|]; try discriminate.
        rewrite make_nullable_union by (apply fresh_no_clash; auto). cbn [snd].
        eexists _, _. split; [reflexivity|].
        destruct (existsb is_null ts) eqn:EX.
        + split; auto. intros x. split; auto. intros [X|[X ->]]; auto.
          apply existsb_exists in EX as (y & Iy & Ny). destruct y; try discriminate. exfalso; eapply X; eauto.
        + split; [reflexivity|]. intros x. cbn. split.
          * intros [<-|X]; auto. right. split; auto. intros c' Ic.
            assert (existsb is_null ts = true) by (apply existsb_exists; exists (TNull c'); auto). congruence.
          * intros [X|[_ ->]]; auto.
      - rewrite make_nullable_other by (auto; apply fresh_no_clash; auto). cbn [snd].
        rewrite (ft_null _ FT), plain_fresh by auto.
        eexists _, _. split; [reflexivity|]. split; [reflexivity|].
        destruct t; try discriminate U; reflexivity. }
    destruct M as (c & ts & -> & EX & MT). cbn [rbind] in H.
    destruct (dget "COLUMN_DEFAULT" col) as [d|] eqn:ED; cbn [rbind] in H; [|discriminate].
    rewrite orb_true_r in H. cbn [rbind] in H.
    destruct (dget "COLUMN_NAME" col) as [nm|] eqn:EM; cbn [rbind] in H; [|discriminate].
    assert (HF : forall a b : rtype, Ok a = Ok b -> b = a) by congruence; apply HF in H; clear HF; subst f.
    split.
    + exists nm. rewrite extra_set. auto.
    + intros _. cbn. apply existsb_exists in EX as (y & Iy & Ny). destruct y; try discriminate. eauto.
    + exists d. rewrite !extra_set. cbn [String.eqb Ascii.eqb Bool.eqb]. repeat split; auto. tauto.
    + tauto.
    + intros _. unfold set_extra. cbn [get_c set_c c_logical c_alias c_doc c_extra].
      eexists. destruct t; try (rewrite MT; reflexivity).
      eexists. split; [reflexivity|]. exact MT.
  - assert (NB : ~ nullable_column col) by (intros X; apply NC in X; discriminate). clear NC.
    cbn [rbind] in H.
    destruct (dget "COLUMN_DEFAULT" col) as [d|] eqn:ED; cbn [rbind] in H; [|discriminate].
    destruct (dget "COLUMN_NAME" col) as [nm|] eqn:EM; cbn [rbind] in H; [|discriminate].
    rewrite orb_false_r in H. assert (HF : forall a b : rtype, Ok a = Ok b -> b = a) by congruence; apply HF in H; clear HF; subst f.
    split.
    + exists nm. rewrite extra_set. auto.
    + tauto.
    + exists d. split; auto. rewrite !extra_set. cbn [String.eqb Ascii.eqb Bool.eqb]. split.
      * intros [X|X]; [|tauto]. destruct d; cbn [is_none negb]; rewrite ?extra_set; auto; congruence.
      * intros -> _. cbn [is_none negb]. apply fresh_absent; cbn; auto.
    + intros _. destruct (is_none d); cbn [negb];
        unfold set_extra; rewrite ?get_set_c, ?set_set_c; cbn [c_logical c_alias c_doc c_extra];
        (split; [apply set_get_c|]; repeat split; auto; intros k K1 K2; unfold extra; rewrite !get_set_c; cbn [c_extra];
         rewrite !dget_dset; apply String.eqb_neq in K1, K2; rewrite ?K1, ?K2; reflexivity).
    + tauto.
Qed.

Definition fresh_parser (p : column -> M rtype) : Prop :=
  forall col R R' t, p col R = (R', Ok t) -> fresh_type t.

Lemma fields_of_spec p : fresh_parser p -> forall cols R R' fs,
  fields_of p cols R = (R', Ok fs) ->
  exists bases, mmap p cols R = (R', Ok bases) /\ List.length bases = List.length cols /\
    Forall2 (fun cb f => field_spec (fst cb) (snd cb) f) (combine cols bases) fs /\
    Forall fresh_type bases.
Proof.
  intros FP. induction cols as [|c cs IH]; intros R R' fs H; cbn [fields_of mmap] in *.
  - injection H; intros; subst. exists []. repeat split; constructor.
  - unfold mbind in *. destruct (p c R) as [R1 [t|]] eqn:E; [|discriminate].
    unfold lift in H. destruct (finish c t) as [f|] eqn:F; [|discriminate].
    destruct (fields_of p cs R1) as [R2 [fs'|]] eqn:G; [|discriminate].
    injection H; intros; subst. destruct (IH _ _ _ G) as (bs & -> & L & Q & FF).
    exists (t :: bs). cbn. repeat split; auto. constructor; auto.
    cbn. apply finish_spec; auto. eapply FP; eauto. constructor; auto. eapply FP; eauto.
Qed.

Lemma Forall2_len {A B} (P : A -> B -> Prop) l m : Forall2 P l m -> List.length l = List.length m.
Proof. induction 1; cbn; auto. Qed.

Theorem to_recap_spec : forall p cols R R' t, fresh_parser p ->
  to_recap p cols R = (R', Ok t) ->
  exists bases fields, t = TStruct c0 fields /\ mmap p cols R = (R', Ok bases)
    /\ List.length bases = List.length cols /\ List.length fields = List.length cols
    /\ Forall2 (fun cb f => field_spec (fst cb) (snd cb) f) (combine cols bases) fields.
Proof.
  intros p cols R R' t FP H. unfold to_recap, mbind, ret in H.
  destruct (fields_of p cols R) as [R1 [fs|]] eqn:F; [|discriminate].
  injection H; intros; subst. destruct (fields_of_spec p FP _ _ _ _ F) as (bs & M & L & Q & _).
  exists bs, fs. repeat split; auto.
  apply Forall2_len in Q. rewrite combine_length, L, Nat.min_id in Q. auto.
Qed.

(** ** The parsers return fresh types *)
Lemma fresh_plain t : is_null t = false -> get_c t = c0 -> fresh_type t.
Proof.
  intros N G. split; auto; try (rewrite G; cbn; tauto). intros c ts ->. exact G.
Qed.
Lemma fresh_lge l e t : is_null t = false -> is_union t = false -> get_c t = lge l e ->
  (forall k, In k (dkeys e) -> In k ["unit"; "precision"; "scale"]) -> fresh_type t.
Proof. intros N U G K. split; auto; rewrite ?G; auto. intros c ts ->. discriminate. Qed.
Ltac fresh_leaf := first
  [ apply fresh_plain; reflexivity
  | eapply fresh_lge; [reflexivity|reflexivity|reflexivity|cbn; tauto] ].

Ltac split_ifs H :=
  repeat match type of H with context [if ?b then _ else _] => destruct b eqn:? end.

Lemma mysql_fresh col t : mysql_type col = Ok t -> fresh_type t.
Proof.
  intros H. unfold mysql_type in H.
  destruct (item "DATA_TYPE" col) as [dt|]; cbn [rbind] in H; [|discriminate].
  destruct (as_str dt) as [s|]; cbn [rbind] in H; [|discriminate].
  destruct (item "CHARACTER_OCTET_LENGTH" col) as [oc|]; cbn [rbind] in H; [|discriminate].
  destruct (item "NUMERIC_PRECISION" col) as [pr|]; cbn [rbind] in H; [|discriminate].
  destruct (item "NUMERIC_SCALE" col) as [sc|]; cbn [rbind] in H; [|discriminate].
  split_ifs H; try discriminate H; try (injection H; intros; subst t; fresh_leaf).
  - destruct (py_gt_z pr 23) as [[]|]; cbn [rbind] in H; try discriminate H; injection H; intros; subst t; fresh_leaf.
  - destruct (item "DATETIME_PRECISION" col) as [p|]; cbn [rbind] in H; [|discriminate].
    destruct (get_time_unit (Some [p])) as [u|]; cbn [rbind] in H; [|discriminate].
    injection H; intros; subst t; fresh_leaf.
Qed.

Lemma snowflake_fresh col t : snowflake_type col = Ok t -> fresh_type t.
Proof.
  intros H. unfold snowflake_type in H.
  destruct (item "DATA_TYPE" col) as [dt|]; cbn [rbind] in H; [|discriminate].
  destruct (as_str dt) as [s|]; cbn [rbind] in H; [|discriminate].
  destruct (item "CHARACTER_OCTET_LENGTH" col) as [oc|]; cbn [rbind] in H; [|discriminate].
  destruct (get_time_unit _) as [u|]; cbn [rbind] in H;
  split_ifs H; try discriminate H; try (injection H; intros; subst t; fresh_leaf);
  (destruct (item "NUMERIC_PRECISION" col) as [pr|]; cbn [rbind] in H; [|discriminate];
   destruct (item "NUMERIC_SCALE" col) as [sc|]; cbn [rbind] in H; [|discriminate];
   injection H; intros; subst t; fresh_leaf).
Qed.

Lemma sqlite_fresh col t : sqlite_type col = Ok t -> fresh_type t.
Proof.
  intros H. unfold sqlite_type in H.
  destruct (item "COLUMN_NAME" col) as [nm|]; cbn [rbind] in H; [|discriminate].
  destruct (item "TYPE" col) as [ty|]; cbn [rbind] in H; [|discriminate].
  destruct (item "CHARACTER_OCTET_LENGTH" col) as [oc|]; cbn [rbind] in H; [|discriminate].
  destruct (item "NUMERIC_PRECISION" col) as [pr|]; cbn [rbind] in H; [|discriminate].
  destruct (type_text ty) as [tt|]; cbn [rbind] in H; [|discriminate].
  destruct (get_affinity tt); try (injection H; intros; subst t; fresh_leaf).
  destruct (truthy pr); [|injection H; intros; subst t; fresh_leaf].
  destruct (py_gt_z pr 23) as [[]|]; cbn [rbind] in H; try discriminate H; injection H; intros; subst t; fresh_leaf.
Qed.

(** *** PostgreSQL *)
(** All branches except arrays: the registry is neither read nor written. *)
Definition pg_scalar (data_type : string) (octet max_length : pyval) (col : column) : res rtype :=
  let st p := starts p data_type in
  if str_in data_type ["bigint"; "int8"; "bigserial"; "serial8"] then Ok (int_t 64 true)
  else if str_in data_type ["integer"; "int"; "int4"; "serial"; "serial4"] then Ok (int_t 32 true)
  else if str_in data_type ["smallint"; "smallserial"; "serial2"] then Ok (int_t 16 true)
  else if str_in data_type ["double precision"; "float8"] then Ok (float_t 64)
  else if str_in data_type ["real"; "float4"] then Ok (float_t 32)
  else if String.eqb data_type "boolean" then Ok (TBool c0)
  else if (str_in data_type ["text"; "json"; "jsonb"]
           || st "character varying" || st "varchar")%bool then
    Ok (TString c0 octet (PBool true))
  else if st "char" then Ok (TString c0 octet (PBool false))
  else if String.eqb data_type "uuid" then
    Ok (TString (lg "build.recap.UUID") (PInt 36) (PBool false))
  else if (String.eqb data_type "bytea" || st "bit varying")%bool then
    Ok (TBytes c0 (PInt max_field_size) (PBool true))
  else if st "bit" then
    rbind (ceil_div8 max_length) (fun b => Ok (TBytes c0 b (PBool false)))
  else if st "timestamp" then
    rbind (item "DATETIME_PRECISION" col) (fun p =>
    rbind (get_time_unit (Some [p])) (fun u =>
    Ok (time_t "build.recap.Timestamp" 64 (unit_or u "microsecond"))))
  else if (st "decimal" || st "numeric")%bool then
    rbind (item "NUMERIC_PRECISION" col) (fun precision =>
    rbind (item "NUMERIC_SCALE" col) (fun scale =>
    Ok (decimal_t 32 precision scale)))
  else if String.eqb data_type "user-defined" then
    rbind (item "ENUM_VALUES" col) (fun e => if truthy e then Ok (TEnum c0 e) else Err ValueError)
  else Err ValueError.

Definition pg_header (col : column) : res (pyval * string * pyval * pyval * string * pyval) :=
  (column_name <- item "COLUMN_NAME" col ;;
   dt <- rbind (item "DATA_TYPE" col) as_str ;;
   octet <- item "CHARACTER_OCTET_LENGTH" col ;;
   max_length <- item "CHARACTER_MAXIMUM_LENGTH" col ;;
   udt_name <- rbind (item "UDT_NAME" col) lower_or_empty ;;
   ndims <- item "ATTNDIMS" col ;;
   Ok (column_name, lower dt, octet, max_length, udt_name, ndims))%res.

Lemma pg_type_eq n enforce ns col R : pg_type_fuel (S n) enforce ns col R =
  match pg_header col with
  | Err e => (R, Err e)
  | Ok (name, dt, octet, maxl, udt, ndims) =>
      if String.eqb dt "array" then
        (v <- pg_type_fuel n enforce ns (element_column (lstrip_under udt)) ;;
         if enforce then lift (n_dimension_list v ndims)
         else
           (name <- lift (as_str name) ;;
            let t := self_list (array_alias ns name) v in
            _ <- register_alias t ;; ret t))%mon R
      else (R, pg_scalar dt octet maxl col)
  end.
Proof.
  unfold pg_header. cbn [pg_type_fuel]. unfold mbind at 1, lift at 1.
  destruct (item "COLUMN_NAME" col) as [nm|]; cbn [rbind]; [|reflexivity].
  unfold mbind at 1, lift at 1.
  destruct (rbind (item "DATA_TYPE" col) as_str) as [dt|]; cbn [rbind]; [|reflexivity].
  unfold mbind at 1, lift at 1.
  destruct (item "CHARACTER_OCTET_LENGTH" col) as [oc|]; cbn [rbind]; [|reflexivity].
  unfold mbind at 1, lift at 1.
  destruct (item "CHARACTER_MAXIMUM_LENGTH" col) as [ml|]; cbn [rbind]; [|reflexivity].
  unfold mbind at 1, lift at 1.
  destruct (rbind (item "UDT_NAME" col) lower_or_empty) as [udt|]; cbn [rbind]; [|reflexivity].
  unfold mbind at 1, lift at 1.
  destruct (item "ATTNDIMS" col) as [nd|]; cbn [rbind]; [|reflexivity].
  unfold pg_scalar. set (d := lower dt).
  destruct (String.eqb_spec d "array") as [->|NA].
  - reflexivity.
  - unfold mbind, lift, ret, fail.
    repeat match goal with |- context [if ?b then _ else _] =>
      lazymatch b with truthy _ => fail | _ => destruct b end end; try reflexivity;
    repeat match goal with |- context [rbind ?x _] => destruct x; cbn [rbind] end; try reflexivity.
    destruct (truthy a); reflexivity.
Qed.
