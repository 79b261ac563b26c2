(** Proofs for C123: the formats in which the type of a table can be printed. *)
From Coq Require Import String Ascii List NArith ZArith Bool Lia.
From Verif Require Import PyVal PyValFacts RType Registry RegistryFacts Regex RegexFacts Nullable NullableFacts SpecTypes SpecDb SpecCompact SpecPrinted SpecJson Dbapi DbapiFacts DbapiMore
  FromDict ToDict Url JsonSchema JsonWrite Avro Proto BigQuery BigQueryFacts Hive HiveFacts Commands Printed.
Import ListNotations.
Open Scope nat_scope.
Open Scope string_scope.
Open Scope list_scope.

(** ** Types that can be written as JSON schemas *)
Definition json_node (t : rtype) : Prop :=
  (c_alias (get_c t) = PNone \/ exists a, c_alias (get_c t) = PStr a) /\
  match t with
  | TProxy c _ => exists a, c = mkC PNone (PStr a) PNone [] /\ dmem a builtin_aliases = false
  | TStruct _ fs => Forall (fun f => exists n, SpecJson.named f n) fs
  | TUnion _ ts => forall x, In x ts -> is_null x = true -> x = TNull c0
  | _ => True
  end.

Lemma only_ok (go : rtype -> res dict) ts c : is_optional c ts = true -> (forall x, In x ts -> is_null x = true -> x = TNull c0) ->
  (forall x, In x ts -> exists d, go x = Ok d) ->
  exists d, (fix only (l : list rtype) : res dict :=
             match l with
             | [] => Err AssertionError
             | x :: r => if is_null x then only r
                         else if existsb (fun y => negb (is_null y)) r then Err AssertionError
                         else go x
             end) ts = Ok d.
Proof.
  unfold is_optional. intros O N G. apply andb_true_iff in O as [_ O]. apply Nat.eqb_eq in O.
  assert (X : forall x, In x ts -> rt_eq x (TNull c0) = is_null x).
  { intros x I. destruct (is_null x) eqn:E; [rewrite (N x I E); reflexivity|]. destruct x; try reflexivity; discriminate. }
  revert O G X. clear N. induction ts as [|x l IH]; cbn [filter length]; intros O G X; [discriminate|].
  rewrite (X x) in O by now left. destruct (is_null x) eqn:E; cbn [negb] in O.
  - apply IH; auto; intros y I; [apply G|apply X]; now right.
  - cbn [length] in O. assert (F : existsb (fun y => negb (is_null y)) l = false).
    { destruct (existsb _ l) eqn:EX; auto. apply existsb_exists in EX as (y & I & Y). exfalso.
      assert (J : In y (filter (fun t => negb (rt_eq t (TNull c0))) l)).
      { apply filter_In. split; auto. rewrite X by now right. exact Y. }
      destruct (filter _ l); [destruct J|discriminate O]. }
    rewrite F. apply G. now left.
Qed.

Definition js_all (go : rtype -> res dict) := fix all (l : list rtype) : res (list pyval) :=
  match l with
  | [] => Ok []
  | x :: r => (d <- go x ;; ds <- all r ;; Ok (PDict d :: ds))%res
  end.
Lemma all_ok go ts : (forall x, In x ts -> exists d, go x = Ok d) -> exists l, js_all go ts = Ok l.
Proof.
  induction ts as [|x l IH]; cbn [js_all]; intros G; [eauto|]. destruct (G x) as [d D]; [now left|]. rewrite D. cbn [rbind].
  destruct IH as [ds DS]; [intros y I; apply G; now right|]. rewrite DS. cbn [rbind]. eauto.
Qed.
Definition js_fields (go : rtype -> res dict) := fix all (l : list rtype) (ps : dict) (req : list pyval) : res (dict * list pyval) :=
  match l with
  | [] => Ok (ps, req)
  | x :: r => (n <- js_name x ;; d <- go x ;; all r (dset n (PDict d) ps) (if js_required x then req ++ [PStr n] else req))%res
  end.
Lemma fields_ok go fs : Forall (fun f => exists n, SpecJson.named f n) fs -> (forall x, In x fs -> exists d, go x = Ok d) ->
  forall ps req, exists r, js_fields go fs ps req = Ok r.
Proof.
  induction 1 as [|x l [n [N NE]] F IH]; cbn [js_fields]; intros G ps req; [eauto|].
  unfold js_name, kwarg. unfold attr in N. rewrite N. destruct n as [|b n]; [congruence|]. cbn [nonempty rbind].
  destruct (G x) as [d D]; [now left|]. rewrite D. cbn [rbind]. apply IH. intros y I. apply G. now right.
Qed.

Lemma tree_ok prox R : forall t u, every json_node t -> exists d, js_tree prox R u t = Ok d.
Proof.
  induction t as [c|c|c n s|c n|c n s|c n s|c t n s IH|c k t IHk IHt|c fs IH|c l|c ts IH|c r] using rtype_ind'; intros u E;
    apply every_iff in E as [[AL K] CH]; cbn [get_c children] in *.
  12:{ destruct K as (a & -> & NB). cbn [js_tree get_c is_proxy negb c_alias c_extra length Nat.eqb]. rewrite NB, andb_false_r. cbn [andb orb negb]. eauto. }
  all: cbn [js_tree get_c is_proxy negb]; rewrite andb_true_r; (destruct (u && _)%bool eqn:U;
    [destruct AL as [AL|[a AL]]; rewrite AL in U |- *; [rewrite andb_false_r in U; discriminate|eauto]|]; clear U AL); try (eexists; reflexivity).
  - inversion CH; subst. destruct (IH true) as [d D]; auto. rewrite D. cbn [rbind]. eauto.
  - inversion CH as [|? ? _ CH']; inversion CH'; subst. destruct (IHt true) as [d D]; auto. rewrite D. cbn [rbind]. eauto.
  - assert (G : forall x, In x fs -> exists d, js_tree prox R true x = Ok d).
    { intros x I. rewrite Forall_forall in IH, CH. auto. }
    destruct (fields_ok (js_tree prox R true) fs K G [] []) as [r Hr]. unfold js_fields in Hr. rewrite Hr. cbn [rbind]. eauto.
  - assert (G : forall x, In x ts -> exists d, js_tree prox R true x = Ok d).
    { intros x I. rewrite Forall_forall in IH, CH. auto. }
    destruct (is_optional c ts) eqn:O.
    + destruct (only_ok (js_tree prox R true) ts c O K G) as [d D]. rewrite D. cbn [rbind]. eauto.
    + destruct (all_ok (js_tree prox R true) ts G) as [l L]. unfold js_all in L. rewrite L. cbn [rbind]. eauto.
Qed.

Lemma defs_ok conv : (forall s, every json_node s -> exists d, conv s = Ok d) -> forall t, every json_node t -> exists e, js_defs conv t = Ok e.
Proof.
  intros C. assert (OWN : forall t, every json_node t -> exists own, (match c_alias (get_c t) with
           | PStr a => if nonempty a && negb (dmem a builtin_aliases)
                       then (d <- conv t ;; Ok [(a, PDict d)]) else Ok []
           | v => if truthy v then match v with PList _ | PDict _ => Err TypeError | _ => Err Unmodelled end
                  else Ok []
           end)%res = Ok own).
  { intros t E. pose proof E as E0. apply every_iff in E0 as [[AL _] _]. destruct AL as [->|[a ->]]; [eexists; reflexivity|].
    destruct (nonempty a && _)%bool; [|eauto]. destruct (C t E) as [d ->]. cbn [rbind]. eauto. }
  assert (ALL : forall l acc, Forall (fun x => exists e, js_defs conv x = Ok e) l -> exists e,
     (fix all (l : list rtype) (acc : dict) : res dict :=
          match l with
          | [] => Ok acc
          | x :: r => (d <- js_defs conv x ;; all r (dupd acc d))%res
          end) l acc = Ok e).
  { induction l as [|x l IH]; intros acc F; [eauto|]. inversion F as [|? ? [d D] F']; subst. rewrite D. cbn [rbind]. auto. }
  induction t as [c|c|c n s|c n|c n s|c n s|c t n s IH|c k t IHk IHt|c fs IH|c l|c ts IH|c r] using rtype_ind'; intros E;
    pose proof (OWN _ E) as [own O]; apply every_iff in E as [_ CH]; cbn [children] in CH; cbn [js_defs get_c]; cbn [get_c] in O; cbv zeta in O |- *; rewrite O; cbn [rbind]; eauto.
  - inversion CH; subst. destruct IH as [d D]; auto. rewrite D. cbn [rbind]. eauto.
  - inversion CH as [|? ? _ CH']; inversion CH'; subst. destruct IHt as [d D]; auto. rewrite D. cbn [rbind]. eauto.
  - apply ALL. rewrite Forall_forall in *. auto.
  - apply ALL. rewrite Forall_forall in *. auto.
Qed.

Lemma json_printed R t : every json_node t -> exists d, js_from R t = Ok d.
Proof.
  intros E. unfold js_from, js_field. cbn [js_field_f]. destruct (tree_ok (fun t' => js_field_f (Nat.max (rdepth t) (reg_depth R)) R true t') R t true E) as [d D].
  rewrite D. cbn [rbind].
  assert (C : forall s, every json_node s -> exists d, js_field R false s = Ok d).
  { intros s Es. unfold js_field. cbn [js_field_f]. apply tree_ok, Es. }
  destruct (defs_ok _ C t E) as [e X]. unfold js_field in X. cbn [js_field_f] in X. rewrite X. cbn [rbind]. eauto.
Qed.

(** ** Columns *)
Lemma json_set_c t c : is_proxy t = false -> c_alias c = c_alias (get_c t) -> every json_node t -> every json_node (set_c t c).
Proof.
  intros P A E. apply every_iff in E as [[AL K] CH]. apply every_iff. rewrite children_set_c. split; auto. split.
  - rewrite get_set_c, A. auto.
  - destruct t; auto. discriminate.
Qed.
Lemma proxy_set_c t c : is_proxy (set_c t c) = is_proxy t.
Proof. destruct t; reflexivity. Qed.
Lemma json_set_extra k v t : is_proxy t = false -> every json_node t -> every json_node (set_extra k v t) /\ is_proxy (set_extra k v t) = false.
Proof. intros P E. unfold set_extra. rewrite proxy_set_c. split; auto. now apply json_set_c. Qed.
Lemma json_null : every json_node (TNull c0).
Proof. apply every_iff. split; [|constructor]. split; [now left|exact I]. Qed.
Lemma json_nullable t t1 : fresh_type t -> is_proxy t = false -> every json_node t -> snd (make_nullable t) = Ok t1 ->
  every json_node t1 /\ is_proxy t1 = false.
Proof.
  intros F P E H. destruct (is_union t) eqn:U.
  - destruct t as [| | | | | | | | | |c ts|]; try discriminate. pose proof (ft_union _ F _ _ eq_refl) as ->.
    cbn in H. injection H; intros <-. split; [|reflexivity]. apply every_iff in E as [[_ K] CH]. cbn [children] in *. apply every_iff. cbn [children].
    split; [split; [now left|]|destruct (existsb is_null ts); auto using json_null].
    destruct (existsb is_null ts); auto. intros x [<-|I]; auto.
  - rewrite make_nullable_other in H by (auto; now apply fresh_no_clash). cbn [snd] in H. injection H; intros <-. split; [|reflexivity].
    rewrite (ft_null _ F), (plain_fresh _ F). apply every_iff. split; [|cbn [children]; auto using json_null].
    split; [now left|]. intros x [<-|[<-|[]]]; auto. rewrite (ft_null _ F). discriminate.
Qed.
Lemma json_finish col t f : fresh_type t -> is_proxy t = false -> every json_node t -> Dbapi.finish col t = Ok f -> every json_node f.
Proof.
  intros F P E H. unfold Dbapi.finish in H.
  destruct (item "IS_NULLABLE" col) as [n|]; cbn [rbind] in H; [|discriminate].
  destruct (as_str n) as [s|]; cbn [rbind] in H; [|discriminate].
  destruct (if String.eqb (upper s) "YES" then _ else _) as [t1|] eqn:T; cbn [rbind] in H; [|discriminate].
  destruct (item "COLUMN_DEFAULT" col) as [d|]; cbn [rbind] in H; [|discriminate].
  destruct (item "COLUMN_NAME" col) as [nm|]; cbn [rbind] in H; [|discriminate].
  assert (X : every json_node t1 /\ is_proxy t1 = false).
  { destruct (String.eqb (upper s) "YES"); [eapply json_nullable; eauto|]. injection T; intros <-. auto. }
  injection H; intros <-. destruct X as [X1 X2]. apply json_set_extra; [|]; destruct (_ || _)%bool; auto; now apply json_set_extra.
Qed.

Lemma json_leaf t : children t = [] -> is_proxy t = false -> c_alias (get_c t) = PNone -> every json_node t.
Proof.
  intros C P A. apply every_iff. rewrite C. split; [|constructor]. split; auto.
  destruct t as [| | | | | | | |c fs| |c ts|]; auto; cbn in C; try subst; try constructor; try discriminate. intros x [].
Qed.
Ltac leaf := split; [apply json_leaf; reflexivity|reflexivity].
Lemma json_mysql col t : mysql_type col = Ok t -> every json_node t /\ is_proxy t = false.
Proof.
  intros H. unfold mysql_type in H.
  destruct (item "DATA_TYPE" col) as [dt|]; cbn [rbind] in H; [|discriminate].
  destruct (as_str dt) as [s|]; cbn [rbind] in H; [|discriminate].
  destruct (item "CHARACTER_OCTET_LENGTH" col) as [oc|] eqn:E1; cbn [rbind] in H; [|discriminate].
  destruct (item "NUMERIC_PRECISION" col) as [pr|] eqn:E2; cbn [rbind] in H; [|discriminate].
  destruct (item "NUMERIC_SCALE" col) as [sc|] eqn:E3; cbn [rbind] in H; [|discriminate].
  split_ifs H; try discriminate H; try (injection H; intros; subst t; leaf).
  - destruct (py_gt_z pr 23) as [[]|]; cbn [rbind] in H; try discriminate H; injection H; intros; subst t; leaf.
  - destruct (item "DATETIME_PRECISION" col) as [p|]; cbn [rbind] in H; [|discriminate].
    destruct (get_time_unit (Some [p])) as [u|]; cbn [rbind] in H; [|discriminate].
    injection H; intros; subst t; leaf.
Qed.
Lemma json_snowflake col t : snowflake_type col = Ok t -> every json_node t /\ is_proxy t = false.
Proof.
  intros H. unfold snowflake_type in H.
  destruct (item "DATA_TYPE" col) as [dt|]; cbn [rbind] in H; [|discriminate].
  destruct (as_str dt) as [s|]; cbn [rbind] in H; [|discriminate].
  destruct (item "CHARACTER_OCTET_LENGTH" col) as [oc|] eqn:E1; cbn [rbind] in H; [|discriminate].
  destruct (get_time_unit _) as [u|]; cbn [rbind] in H;
  split_ifs H; try discriminate H; try (injection H; intros; subst t; leaf);
  (destruct (item "NUMERIC_PRECISION" col) as [pr|] eqn:E2; cbn [rbind] in H; [|discriminate];
   destruct (item "NUMERIC_SCALE" col) as [sc|] eqn:E3; cbn [rbind] in H; [|discriminate];
   injection H; intros; subst t; leaf).
Qed.
Lemma json_sqlite col t : sqlite_type col = Ok t -> every json_node t /\ is_proxy t = false.
Proof.
  intros H. unfold sqlite_type in H.
  destruct (item "COLUMN_NAME" col) as [nm|]; cbn [rbind] in H; [|discriminate].
  destruct (item "TYPE" col) as [ty|]; cbn [rbind] in H; [|discriminate].
  destruct (item "CHARACTER_OCTET_LENGTH" col) as [oc|] eqn:E1; cbn [rbind] in H; [|discriminate].
  destruct (item "NUMERIC_PRECISION" col) as [pr|] eqn:E2; cbn [rbind] in H; [|discriminate].
  destruct (type_text ty) as [tt|]; cbn [rbind] in H; [|discriminate].
  destruct (get_affinity tt); try (injection H; intros; subst t; leaf).
  - destruct (truthy pr); [|injection H; intros; subst t; leaf].
    destruct (py_gt_z pr 23) as [g|]; cbn [rbind] in H; try discriminate H; injection H; intros; subst t; leaf.
  - injection H; intros; subst t. split; [|reflexivity]. apply every_iff. cbn [children]. split.
    + split; [now left|]. intros x I N. cbn in I. repeat (destruct I as [<-|I]; [first [reflexivity|discriminate N]|]). destruct I.
    + repeat (constructor; [apply json_leaf; reflexivity|]). constructor.
Qed.
Lemma json_pg_scalar dt oc ml col t : pg_scalar dt oc ml col = Ok t -> (every json_node t /\ is_proxy t = false) /\ is_union t = false.
Proof.
  intros H. unfold pg_scalar in H.
  split_ifs H; try discriminate H; try (injection H; intros; subst t; split; [leaf|reflexivity]).
  - destruct (ceil_div8 ml) as [b|] eqn:E; cbn [rbind] in H; [|discriminate]. injection H; intros; subst t; split; [leaf|reflexivity].
  - destruct (item "DATETIME_PRECISION" col) as [p|]; cbn [rbind] in H; [|discriminate].
    destruct (get_time_unit (Some [p])) as [u|]; cbn [rbind] in H; [|discriminate].
    injection H; intros; subst t; split; [leaf|reflexivity].
  - destruct (item "NUMERIC_PRECISION" col) as [pr|] eqn:E2; cbn [rbind] in H; [|discriminate].
    destruct (item "NUMERIC_SCALE" col) as [sc|] eqn:E3; cbn [rbind] in H; [|discriminate].
    injection H; intros; subst t; split; [leaf|reflexivity].
  - destruct (item "ENUM_VALUES" col) as [e|] eqn:E; cbn [rbind] in H; [|discriminate].
    destruct (truthy e); [|discriminate]. injection H; intros; subst t; split; [leaf|reflexivity].
Qed.
Lemma json_lists v : (every json_node v /\ is_proxy v = false) /\ is_null v = false -> forall n, every json_node (n_lists v n) /\ is_proxy (n_lists v n) = false.
Proof.
  intros [[E P] N]. induction n as [|n [IH _]]; cbn [n_lists]; (split; [|reflexivity]); apply every_iff; cbn [children].
  - split; [|auto using json_null]. split; [now left|]. intros x [<-|[<-|[]]]; auto. rewrite N. discriminate.
  - split; [|auto]. split; [now left|exact I].
Qed.
Lemma json_pg enforce ns col R R' t : pg_type enforce ns col R = (R', Ok t) -> every json_node t /\ is_proxy t = false.
Proof.
  intros H. rewrite pg_type_cases in H. destruct (pg_header col) as [[[[[[nm dt] oc] ml] udt] nd]|]; [|discriminate].
  destruct (String.eqb dt "array"); [|injection H; intros X _; now apply json_pg_scalar in X].
  destruct (elem (lstrip_under udt)) as [v|] eqn:E; [|discriminate].
  assert (JV : (every json_node v /\ is_proxy v = false) /\ is_null v = false).
  { pose proof (elem_fresh _ _ E) as [FV _]. unfold elem in E. destruct (String.eqb _ "array"); [discriminate|]. apply json_pg_scalar in E as [E _].
    split; auto. apply FV. }
  destruct enforce.
  - injection H; intros X _. unfold n_dimension_list in X. destruct nd; try discriminate.
    + injection X; intros; subst t. now apply json_lists.
    + destruct (z <? 0)%Z; [discriminate|]. injection X; intros; subst t. now apply json_lists.
  - destruct nm as [| | | |nm| |]; try discriminate. cbv zeta in H. destruct (dmem _ R) eqn:M; [discriminate|].
    destruct (re_match _ _) eqn:RE; [|discriminate]. injection H; intros; subst t. apply alias_regex_spec in RE.
    split; [|reflexivity]. unfold self_list. apply every_iff. cbn [children]. split; [split; [right; eexists; reflexivity|exact I]|].
    constructor; [|constructor]. apply every_iff. cbn [children]. split.
    + split; [now left|]. destruct JV as [_ N]. intros x [<-|[<-|[]]]; [rewrite N; discriminate|discriminate].
    + constructor; [apply JV|]. constructor; [|constructor]. apply every_iff. split; [|constructor]. split; [right; eexists; reflexivity|].
      eexists. split; [reflexivity|]. apply CompactNames.dotted_builtin in RE. now apply dmem_false.
Qed.
Lemma json_db p col R R' t : db_parser p -> p col R = (R', Ok t) -> every json_node t /\ is_proxy t = false.
Proof.
  intros [| | |e ns] H; [| | |now apply json_pg in H]; injection H; intros X _.
  - now apply json_mysql in X.
  - now apply json_snowflake in X.
  - now apply json_sqlite in X.
Qed.

(** ** Tables *)
Lemma json_fields p : db_parser p -> forall cols R R' fs, fields_of p cols R = (R', Ok fs) -> Forall (every json_node) fs.
Proof.
  intros DB. induction cols as [|c cs IH]; intros R R' fs H; cbn [fields_of] in H; [injection H; intros; subst; constructor|].
  unfold mbind in H. destruct (p c R) as [R1 [t|]] eqn:E; [|discriminate].
  unfold lift in H. destruct (Dbapi.finish c t) as [f|] eqn:F; [|discriminate].
  destruct (fields_of p cs R1) as [R2 [fs'|]] eqn:G; [|discriminate]. injection H; intros; subst.
  destruct (json_db _ _ _ _ _ DB E) as [J P]. constructor; [|eapply IH; eauto].
  eapply json_finish; eauto. eapply db_fresh; eauto.
Qed.

Lemma Forall2_combine_in {A B} (P : A -> B -> Prop) l1 l2 : Forall2 P l1 l2 -> forall a b, In (a, b) (combine l1 l2) -> P a b.
Proof. induction 1; cbn; intros a b I; [destruct I|]. destruct I as [[= <- <-]|I]; auto. Qed.

Lemma called_fields cols bases fs ns : length bases = length cols ->
  Forall2 (fun cb f => field_spec (fst cb) (snd cb) f) (combine cols bases) fs -> Forall2 called cols ns -> Forall2 SpecJson.named fs ns.
Proof.
  intros L F C. revert bases fs L F. induction C as [|c n cols ns [N NE] C IH]; intros [|b bases] fs L F; try discriminate L; cbn [combine] in F.
  - inversion F; subst. constructor.
  - inversion F as [|? f ? fs' FS F']; subst. constructor; [|eapply IH; eauto].
    split; auto. destruct (fs_name _ _ _ FS) as (v & E & X). cbn [fst] in E. rewrite N in E. injection E; intros; subst v. exact X.
Qed.
Lemma same_names fs ns ms : Forall2 SpecJson.named fs ns -> Forall2 SpecJson.named fs ms -> ns = ms.
Proof.
  intros H. revert ms. induction H as [|f n fs ns [N _] H IH]; intros ms K; inversion K as [|? m ? ms' [M _] K']; subst; auto.
  f_equal; auto. congruence.
Qed.

Lemma table_json p cols ns R R' t : db_parser p -> Forall2 called cols ns -> to_recap p cols R = (R', Ok t) ->
  exists bases fs d ps, t = TStruct c0 fs /\ mmap p cols R = (R', Ok bases) /\ length bases = length cols
    /\ Forall2 (fun cb f => field_spec (fst cb) (snd cb) f) (combine cols bases) fs /\ Forall2 SpecJson.named fs ns
    /\ js_from builtin_aliases t = Ok d
    /\ dget "type" d = Some (PStr "object") /\ dget "properties" d = Some (PDict ps)
    /\ (NoDup ns -> dkeys ps = ns)
    /\ (forall n, required_name d n <-> exists f, In (f, n) (combine fs ns) /\ ~ optional_union f).
Proof.
  intros DB CA H. destruct (columns_to_fields _ _ _ _ _ DB H) as (bases & fs & -> & M & L & L' & F).
  pose proof (called_fields _ _ _ _ L F CA) as N.
  assert (J : every json_node (TStruct c0 fs)).
  { unfold to_recap, mbind, ret in H. destruct (fields_of p cols R) as [R1 [gs|]] eqn:G; [|discriminate].
    injection H; intros; subst. apply every_iff. cbn [children]. split; [|eapply json_fields; eauto]. split; [now left|].
    clear -N. induction N; constructor; eauto. }
  destruct (json_printed builtin_aliases _ J) as [d D].
  destruct (from_required builtin_aliases c0 fs d) as (ms & ps & N' & T & P & _ & K & RQ); auto.
  { intros a X. discriminate. }
  rewrite <- (same_names _ _ _ N N') in *.
  exists bases, fs, d, ps. repeat split; auto; try (apply RQ; fail). intros ND. apply K, ND.
Qed.

(** Which columns have a union that is not optional. *)
Lemma strict_scalar p col R R' t : strict_parser p -> p col R = (R', Ok t) -> is_union t = false.
Proof.
  intros [| |ns] H.
  - injection H; intros X _. clear H. unfold mysql_type in X.
    repeat (apply rbind_Ok in X as (? & _ & X)). split_ifs X; try discriminate X; try (injection X; intros; subst t; reflexivity);
    repeat (apply rbind_Ok in X as (? & _ & X)); try match type of X with context [if ?b then _ else _] => destruct b end; injection X; intros; subst t; reflexivity.
  - injection H; intros X _. clear H. unfold snowflake_type in X.
    repeat (apply rbind_Ok in X as (? & _ & X)). split_ifs X; try discriminate X; try (injection X; intros; subst t; reflexivity);
    repeat (apply rbind_Ok in X as (? & _ & X)); injection X; intros; subst t; reflexivity.
  - rewrite pg_type_cases in H. destruct (pg_header col) as [[[[[[nm dt] oc] ml] udt] nd]|]; [|discriminate].
    destruct (String.eqb dt "array"); [|injection H; intros X _; now apply json_pg_scalar in X].
    destruct (elem (lstrip_under udt)) as [v|] eqn:E; [|discriminate].
    destruct nm as [| | | |nm| |]; try discriminate. cbv zeta in H. destruct (dmem _ R) eqn:M; [discriminate|].
    destruct (re_match _ _) eqn:RE; [|discriminate]. injection H; intros; subst t. reflexivity.
Qed.
Lemma nullable_dec col : nullable_column col \/ ~ nullable_column col.
Proof.
  unfold nullable_column. destruct (dget "IS_NULLABLE" col) as [[| | | |s| |]|];
    try (right; intros (x & E & _); discriminate). destruct (String.eqb (upper s) "YES") eqn:E.
  - left. exists s. split; auto. now apply nullable_upper.
  - right. intros (x & [= <-] & X). apply nullable_upper in X. congruence.
Qed.
Lemma optional_column col b f : fresh_type b -> is_union b = false -> field_spec col b f -> (optional_union f <-> nullable_column col).
Proof.
  intros F U FS. split.
  - intros O. destruct (nullable_dec col) as [N|N]; auto. exfalso. destruct (fs_required _ _ _ FS N) as (E & _).
    destruct O as (c & l1 & x & l2 & -> & _). destruct b; discriminate.
  - intros N. destruct (fs_nullable _ _ _ FS N) as [c E].
    assert (X : f = TUnion c [TNull c0; b]) by (destruct b; try discriminate U; exact E). subst f.
    exists c, [TNull c0], b, []. cbn [app]. split; auto. split.
    + destruct (fs_default _ _ _ FS) as (d & _ & D & _). specialize (D (or_intror N)). unfold extra in D. cbn [get_c] in D. rewrite D. discriminate.
    + split; [intros ->; now pose proof (ft_null _ F)|]. split; [discriminate|]. repeat constructor.
Qed.
Lemma combine_at {A B} (fs : list A) (ns : list B) i f n : NoDup ns -> nth_error fs i = Some f -> nth_error ns i = Some n ->
  In (f, n) (combine fs ns) /\ forall g, In (g, n) (combine fs ns) -> g = f.
Proof.
  intros ND. revert fs i. induction ND as [|m ns NI ND IH]; intros [|g fs] [|i] F N; try discriminate.
  - injection F; intros; subst. injection N; intros; subst. split; [now left|]. intros h [E|E]; [congruence|].
    apply in_combine_r in E. contradiction.
  - destruct (IH fs i F N) as [I1 I2]. split; [now right|]. intros h [E|E]; [|auto]. injection E; intros; subst.
    exfalso. apply NI. eapply nth_error_In. exact N.
Qed.
Lemma table_required p cols ns R R' t d i col n : db_parser p -> Forall2 called cols ns -> NoDup ns -> to_recap p cols R = (R', Ok t) ->
  schema_output FJson t = Ok (ODocument (PDict d)) -> nth_error cols i = Some col -> nth_error ns i = Some n ->
  exists R1 R2 b f, p col R1 = (R2, Ok b) /\ fresh_type b /\ field_spec col b f /\ (required_name d n <-> ~ optional_union f).
Proof.
  intros DB CA ND H S C N. destruct (table_json p cols ns R R' t DB CA H) as (bases & fs & d' & ps & E & M & L & F & NM & J & _ & _ & _ & RQ).
  unfold schema_output in S. rewrite J in S. injection S; intros; subst d'.
  assert (X : exists f, nth_error fs i = Some f).
  { destruct (nth_error fs i) as [f|] eqn:Y; [eauto|]. exfalso. apply nth_error_None in Y.
    apply Forall2_len in NM. assert (i < length ns) by (apply nth_error_Some; congruence). lia. }
  destruct X as [f Hf]. destruct (DbapiMore.Forall2_combine _ _ _ _ _ _ F L _ C Hf) as (b & Hb & FS). cbn [fst snd] in FS.
  destruct (mmap_nth _ _ _ _ _ _ _ _ M C Hb) as (R1 & R2 & PB).
  exists R1, R2, b, f. split; auto. split; [eapply db_fresh; eauto|]. split; auto.
  destruct (combine_at fs ns i f n ND Hf N) as [I1 I2]. rewrite RQ. split.
  - intros (g & I & O). now rewrite <- (I2 g I).
  - intros O. eauto.
Qed.

(** A nullable SQLite column of numeric affinity. *)
Lemma numeric_required col b f : fresh_type b -> field_spec col b f ->
  b = TUnion c0 [TNull c0; int_t 64 true; float_t 64; TString c0 (PInt sqlite_max_length) (PBool true); TBytes c0 (PInt sqlite_max_length) (PBool true)] ->
  ~ optional_union f.
Proof.
  intros F FS -> (c & l1 & x & l2 & -> & _ & _ & _ & AN). rewrite Forall_forall in AN.
  assert (M : forall y, In y [int_t 64 true; float_t 64] -> In y (l1 ++ x :: l2)).
  { intros y I. destruct (nullable_dec col) as [N|N].
    - destruct (fs_nullable _ _ _ FS N) as (c' & ts' & [= <- <-] & X). apply X. left. cbn in I. cbn. intuition.
    - destruct (fs_required _ _ _ FS N) as (E & _). cbn [set_c get_c] in E. injection E; intros E'. rewrite E'. cbn in I. cbn. intuition. }
  assert (K : forall y, In y [int_t 64 true; float_t 64] -> y = x).
  { intros y I. pose proof (M y I) as J. apply in_app_iff in J as [J|[J|J]]; auto; exfalso.
    - specialize (AN y). rewrite in_app_iff in AN. pose proof (AN (or_introl J)) as Z. subst y. cbn in I. intuition discriminate.
    - specialize (AN y). rewrite in_app_iff in AN. pose proof (AN (or_intror J)) as Z. subst y. cbn in I. intuition discriminate. }
  pose proof (K (int_t 64 true) (or_introl eq_refl)) as A. pose proof (K (float_t 64) (or_intror (or_introl eq_refl))) as B. rewrite <- A in B. discriminate.
Qed.
Lemma sqlite_numeric col ty b : sqlite_type col = Ok b -> dget "TYPE" col = Some (PStr ty) -> determined ty ClassNumeric ->
  b = TUnion c0 [TNull c0; int_t 64 true; float_t 64; TString c0 (PInt sqlite_max_length) (PBool true); TBytes c0 (PInt sqlite_max_length) (PBool true)].
Proof.
  intros H T D. unfold sqlite_type in H.
  destruct (item "COLUMN_NAME" col) as [nm|]; cbn [rbind] in H; [|discriminate].
  unfold item at 1 in H. rewrite T in H. cbn [rbind] in H.
  destruct (item "CHARACTER_OCTET_LENGTH" col) as [oc|]; cbn [rbind] in H; [|discriminate].
  destruct (item "NUMERIC_PRECISION" col) as [pr|]; cbn [rbind] in H; [|discriminate].
  assert (X : exists tt, type_text (PStr ty) = Ok tt /\ class_of (get_affinity tt) = ClassNumeric).
  { exists (match ty with EmptyString => None | _ => Some ty end). split; [destruct ty; reflexivity|].
    replace (get_affinity _) with (get_affinity (Some ty)) by (destruct ty; reflexivity). eapply determined_unique; [apply affinity_rules|exact D]. }
  destruct X as (tt & TT & A). rewrite TT in H. cbn [rbind] in H. destruct (get_affinity tt); try discriminate A. congruence.
Qed.

(** ** BigQuery *)
Lemma json_bq_scalar f t : bq_scalar f = Some t -> every json_node t /\ is_proxy t = false.
Proof. intros H. unfold bq_scalar in H. split_ifs H; try discriminate H; injection H; intros; subst t; leaf. Qed.
Lemma json_bq_finish f n t u : bq_name f = PStr n -> n <> "" -> fresh_type t -> is_union t = false -> is_proxy t = false -> every json_node t -> bq_finish f t = Ok u ->
  every json_node u /\ SpecJson.named u n /\ (optional_union u <-> bq_mode f = "NULLABLE").
Proof.
  intros N NE F U P E H.
  destruct (bq_finish_spec f t F U) as (r & X & SH & MT). rewrite H in X. injection X; intros <-. clear X. split; [|split].
  - unfold bq_finish in H.
    set (t1 := if String.eqb (bq_mode f) "REPEATED" then TList c0 t PNone (PBool true) else t) in *.
    assert (E1 : (every json_node t1 /\ is_proxy t1 = false) /\ fresh_type t1).
    { unfold t1. destruct (String.eqb (bq_mode f) "REPEATED"); auto. split; [split; [|reflexivity]|].
      - apply every_iff. cbn [children]. split; [|auto]. split; [now left|exact I].
      - apply fresh_plain; reflexivity. }
    clearbody t1. destruct E1 as [[E1 P1] F1].
    destruct (if String.eqb (bq_mode f) "NULLABLE" then _ else _) as [t2|] eqn:T; cbn [rbind] in H; [|discriminate].
    assert (E2 : every json_node t2 /\ is_proxy t2 = false).
    { destruct (String.eqb (bq_mode f) "NULLABLE"); [eapply json_nullable; eauto|]. injection T; intros <-. auto. }
    assert (E3 : every json_node (if truthy (bq_name f) then set_extra "name" (bq_name f) t2 else t2) /\
                 is_proxy (if truthy (bq_name f) then set_extra "name" (bq_name f) t2 else t2) = false).
    { destruct (truthy (bq_name f)); auto. apply json_set_extra; apply E2. }
    revert H E3. generalize (if truthy (bq_name f) then set_extra "name" (bq_name f) t2 else t2). intros t3 H E3.
    assert (E4 : every json_node (if truthy (bq_description f) then set_doc (bq_description f) t3 else t3) /\
                 is_proxy (if truthy (bq_description f) then set_doc (bq_description f) t3 else t3) = false).
    { destruct (truthy (bq_description f)); auto. unfold set_doc. rewrite proxy_set_c. split; [|apply E3]. apply json_set_c; auto; apply E3. }
    revert H E4. generalize (if truthy (bq_description f) then set_doc (bq_description f) t3 else t3). intros t4 H E4.
    injection H; intros <-. destruct (truthy (bq_default f)); [|apply E4]. apply json_set_extra; apply E4.
  - split; auto. apply MT; auto.
  - split.
    + intros O. destruct O as (c & l1 & x & l2 & -> & _). inversion SH; subst; auto; exfalso.
      match goal with X : set_c _ _ = t |- _ => rewrite <- X in U; discriminate U end.
    + intros M. assert (DF : dget "default" (c_extra (get_c u)) <> None).
      { unfold bq_finish in H. rewrite M in H. change (String.eqb "NULLABLE" "REPEATED") with false in H. change (String.eqb "NULLABLE" "NULLABLE") with true in H.
        cbn iota in H. rewrite (make_nullable_other t (fresh_no_clash _ F) U) in H. cbn [snd rbind] in H.
        assert (Y : forall a b : rtype, Ok a = Ok b -> b = a) by congruence. apply Y in H. rewrite H. clear Y H SH MT.
        assert (G : forall k v x, extra "default" x <> None -> extra "default" (set_extra k v x) <> None).
        { intros k v x X. rewrite extra_set. destruct (String.eqb "default" k); [discriminate|auto]. }
        assert (G' : forall v x, extra "default" x <> None -> extra "default" (set_doc v x) <> None).
        { intros v x X. unfold extra, set_doc in *. now rewrite get_set_c. }
        assert (G0 : forall ts, extra "default" (TUnion (mkC PNone PNone (c_doc (get_c t)) (union_labels t)) ts) <> None) by (intros ts; cbn; discriminate).
        match goal with |- dget _ (c_extra (get_c ?x)) <> None => change (extra "default" x <> None) end.
        destruct (truthy (bq_default f)), (truthy (bq_description f)), (truthy (bq_name f)); auto. }
      rewrite M in SH. inversion SH; subst; try congruence. exists c, [TNull c0], t, []. cbn [app]. split; auto. split; [exact DF|].
      split; [intros ->; now pose proof (ft_null _ F)|]. split; [discriminate|]. repeat constructor.
Qed.
Lemma json_bq : forall f n t, bq_called f n -> bq_to_field f = Ok t ->
  every json_node t /\ SpecJson.named t n /\ (optional_union t <-> bq_mode f = "NULLABLE").
Proof.
  induction f as [f IH] using bq_ind'. intros n t CA H. rewrite bq_unfold in H. inversion CA as [f' n' N NE SUB]; subst f' n'.
  pose proof (bq_scalar_spec f) as SP. destruct (bq_scalar f) as [b|] eqn:B.
  - destruct SP as (F & U & _). destruct (json_bq_scalar f b B). eapply json_bq_finish; eauto.
  - destruct (str_in (bq_type f) ["RECORD"; "STRUCT"]); [|discriminate].
    destruct (rmap bq_to_field (bq_fields f)) as [fs|] eqn:M; cbn [rbind] in H; [|discriminate].
    eapply json_bq_finish; eauto; try reflexivity; [apply struct_fresh|].
    assert (K : Forall (fun x => every json_node x /\ exists m, SpecJson.named x m) fs).
    { clear -IH M SUB. revert fs M SUB. induction IH as [|x l Px IHl IH2]; intros fs M SUB; cbn [rmap] in M.
      - injection M; intros; subst. constructor.
      - destruct (bq_to_field x) as [t|] eqn:E; cbn [rbind] in M; [|discriminate].
        destruct (rmap bq_to_field l) as [ts|]; cbn [rbind] in M; [|discriminate]. injection M; intros; subst.
        constructor; [|apply IH2; auto; intros g G; apply SUB; now right].
        destruct (SUB x (or_introl eq_refl)) as [m X]. destruct (Px m t X eq_refl) as (A & B & _). eauto. }
    apply every_iff. cbn [children]. split; [split; [now left|]|]; (eapply Forall_impl; [|exact K]); cbn; tauto.
Qed.
Lemma bq_fields_named l ns fs : Forall2 bq_called l ns -> rmap bq_to_field l = Ok fs ->
  Forall (every json_node) fs /\ Forall2 SpecJson.named fs ns /\ Forall2 (fun f g => optional_union g <-> bq_mode f = "NULLABLE") l fs.
Proof.
  intros C. revert fs. induction C as [|f n l ns CA C IH]; intros fs M; cbn [rmap] in M.
  - injection M; intros; subst. auto.
  - destruct (bq_to_field f) as [t|] eqn:E; cbn [rbind] in M; [|discriminate].
    destruct (rmap bq_to_field l) as [ts|]; cbn [rbind] in M; [|discriminate]. injection M; intros; subst.
    destruct (json_bq f n t CA E) as (A & B & O). destruct (IH ts eq_refl) as (A' & B' & O'). auto.
Qed.
Lemma Forall2_at {A B} (P : A -> B -> Prop) l m i x : Forall2 P l m -> nth_error l i = Some x -> exists y, nth_error m i = Some y /\ P x y.
Proof. intros H. revert i. induction H; intros [|i] E; try discriminate; cbn in *; [injection E; intros; subst; eauto|eauto]. Qed.
Lemma bq_json l ns t : Forall2 bq_called l ns -> NoDup ns -> bq_to_recap l = Ok t ->
  exists d ps, schema_output FJson t = Ok (ODocument (PDict d))
    /\ dget "type" d = Some (PStr "object") /\ dget "properties" d = Some (PDict ps) /\ dkeys ps = ns
    /\ forall i f n, nth_error l i = Some f -> nth_error ns i = Some n -> (required_name d n <-> bq_mode f <> "NULLABLE").
Proof.
  intros C ND H. unfold bq_to_recap in H. destruct (rmap bq_to_field l) as [fs|] eqn:M; cbn [rbind] in H; [|discriminate]. injection H; intros <-.
  destruct (bq_fields_named l ns fs C M) as (J & N & O).
  assert (JT : every json_node (TStruct c0 fs)).
  { apply every_iff. cbn [children]. split; auto. split; [now left|]. clear -N. induction N; constructor; eauto. }
  destruct (json_printed builtin_aliases _ JT) as [d D].
  destruct (from_required builtin_aliases c0 fs d) as (ms & ps & N' & T & P & _ & K & RQ); auto.
  { intros a X. discriminate. }
  rewrite <- (same_names _ _ _ N N') in *. exists d, ps. unfold schema_output. rewrite D. split; [reflexivity|].
  split; auto. split; auto. split; [apply K, ND|]. intros i f n Hf Hn.
  destruct (Forall2_at _ _ _ _ _ O Hf) as (g & Hg & OG). destruct (combine_at fs ns i g n ND Hg Hn) as [I1 I2]. rewrite RQ, <- OG. split.
  - intros (h & I & X). now rewrite <- (I2 h I).
  - eauto.
Qed.

(** ** Avro *)
(** A column without a length cannot be written. *)
Definition unlimited (t : rtype) : Prop := exists c v, t = TString c PNone v \/ t = TBytes c PNone v.
Lemma unlimited_tree prox R t : unlimited t -> c_logical (get_c t) = PNone -> forall v, avro_tree prox R t <> Ok v.
Proof.
  intros (c & va & [->| ->]) L v H; cbn [avro_tree get_c] in *; apply rbind_Ok in H as (d & _ & H); rewrite L in H; discriminate.
Qed.
Lemma tree_struct prox R c fs v f : avro_tree prox R (TStruct c fs) = Ok v -> c_logical c = PNone -> In f fs -> exists w, avro_tree prox R f = Ok w.
Proof.
  intros H L I. cbn [avro_tree get_c] in H. apply rbind_Ok in H as (d & _ & H). rewrite L in H. apply rbind_Ok in H as (l & H & _).
  revert l H I. induction fs as [|x fs IH]; intros l H I; [destruct I|].
  apply rbind_Ok in H as (y & Y & H). apply rbind_Ok in H as (y' & _ & H). apply rbind_Ok in H as (ys & H & _). destruct I as [<-|I]; [eauto|]. eapply IH; eauto.
Qed.
Lemma tree_union prox R c ts v f : avro_tree prox R (TUnion c ts) = Ok v -> c_logical c = PNone -> In f ts -> exists w, avro_tree prox R f = Ok w.
Proof.
  intros H L I. cbn [avro_tree get_c] in H. apply rbind_Ok in H as (d & _ & H). rewrite L in H. apply rbind_Ok in H as (l & H & _).
  revert l H I. induction ts as [|x fs IH]; intros l H I; [destruct I|].
  apply rbind_Ok in H as (y & Y & H). apply rbind_Ok in H as (ys & H & _). destruct I as [<-|I]; [eauto|]. eapply IH; eauto.
Qed.
Lemma tree_list prox R c t n va v : avro_tree prox R (TList c t n va) = Ok v -> c_logical c = PNone -> exists w, avro_tree prox R t = Ok w.
Proof.
  intros H L. cbn [avro_tree get_c] in H. apply rbind_Ok in H as (d & _ & H). rewrite L in H. apply rbind_Ok in H as (w & H & _). eauto.
Qed.
Lemma bq_no_avro prox R f t : In (bq_type f) ["STRING"; "JSON"; "BYTES"] -> bq_max_length f = PNone -> bq_to_field f = Ok t ->
  forall v, avro_tree prox R t <> Ok v.
Proof.
  intros T ML H v K. rewrite bq_unfold in H.
  assert (B : exists b, bq_scalar f = Some b /\ unlimited b /\ get_c b = c0 /\ is_union b = false /\ is_null b = false).
  { unfold bq_scalar. rewrite ML. cbn in T. destruct T as [<-|[<-|[<-|[]]]]; eexists; (split; [reflexivity|]); (split; [unfold unlimited; eauto|repeat split]). }
  destruct B as (b & B & UN & G & U & NN). rewrite B in H.
  assert (F : fresh_type b) by (apply fresh_plain; auto).
  assert (LB : c_logical (get_c b) = PNone) by now rewrite G.
  assert (KEY : forall k x y, c_logical (get_c (set_extra k x y)) = c_logical (get_c y)) by (intros; unfold set_extra; now rewrite get_set_c).
  assert (KEY' : forall x y, c_logical (get_c (set_doc x y)) = c_logical (get_c y)) by (intros; unfold set_doc; now rewrite get_set_c).
  assert (LT : c_logical (get_c t) = PNone).
  { unfold bq_finish in H. apply rbind_Ok in H as (t2 & E2 & H).
    assert (L2 : c_logical (get_c t2) = PNone).
    { destruct (String.eqb (bq_mode f) "NULLABLE") eqn:M.
      - apply String.eqb_eq in M. rewrite M in E2. change (String.eqb "NULLABLE" "REPEATED") with false in E2. cbn iota in E2.
        rewrite (make_nullable_other b (fresh_no_clash _ F) U) in E2. cbn [snd] in E2. injection E2; intros <-. reflexivity.
      - injection E2; intros <-. destruct (String.eqb (bq_mode f) "REPEATED"); auto. }
    assert (Y : forall a b : rtype, Ok a = Ok b -> b = a) by congruence. apply Y in H. rewrite H.
    destruct (truthy (bq_default f)), (truthy (bq_description f)), (truthy (bq_name f)); rewrite ?KEY, ?KEY', ?KEY; auto. }
  destruct (bq_finish_spec f b F U) as (r & X & SH & _). rewrite H in X. injection X; intros <-. clear X.
  inversion SH; subst.
  - apply (tree_union _ _ _ _ _ b) in K as [w W]; [|exact LT|right; now left]. revert W. now apply unlimited_tree.
  - apply tree_list in K as [w W]; [|exact LT]. revert W. now apply unlimited_tree.
  - assert (UT : unlimited t). { destruct UN as (c & va & [->| ->]); destruct t; try discriminate; cbn in H2; injection H2; intros; subst; unfold unlimited; eauto. }
    revert K. now apply unlimited_tree.
Qed.

(** ** Arrays of PostgreSQL *)
(** Definitions that refer to themselves. *)
Definition loops (e : dict) : Prop := forall k v, In (k, v) e -> v = PDict [("$ref", pointer k)].
Lemma in_dset_inv {V} k (v : V) d a b : In (a, b) (dset k v d) -> (a, b) = (k, v) \/ In (a, b) d.
Proof.
  induction d as [|[k' v'] d IH]; cbn; [intuition congruence|]. destruct (String.eqb_spec k k') as [->|N]; cbn; intuition.
Qed.
Lemma loops_dupd e' : forall e, loops e -> loops e' -> loops (dupd e e').
Proof.
  induction e' as [|[k v] e' IH]; intros e L L'; [exact L|]. unfold dupd. cbn [fold_left fst snd]. apply IH.
  - intros a b I. apply in_dset_inv in I as [[= -> ->]|I]; auto. apply L'. now left.
  - intros a b I. apply L'. now right.
Qed.
Section Loops.
  Variable R : registry.
  Let defs := js_defs (js_field R false).
  Lemma defs_leaf t : children t = [] -> is_proxy t = false -> c_alias (get_c t) = PNone -> defs t = Ok [].
  Proof. intros C P A. unfold defs. destruct t; try discriminate; cbn [get_c] in A; cbn [js_defs get_c]; rewrite A; cbn; cbn in C; try rewrite C; reflexivity. Qed.
  Lemma defs_two x y : defs (TUnion c0 [x; y]) = (d <- defs x ;; e <- defs y ;; Ok (dupd (dupd [] d) e))%res.
  Proof. reflexivity. Qed.
  Lemma defs_list c a v n va : c_alias c = PStr a -> defs (TList c v n va) =
    (own <- (if nonempty a && negb (dmem a builtin_aliases) then (d <- js_field R false (TList c v n va) ;; Ok [(a, PDict d)]) else Ok []) ;;
     d <- defs v ;; Ok (dupd own d))%res.
  Proof. intros A. unfold defs. cbn [js_defs get_c]. rewrite A. reflexivity. Qed.
  Definition array_of (a : string) (t : rtype) : Prop :=
    exists c v, c_alias c = PStr a /\ children v = [] /\ is_proxy v = false /\ c_alias (get_c v) = PNone
      /\ t = TList c (TUnion c0 [v; TProxy (mkC PNone (PStr a) PNone []) None]) PNone (PBool true).
  Lemma defs_array a t e : dotted_name a -> array_of a t -> defs t = Ok e -> e = [(a, PDict [("$ref", pointer a)])].
  Proof.
    intros D (c & v & A & C & P & AV & ->) H. pose proof (CompactNames.dotted_builtin _ D) as NB. apply dmem_false in NB.
    assert (NE : nonempty a = true) by (destruct a; [apply CompactNames.dotted_has in D; discriminate|reflexivity]).
    assert (DP : defs (TProxy (mkC PNone (PStr a) PNone []) None) = Ok [(a, PDict [("$ref", pointer a)])]).
    { unfold defs. cbn [js_defs get_c c_alias]. rewrite NE, NB. cbn [negb andb]. unfold js_field. cbn [js_field_f js_tree get_c is_proxy andb negb c_alias c_extra length Nat.eqb].
      rewrite NB. reflexivity. }
    assert (DU : defs (TUnion c0 [v; TProxy (mkC PNone (PStr a) PNone []) None]) = Ok [(a, PDict [("$ref", pointer a)])]).
    { rewrite defs_two, (defs_leaf v C P AV), DP. reflexivity. }
    rewrite (defs_list c a) in H by auto. rewrite NE, NB in H. cbn [negb andb] in H.
    apply rbind_Ok in H as (own & O & H). apply rbind_Ok in O as (dd & _ & O). injection O; intros; subst own.
    rewrite DU in H. cbn in H. rewrite String.eqb_refl in H. injection H; auto.
  Qed.
  Lemma defs_nullable c t e : c_alias c = PNone -> defs (TUnion c [TNull c0; t]) = Ok e -> exists e', defs t = Ok e' /\ e = dupd [] e'.
  Proof.
    intros A H. unfold defs in H. cbn [js_defs get_c] in H. rewrite A in H. fold defs in H. cbn [truthy rbind c0 c_alias] in H.
    apply rbind_Ok in H as (e' & E & H). exists e'. split; auto. cbn in H. injection H; auto.
  Qed.
  Lemma defs_struct c fs e : c_alias c = PNone -> defs (TStruct c fs) = Ok e ->
    (forall f e', In f fs -> defs f = Ok e' -> loops e') -> loops e /\ forall f e' k, In f fs -> defs f = Ok e' -> In k (dkeys e') -> In k (dkeys e).
  Proof.
    intros A H L. unfold defs in H. cbn [js_defs get_c] in H. rewrite A in H. fold defs in H. cbn [truthy rbind] in H.
    assert (G : forall acc, loops acc -> (fix all (l : list rtype) (acc : dict) : res dict :=
        match l with [] => Ok acc | x :: r => (d <- defs x ;; all r (dupd acc d))%res end) fs acc = Ok e ->
        loops e /\ (forall k, In k (dkeys acc) -> In k (dkeys e)) /\ forall f e' k, In f fs -> defs f = Ok e' -> In k (dkeys e') -> In k (dkeys e)).
    { clear H. induction fs as [|x fs IH]; intros acc LA H.
      - injection H; intros; subst. repeat split; auto. intros f e' k [].
      - apply rbind_Ok in H as (d & D & H). apply IH in H as (X & Y & Z).
        + split; auto. split; [intros k I; apply Y, dupd_keys; auto|]. intros f e' k [<-|I] E K; [|eauto]. apply Y, dupd_keys. right. congruence.
        + intros f e' I. apply L. now right.
        + apply loops_dupd; auto. apply (L x); [now left|auto]. }
    destruct (G [] (fun k v I => match I with end) H) as (X & _ & Y). auto.
  Qed.
End Loops.

(** A column of a PostgreSQL table. *)
Lemma finish_union col t f : fresh_type t -> is_union t = false -> Dbapi.finish col t = Ok f ->
  (exists c, c_alias c = c_alias (get_c t) /\ f = set_c t c) \/ exists c, c_alias c = PNone /\ dmem "default" (c_extra c) = true /\ f = TUnion c [TNull c0; t].
Proof.
  intros F U H. unfold Dbapi.finish in H. apply rbind_Ok in H as (n & _ & H). apply rbind_Ok in H as (s & _ & H).
  apply rbind_Ok in H as (t1 & T & H). apply rbind_Ok in H as (d & _ & H). apply rbind_Ok in H as (nm & _ & H).
  destruct (String.eqb (upper s) "YES").
  - right. rewrite make_nullable_other in T by (auto; now apply fresh_no_clash). cbn [snd] in T. rewrite (ft_null _ F), (plain_fresh _ F) in T.
    injection T; intros <-. rewrite orb_true_r in H. unfold set_extra in H. cbn [get_c set_c c_logical c_alias c_doc c_extra] in H. injection H; intros <-.
    eexists. split; [|split; [|reflexivity]]; [reflexivity|]. reflexivity.
  - left. injection T; intros <-. rewrite orb_false_r in H. injection H; intros <-. unfold set_extra. destruct (negb (is_none d)); eexists; (split; [|rewrite ?set_set_c; reflexivity]); cbn [c_alias]; rewrite ?get_set_c; reflexivity.
Qed.
Lemma pg_array_or_leaf ns col R R' t : pg_type false ns col R = (R', Ok t) ->
  (exists n, dget "COLUMN_NAME" col = Some (PStr n) /\ dotted_name (array_alias ns n) /\ array_of (array_alias ns n) t)
  \/ (~ array_column col /\ children t = [] /\ is_proxy t = false /\ c_alias (get_c t) = PNone).
Proof.
  intros H. rewrite pg_type_cases in H. unfold pg_header in H.
  destruct (item "COLUMN_NAME" col) as [nm|] eqn:CN; cbn [rbind] in H; [|discriminate].
  destruct (item "DATA_TYPE" col) as [dt|] eqn:DT; cbn [rbind] in H; [|discriminate].
  destruct dt as [| | | |s| |]; try discriminate. cbn [as_str rbind] in H.
  destruct (item "CHARACTER_OCTET_LENGTH" col) as [oc|]; cbn [rbind] in H; [|discriminate].
  destruct (item "CHARACTER_MAXIMUM_LENGTH" col) as [ml|]; cbn [rbind] in H; [|discriminate].
  destruct (rbind (item "UDT_NAME" col) lower_or_empty) as [udt|]; cbn [rbind] in H; [|discriminate].
  destruct (item "ATTNDIMS" col) as [nd|]; cbn [rbind] in H; [|discriminate].
  assert (LV : forall dt oc ml col t, pg_scalar dt oc ml col = Ok t -> children t = [] /\ is_proxy t = false /\ c_alias (get_c t) = PNone).
  { clear. intros dt oc ml col t H. pose proof (json_pg_scalar _ _ _ _ _ H) as [[_ P] _]. pose proof (pg_scalar_fresh _ _ _ _ _ H) as [_ C]. split; auto. split; auto.
    unfold pg_scalar in H. split_ifs H; try discriminate H; try (injection H; intros; subst t; reflexivity);
      repeat (apply rbind_Ok in H as (? & _ & H)); try (destruct (truthy _); [|discriminate]); injection H; intros; subst t; reflexivity. }
  destruct (String.eqb (lower s) "array") eqn:AR.
  - left. destruct (elem (lstrip_under udt)) as [v|] eqn:E; [|discriminate].
    destruct nm as [| | | |nm| |]; try discriminate. cbv zeta in H. destruct (dmem _ R) eqn:M; [discriminate|].
    destruct (re_match _ _) eqn:RE; [|discriminate]. injection H; intros; subst t. apply alias_regex_spec in RE.
    exists nm. unfold item in CN. destruct (dget "COLUMN_NAME" col) as [x|]; [|discriminate]. injection CN; intros; subst x. split; auto. split; auto.
    unfold elem in E. destruct (String.eqb (lower (lstrip_under udt)) "array"); [discriminate E|]. apply LV in E as (E1 & E2 & E3).
    exists (mkC PNone (PStr (array_alias ns nm)) PNone []), v. split; [reflexivity|]. auto.
  - right. injection H; intros X _. apply LV in X. split; auto. intros (s' & E & CI). unfold item in DT. rewrite E in DT. injection DT; intros; subst s'.
    apply DbReads.ci_lower in CI. rewrite CI in AR. vm_compute in AR. discriminate AR.
Qed.
Lemma js_labels_null c t : js_labels (TUnion c [TNull c0; t]) = js_labels (TNull c).
Proof. reflexivity. Qed.
Lemma dget_dupd_one {V} d k (v : V) : dget k (dupd d [(k, v)]) = Some v.
Proof. unfold dupd. cbn [fold_left fst snd]. rewrite dget_dset, String.eqb_refl. reflexivity. Qed.
Lemma array_written R a t f p : array_of a t -> (exists c, c_alias c = c_alias (get_c t) /\ f = set_c t c) \/
  (exists c, c_alias c = PNone /\ dmem "default" (c_extra c) = true /\ f = TUnion c [TNull c0; t]) ->
  converts R true f p -> dget "$ref" p = Some (pointer a).
Proof.
  intros (c & v & A & C & P & AV & ->) SH [n H].
  assert (G : forall c', c_alias c' = PStr a -> forall q, js_tree q R true (TList c' (TUnion c0 [v; TProxy (mkC PNone (PStr a) PNone []) None]) PNone (PBool true)) = Ok [("$ref", pointer a)]).
  { intros c' A' q. cbn [js_tree get_c is_proxy negb andb]. rewrite A'. reflexivity. }
  destruct SH as [(c' & A' & ->)|(c' & A' & D & ->)].
  - cbn [set_c get_c] in *. rewrite A in A'. destruct n; cbn [js_field_f] in H; rewrite (G c' A') in H; injection H; intros <-; reflexivity.
  - assert (O : is_optional c' [TNull c0; TList c (TUnion c0 [v; TProxy (mkC PNone (PStr a) PNone []) None]) PNone (PBool true)] = true).
    { unfold is_optional. cbn [existsb rt_eq filter negb length]. rewrite D. reflexivity. }
    assert (K : forall q, js_tree q R true (TUnion c' [TNull c0; TList c (TUnion c0 [v; TProxy (mkC PNone (PStr a) PNone []) None]) PNone (PBool true)])
       = Ok (dupd (js_labels (TNull c')) [("$ref", pointer a)])).
    { intros q. cbn [js_tree get_c is_proxy negb]. rewrite A'. cbn [andb]. rewrite O. cbn [is_null existsb]. specialize (G c A q). cbn [js_tree get_c is_proxy negb] in G. rewrite A in *. cbn [andb] in *. reflexivity. }
    assert (E : p = dupd (js_labels (TNull c')) [("$ref", pointer a)]).
    { destruct n; cbn [js_field_f] in H; rewrite K in H; injection H; auto. }
    rewrite E. apply dget_dupd_one.
Qed.
Lemma js_from_defs R t d : js_from R t = Ok d -> exists e d', js_defs (js_field R false) t = Ok e /\ d = match e with [] => d' | _ => dset "$defs" (PDict e) d' end.
Proof. intros H. unfold js_from in H. apply rbind_Ok in H as (d' & _ & H). apply rbind_Ok in H as (e & E & H). injection H; intros <-. eauto. Qed.

Lemma fields_columns p cols : forall R R' fs, fields_of p cols R = (R', Ok fs) ->
  Forall2 (fun c f => exists R1 R2 t, p c R1 = (R2, Ok t) /\ Dbapi.finish c t = Ok f) cols fs.
Proof.
  induction cols as [|c cs IH]; intros R R' fs H; cbn [fields_of] in H; [injection H; intros; subst; constructor|].
  unfold mbind in H. destruct (p c R) as [R1 [t|]] eqn:E; [|discriminate].
  unfold lift in H. destruct (Dbapi.finish c t) as [f|] eqn:F; [|discriminate].
  destruct (fields_of p cs R1) as [R2 [fs'|]] eqn:G; [|discriminate]. injection H; intros; subst. constructor; eauto 6.
Qed.

Lemma pg_loops namespace cols ns R R' t d i col n : Forall2 called cols ns -> NoDup ns ->
  to_recap (pg_type false namespace) cols R = (R', Ok t) -> schema_output FJson t = Ok (ODocument (PDict d)) ->
  nth_error cols i = Some col -> nth_error ns i = Some n -> array_column col ->
  exists ps p, dget "properties" d = Some (PDict ps) /\ dget n ps = Some (PDict p) /\
    dget "$ref" p = Some (pointer (array_alias namespace n)) /\
    dget (array_alias namespace n) (definitions d) = Some (PDict [("$ref", pointer (array_alias namespace n))]).
Proof.
  intros CA ND H S C N AC. pose proof (db_postgresql false namespace) as DB.
  destruct (table_json _ cols ns R R' t DB CA H) as (bases & fs & d' & ps & -> & _ & _ & _ & NM & J & _ & PS & _ & _).
  unfold schema_output in S. rewrite J in S. injection S; intros; subst d'. clear S.
  destruct (from_required builtin_aliases c0 fs d) as (ms & ps' & N' & _ & PS' & _ & K & _); auto.
  { intros a X. discriminate. }
  rewrite <- (same_names _ _ _ NM N') in *. unfold holds in PS'. rewrite PS in PS'. injection PS'; intros; subst ps'. destruct (K ND) as [_ CV].
  unfold to_recap, mbind, ret in H. destruct (fields_of _ cols R) as [R1 [gs|]] eqn:G; [|discriminate]. injection H; intros; subst gs. clear H.
  pose proof (fields_columns _ _ _ _ _ G) as FC.
  (* what each field defines *)
  assert (EACH : forall c f, (exists R1 R2 t, pg_type false namespace c R1 = (R2, Ok t) /\ Dbapi.finish c t = Ok f) ->
    (forall e, js_defs (js_field builtin_aliases false) f = Ok e -> loops e) /\
    forall m, dget "COLUMN_NAME" c = Some (PStr m) -> array_column c ->
      (forall e, js_defs (js_field builtin_aliases false) f = Ok e -> In (array_alias namespace m) (dkeys e)) /\
      forall p, converts builtin_aliases true f p -> dget "$ref" p = Some (pointer (array_alias namespace m))).
  { clear -DB. intros c f (R1 & R2 & t & PT & FI). pose proof (pg_fresh false namespace _ _ _ _ PT) as F.
    pose proof (strict_scalar _ _ _ _ _ (st_postgresql namespace) PT) as U.
    pose proof (finish_union c t f F U FI) as SH. apply pg_array_or_leaf in PT as [(m & CN & DN & AR)|(NA & CH & PX & AL)].
    - assert (DT : forall u e, array_of (array_alias namespace m) u -> js_defs (js_field builtin_aliases false) u = Ok e ->
         e = [(array_alias namespace m, PDict [("$ref", pointer (array_alias namespace m))])]) by (intros u e; apply defs_array, DN).
      assert (DF : forall e, js_defs (js_field builtin_aliases false) f = Ok e -> e = [(array_alias namespace m, PDict [("$ref", pointer (array_alias namespace m))])]).
      { intros e E. destruct SH as [(c' & A' & ->)|(c' & A' & D & ->)].
        - apply DT in E; auto. destruct AR as (c1 & v & B1 & B2 & B3 & B4 & ->). cbn [set_c get_c] in *. exists c', v. repeat split; auto. congruence.
        - apply defs_nullable in E as (e' & E & ->); auto. apply DT in E; auto. rewrite E. reflexivity. }
      split.
      + intros e E. rewrite (DF e E). intros k v [[= <- <-]|[]]. reflexivity.
      + intros m' CN' _. rewrite CN in CN'. injection CN'; intros; subst m'. split; [intros e E; rewrite (DF e E); now left|].
        intros p CV. eapply array_written; eauto.
    - split; [|intros m _ AC; contradiction]. intros e E.
      assert (e = []).
      { destruct SH as [(c' & A' & ->)|(c' & A' & D & ->)].
        - rewrite defs_leaf in E; [congruence| | |]; [now rewrite children_set_c|now rewrite proxy_set_c|rewrite get_set_c; congruence].
        - apply defs_nullable in E as (e' & E & ->); auto. rewrite defs_leaf in E by auto. injection E; intros <-. reflexivity. }
      subst e. intros k v []. }
  destruct (js_from_defs _ _ _ J) as (e & d0 & E & DD).
  destruct (defs_struct builtin_aliases c0 fs e eq_refl E) as [LO KE].
  { intros f e' I E'. apply In_nth_error in I as [j Hj]. assert (X : exists c, nth_error cols j = Some c).
    { destruct (nth_error cols j) eqn:Y; eauto. assert (nth_error fs j = None); [|congruence]. apply nth_error_None. rewrite <- (Forall2_len _ _ _ FC). apply nth_error_None in Y. exact Y. }
    destruct X as [c Hc]. destruct (Forall2_at _ _ _ _ _ FC Hc) as (f' & Hf' & X). rewrite Hj in Hf'. injection Hf'; intros; subst f'.
    destruct (EACH _ _ X) as [L _]. eauto. }
  destruct (Forall2_at _ _ _ _ _ FC C) as (f & Hf & X). destruct (EACH _ _ X) as [_ AR].
  destruct (Forall2_at _ _ _ _ _ CA C) as (n' & Hn & [CN _]). rewrite N in Hn. injection Hn; intros; subst n'.
  destruct (AR n CN AC) as [AK AP]. destruct (Forall2_at _ _ _ _ _ CV Hf) as (n' & Hn' & (p & CP & HP)). rewrite N in Hn'. injection Hn'; intros; subst n'.
  assert (EF : exists e', js_defs (js_field builtin_aliases false) f = Ok e').
  { apply nth_error_In in Hf. clear -E Hf. cbn [js_defs get_c c0 c_alias truthy rbind] in E. revert E. generalize (@nil (string * pyval)) at 1. intros acc.
    revert acc. induction fs as [|x fs IH]; intros acc E; [destruct Hf|]. apply rbind_Ok in E as (y & Y & E). destruct Hf as [<-|Hf]; eauto. }
  destruct EF as [e' E']. pose proof (KE f e' _ (nth_error_In _ _ Hf) E' (AK e' E')) as IK.
  exists ps, p. split; auto. split; [exact HP|]. split; [apply AP, CP|].
  assert (DE : definitions d = e).
  { unfold definitions. rewrite DD. destruct e as [|x e]; [destruct IK|]. rewrite dget_dset. reflexivity. }
  rewrite DE. destruct (dget (array_alias namespace n) e) as [v|] eqn:DV; [|apply dget_None in DV; contradiction].
  f_equal. apply LO. now apply dget_In.
Qed.
