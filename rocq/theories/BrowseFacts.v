(** What [ls] and [schema] return for database servers and files (proofs only). *)
From Coq Require Import String Ascii List NArith ZArith Bool Lia Sorting.Permutation Sorting.Sorted.
From Verif Require Import PyVal PyValFacts RType Registry FromDict Quote QuoteFacts Url Settings Clients SpecUrl UrlFacts
  SettingsFacts SettingsMore ClientsFacts ClientsMore Dbapi Commands SpecCommands CommandsFacts Browse SpecBrowse BrowseRequest.
Import ListNotations.
Open Scope nat_scope.
Open Scope string_scope.
Open Scope list_scope.

(** *** Queries *)
Lemma flat_pick {V B} (f : string -> V -> list B) k (l : list (string * V)) : NoDup (map fst l) ->
  flat_map (fun x => if String.eqb (fst x) k then f (fst x) (snd x) else []) l
  = match dget k l with Some v => f k v | None => [] end.
Proof.
  induction l as [|[a v] l IH]; cbn; intros N; auto. inversion N as [|? ? N1 N2]; subst.
  rewrite (String.eqb_sym k a). destruct (String.eqb_spec a k) as [->|NE]; [|now apply IH].
  rewrite IH by auto. destruct (dget k l) eqn:E; [|apply app_nil_r].
  exfalso. apply N1. apply dget_In in E. now apply (in_map fst) in E.
Qed.

Lemma filter_flat {A B} (p : B -> bool) (f : A -> list B) l : filter p (flat_map f l) = flat_map (fun x => filter p (f x)) l.
Proof. induction l; cbn; auto. now rewrite filter_app, IHl. Qed.
Lemma map_flat {A B D} (g : B -> D) (f : A -> list B) l : map g (flat_map f l) = flat_map (fun x => map g (f x)) l.
Proof. induction l; cbn; auto. now rewrite map_app, IHl. Qed.
Lemma filter_const {A} (p : A -> bool) b l : (forall x, In x l -> p x = b) -> filter p l = if b then l else [].
Proof.
  induction l as [|x l IH]; cbn; intros H; [now destruct b|]. rewrite H by auto. rewrite IH by auto. now destruct b.
Qed.
Lemma flat_ext {A B} (f g : A -> list B) l : (forall x, In x l -> f x = g x) -> flat_map f l = flat_map g l.
Proof. induction l; cbn; intros H; auto. rewrite H, IHl; auto. Qed.

Lemma query_schemas cat ss : q_schemas (v_schemata cat ss) cat = map fst ss.
Proof.
  unfold q_schemas, v_schemata. rewrite (filter_const _ true).
  - rewrite map_map. reflexivity.
  - intros x I. apply in_map_iff in I as (s & <- & _). apply String.eqb_refl.
Qed.

Lemma query_tables cat ss s : NoDup (map fst ss) ->
  q_tables (v_tables cat ss) cat s = match dget s ss with Some ts => map fst ts | None => [] end.
Proof.
  intros N. unfold q_tables, v_tables. rewrite filter_flat, map_flat.
  rewrite <- (flat_pick (fun _ ts => map fst ts)) by auto. apply flat_ext. intros [n ts] _. cbn [fst snd].
  rewrite (filter_const _ (String.eqb n s)).
  - destruct (String.eqb n s); [|reflexivity]. rewrite map_map. reflexivity.
  - intros x I. apply in_map_iff in I as (t & <- & _). now rewrite String.eqb_refl.
Qed.

Definition by_position (cols : columns) : list column := map snd (sorted (fun x y => Z.leb (fst x) (fst y)) cols).

Lemma query_columns cat ss s t : NoDup (map fst ss) -> (forall ts, In (s, ts) ss -> NoDup (map fst ts)) ->
  q_columns (v_columns cat ss) cat s t
  = match dget s ss with
    | Some ts => match dget t ts with Some cols => by_position cols | None => [] end
    | None => []
    end.
Proof.
  intros N NT. unfold q_columns, v_columns, by_position.
  assert (E : map snd (filter (fun r : string * string * string * (Z * column) =>
       let '(c, s0, t0, _) := r in (String.eqb t0 t && String.eqb s0 s && String.eqb c cat)%bool)
       (flat_map (fun s0 : string * list (string * columns) =>
         flat_map (fun t0 => map (fun c => (cat, fst s0, fst t0, c)) (snd t0)) (snd s0)) ss))
     = match dget s ss with Some ts => match dget t ts with Some cols => cols | None => [] end | None => [] end).
  { rewrite filter_flat, map_flat.
    transitivity (match dget s ss with
      | Some ts => flat_map (fun x => if String.eqb (fst x) t then snd x else []) ts | None => [] end).
    - rewrite <- (@flat_pick (list (string * columns)) (Z * column)
        (fun _ ts => flat_map (fun x : string * columns => if String.eqb (fst x) t then snd x else []) ts)) by auto.
      apply flat_ext. intros [n ts] _. cbn [fst snd]. rewrite filter_flat, map_flat.
      destruct (String.eqb n s) eqn:ES.
      + apply flat_ext. intros [m cols] _. cbn [fst snd]. rewrite (filter_const _ (String.eqb m t)).
        * destruct (String.eqb m t); [|reflexivity]. rewrite map_map. cbn. apply map_id.
        * intros x I. apply in_map_iff in I as (c & <- & _). now rewrite ES, String.eqb_refl, !andb_true_r.
      + transitivity (flat_map (fun _ : string * columns => @nil (Z * column)) ts).
        * apply flat_ext. intros [m cols] _. cbn [fst snd]. rewrite (filter_const _ false); [reflexivity|].
          intros x I. apply in_map_iff in I as (c & <- & _). now rewrite ES, andb_false_r.
        * clear. induction ts; auto.
    - destruct (dget s ss) as [ts|] eqn:E; [|reflexivity].
      rewrite (@flat_pick columns (Z * column) (fun _ cols => cols)); [reflexivity|]. apply NT. now apply dget_In. }
  etransitivity; [apply f_equal, f_equal; exact E|].
  destruct (dget s ss) as [ts|]; [|reflexivity]. now destruct (dget t ts).
Qed.

(** *** Sorting *)
Lemma insert_perm {A} (b : A -> A -> bool) x l : Permutation (insert b x l) (x :: l).
Proof.
  induction l as [|y l IH]; cbn; auto. destruct (b x y); auto. rewrite IH. apply perm_swap.
Qed.
Lemma sorted_perm {A} (b : A -> A -> bool) l : Permutation (sorted b l) l.
Proof. induction l as [|x l IH]; cbn; auto. rewrite insert_perm. now constructor. Qed.

Notation lt_pos := (fun a b : Z * column => (fst a < fst b)%Z).
Lemma insert_sorted x (l : columns) : ~ In (fst x) (map fst l) -> StronglySorted lt_pos l ->
  StronglySorted lt_pos (insert (fun x y => Z.leb (fst x) (fst y)) x l).
Proof.
  induction l as [|y l IH]; cbn; intros N S; [repeat constructor|]. inversion S as [|? ? S1 S2]; subst.
  destruct (Z.leb_spec (fst x) (fst y)) as [L|L].
  - assert (L' : (fst x < fst y)%Z) by (assert (fst y <> fst x) by tauto; lia).
    constructor; auto. constructor; auto. apply Forall_impl with (2 := S2). intros a. lia.
  - constructor; [apply IH; tauto|]. rewrite Forall_forall in *. intros a I.
    apply (Permutation_in _ (insert_perm _ _ _)) in I. destruct I as [<-|I]; auto.
Qed.
Lemma position_order cols : NoDup (map fst cols) -> in_order cols (by_position cols).
Proof.
  intros N. exists (sorted (fun x y => Z.leb (fst x) (fst y)) cols). split; [apply sorted_perm|]. split; [|reflexivity].
  induction cols as [|x l IH]; cbn; [constructor|]. inversion N as [|? ? N1 N2]; subst. apply insert_sorted; auto.
  intros I. apply N1. apply in_map_iff in I as (y & <- & I). apply in_map. apply (Permutation_in _ (sorted_perm _ _) I).
Qed.

(** *** Trees *)
Lemma dget_map {V U} (f : V -> U) k (l : list (string * V)) :
  dget k (map (fun x => (fst x, f (snd x))) l) = option_map f (dget k l).
Proof. induction l as [|[a v] l IH]; cbn; auto. now destruct (String.eqb k a). Qed.
Lemma dget_schemas k ss : dget k (schema_trees ss) = option_map (fun ts => Branch (map (fun t => (fst t, Leaf (snd t))) ts)) (dget k ss).
Proof. apply (dget_map (fun ts => Branch (map (fun t : string * columns => (fst t, Leaf (snd t))) ts))). Qed.
Lemma fst_schemas ss : map fst (schema_trees ss) = map fst ss.
Proof. unfold schema_trees. rewrite map_map. reflexivity. Qed.

Lemma distinct_schemas ss : distinct (Branch (schema_trees ss)) ->
  NoDup (map fst ss) /\ (forall s ts, In (s, ts) ss -> NoDup (map fst ts))
  /\ (forall s ts t cols, In (s, ts) ss -> In (t, cols) ts -> NoDup (map fst cols)).
Proof.
  intros D. inversion D as [|? N F]; subst. rewrite fst_schemas in N. split; auto.
  assert (G : forall s ts, In (s, ts) ss -> distinct (Branch (map (fun t : string * columns => (fst t, Leaf (snd t))) ts))).
  { intros s ts I. apply (F s). unfold schema_trees. apply (in_map (fun s => (fst s, Branch (map (fun t : string * columns => (fst t, Leaf (snd t))) (snd s)))) _ _ I). }
  split.
  - intros s ts I. apply G in I. inversion I as [|? N' _]; subst. rewrite map_map in N'. exact N'.
  - intros s ts t cols I J. apply G in I. inversion I as [|? _ F']; subst.
    assert (L : distinct (Leaf cols)).
    { apply (F' t). apply (in_map (fun t : string * columns => (fst t, Leaf (snd t))) _ _ J). }
    now inversion L.
Qed.

(** What the queries return for names below the schemas of a catalog. *)
Lemma schemas_listed cat ss names ch : distinct (Branch (schema_trees ss)) ->
  below (Branch (schema_trees ss)) names = Some (Branch ch) ->
  match names with
  | [] => q_schemas (v_schemata cat ss) cat = map fst ch
  | [s] => q_tables (v_tables cat ss) cat s = map fst ch
  | _ => False
  end.
Proof.
  intros D B. destruct (distinct_schemas _ D) as (N & _ & _).
  destruct names as [|s [|t r]]; cbn [below] in B.
  - injection B as <-. now rewrite query_schemas, fst_schemas.
  - rewrite dget_schemas in B. rewrite query_tables by auto. destruct (dget s ss) as [ts|]; [|discriminate].
    injection B as <-. rewrite map_map. reflexivity.
  - rewrite dget_schemas in B. destruct (dget s ss) as [ts|]; [|discriminate]. cbn [option_map below] in B.
    rewrite (dget_map Leaf) in B. destruct (dget t ts); [|discriminate]. cbn in B. destruct r; discriminate.
Qed.
Lemma schemas_read cat ss names cols : distinct (Branch (schema_trees ss)) ->
  below (Branch (schema_trees ss)) names = Some (Leaf cols) ->
  match names with
  | [s; t] => in_order cols (q_columns (v_columns cat ss) cat s t)
  | _ => False
  end.
Proof.
  intros D B. destruct (distinct_schemas _ D) as (N & N' & N'').
  destruct names as [|s [|t r]]; cbn [below] in B.
  - discriminate.
  - rewrite dget_schemas in B. destruct (dget s ss) as [ts|]; discriminate.
  - rewrite dget_schemas in B. destruct (dget s ss) as [ts|] eqn:E; [|discriminate]. cbn [option_map below] in B.
    rewrite (dget_map Leaf) in B. destruct (dget t ts) as [cs|] eqn:E2; [|discriminate]. cbn in B.
    destruct r; [|discriminate]. injection B as ->.
    rewrite query_columns; auto; [|eauto]. rewrite E, E2. apply position_order.
    apply dget_In in E, E2. eauto.
Qed.

(** *** Databases *)
Section Db.
  Variables (ip : string -> bool) (margs : list string) (W : world).

  Lemma plain_none' q : q = "" -> plain_query q.
  Proof. intros -> k _ []. Qed.

  Lemma request_at c loc names urls strict method u args :
    db_client c -> located ip loc -> Forall plain_name names -> no_queries ip urls ->
    parse_url ip urls method (db_url c loc names) strict = Ok (u, args) ->
    exists conn kw, relational_parse method (mkSplit (db_scheme c) loc (below_url names) "" "") = Ok (conn, args)
      /\ request ip margs urls method (db_url c loc names) strict = Ok (c, kw, args)
      /\ (forall n r, names = n :: r -> dget (db_key c) kw = if str_in (db_key c) (db_allowed margs c) then Some (PStr n) else None)
      /\ (names = [] -> dget (db_key c) kw = None).
  Proof.
    intros C L F NQ H. pose proof (db_url_split ip c loc names L F) as E. destruct L as (_ & _ & _ & _ & HN & _).
    destruct (db_request ip margs urls method _ _ u args strict c C E) as ((conn & R) & kw & K1 & K2 & K3); auto.
    - apply plain_none'. reflexivity.
    - intros x t I X. apply plain_none'. exact (NQ x t I X).
    - cbn [u_path]. unfold first_seg. rewrite segs_below by auto. destruct names; [discriminate|].
      inversion F as [|? ? P _]; subst. apply P.
    - exists conn, kw. split; auto. split; auto. cbn [u_path u_query] in *.
      change segs with segments in *. rewrite (segs_below _ F) in *. split; auto.
  Qed.

  Lemma dbname_kept : str_in "dbname" psycopg2_args = true.
  Proof. reflexivity. Qed.

  Lemma pg_opened names kw : connectable Postgresql W names ->
    (forall n r, names = n :: r -> dget "dbname" kw = Some (PStr n)) -> (names = [] -> dget "dbname" kw = None) ->
    exists db, let name := match names with [] => w_pg_default W | n :: _ => n end in
      dget name (w_pg W) = Some db /\ pg_open (w_pg W) (w_pg_default W) kw = Ok (name, db).
  Proof.
    intros (db & D & O) K1 K2. exists db. cbn zeta. split; auto. unfold pg_open.
    destruct names as [|n r]; [rewrite K2 by auto|rewrite (K1 n r) by auto]; rewrite D, O; reflexivity.
  Qed.

  Lemma mysql_opened names kw t b : below (Branch (schema_trees (w_mysql W))) names = Some t ->
    (forall n r, names = n :: r -> dget "database" kw = if b : bool then Some (PStr n) else None) ->
    (names = [] -> dget "database" kw = None) -> mysql_open (w_mysql W) kw = Ok tt.
  Proof.
    intros B K1 K2. unfold mysql_open. destruct names as [|n r]; [now rewrite K2|]. rewrite (K1 n r) by auto.
    destruct b; [|reflexivity]. cbn in B. rewrite dget_schemas in B. unfold dmem.
    destruct (dget n (w_mysql W)); [reflexivity|discriminate].
  Qed.

  Lemma url_nonempty c loc names : nonempty (db_url c loc names) = true.
  Proof. destruct c; reflexivity. Qed.

  Theorem db_ls c loc names urls strict ch pa :
    db_client c -> located ip loc -> Forall plain_name names -> no_queries ip urls ->
    distinct (server_tree c W) -> connectable c W names ->
    below (server_tree c W) names = Some (Branch ch) ->
    parse_url ip urls "ls" (db_url c loc names) strict = Ok pa ->
    exists l, ls ip margs W urls (db_url c loc names) strict = Ok l /\ Permutation l (map fst ch).
  Proof.
    intros C L F NQ D CN B H. destruct pa as [u args].
    destruct (request_at _ _ _ _ _ _ _ _ C L F NQ H) as (conn & kw & RP & RQ & K1 & K2).
    unfold ls. rewrite url_nonempty, RQ. cbn [rbind].
    unfold relational_parse in RP. cbn [u_path u_scheme] in RP. rewrite segs_below in RP by auto.
    destruct C as [-> | ->]; cbn [db_scheme String.eqb Ascii.eqb Bool.eqb db_key db_allowed server_tree client_ls] in *.
    - rewrite dbname_kept in K1. destruct (pg_opened names kw CN K1 K2) as (db & DB & ->). cbn [rbind].
      destruct names as [|d r].
      + cbn in RP. injection RP as _ <-. cbn. eexists. split; [reflexivity|]. cbn [below] in B. injection B as <-.
        rewrite sorted_perm, map_map. reflexivity.
      + cbn [below] in B. rewrite (dget_map (fun db => Branch (schema_trees (db_schemas db)))) in B.
        rewrite DB in B. cbn [option_map] in B.
        assert (D' : distinct (Branch (schema_trees (db_schemas db)))).
        { inversion D as [|? _ G]; subst. apply (G d). apply dget_In in DB.
          apply (in_map (fun x => (fst x, Branch (schema_trees (db_schemas (snd x))))) _ _ DB). }
        pose proof (schemas_listed d _ _ _ D' B) as Q.
        destruct r as [|s [|t r]]; [| |contradiction]; cbn in RP; injection RP as _ <-; cbn [pg_ls arg nth];
          rewrite Q; eexists; split; reflexivity.
    - rewrite (mysql_opened names kw _ _ B K1 K2). cbn [rbind].
      pose proof (schemas_listed mysql_catalog _ _ _ D B) as Q.
      destruct names as [|s [|t r]]; [| |contradiction]; cbn in RP; injection RP as _ <-; unfold mysql_ls; cbn [arg nth];
        rewrite Q; eexists; split; reflexivity.
  Qed.

  Theorem db_fetch c loc names urls strict cols pa :
    db_client c -> located ip loc -> Forall plain_name names -> no_queries ip urls ->
    distinct (server_tree c W) -> connectable c W names ->
    below (server_tree c W) names = Some (Leaf cols) ->
    parse_url ip urls "schema" (db_url c loc names) strict = Ok pa ->
    exists rows, fetch ip margs W urls (db_url c loc names) strict = Ok (Rows rows) /\ in_order cols rows.
  Proof.
    intros C L F NQ D CN B H. destruct pa as [u args].
    destruct (request_at _ _ _ _ _ _ _ _ C L F NQ H) as (conn & kw & RP & RQ & K1 & K2).
    unfold fetch. rewrite RQ. cbn [rbind].
    unfold relational_parse in RP. cbn [u_path u_scheme] in RP. rewrite segs_below in RP by auto.
    destruct C as [-> | ->]; cbn [db_scheme String.eqb Ascii.eqb Bool.eqb db_key db_allowed server_tree client_fetch] in *.
    - rewrite dbname_kept in K1. destruct (pg_opened names kw CN K1 K2) as (db & DB & ->). cbn [rbind].
      destruct names as [|d r]; [discriminate|].
      cbn [below] in B. rewrite (dget_map (fun db => Branch (schema_trees (db_schemas db)))) in B.
      rewrite DB in B. cbn [option_map] in B.
      assert (D' : distinct (Branch (schema_trees (db_schemas db)))).
      { inversion D as [|? _ G]; subst. apply (G d). apply dget_In in DB.
        apply (in_map (fun x => (fst x, Branch (schema_trees (db_schemas (snd x))))) _ _ DB). }
      pose proof (schemas_read d _ _ _ D' B) as Q.
      destruct r as [|s [|t [|x r]]]; try contradiction. cbn in RP. injection RP as _ <-. cbn [pg_rows rbind].
      eexists. split; [reflexivity|exact Q].
    - rewrite (mysql_opened names kw _ _ B K1 K2). cbn [rbind].
      pose proof (schemas_read mysql_catalog _ _ _ D B) as Q.
      destruct names as [|s [|t [|x r]]]; try contradiction. cbn in RP. injection RP as _ <-. cbn [mysql_rows rbind].
      eexists. split; [reflexivity|exact Q].
  Qed.
End Db.

(** *** Files *)
Lemma plain_below names : names <> [] -> Forall plain_name names -> plain_path (below_url names).
Proof.
  intros N F. destruct names as [|n r]; [congruence|]. inversion F as [|? ? P _]; subst.
  destruct P as (P1 & _ & P3 & _). rewrite below_cons. split; [reflexivity|]. split.
  { destruct n as [|x n]; [congruence|]. cbn in P3. apply orb_false_elim in P3 as [P3 _].
    change (starts_slashes (String "/" (String x n ++ below_url r))) with (starts_slash (String x (n ++ below_url r))).
    rewrite starts_slash_cons. exact P3. }
  rewrite <- below_cons. split; [apply below_has; [discriminate|]; apply Forall_impl with (2 := F); intros ? X; apply X|].
  split; [apply below_has; [discriminate|]; apply Forall_impl with (2 := F); intros ? X; apply X|].
  apply below_clean; apply Forall_impl with (2 := F); intros ? X; apply X.
Qed.
Lemma parts_below names : Forall plain_name names -> path_parts (below_url names) = names.
Proof.
  intros F. rewrite <- (segs_below names F) at 2. unfold path_parts, segments.
  assert (G : forall l, Forall (fun x => x <> ".") (filter nonempty l) -> filter path_part l = filter nonempty l).
  { induction l as [|x l IH]; cbn; auto. intros H. unfold path_part at 1. destruct (nonempty x); [|auto].
    inversion H; subst. destruct (String.eqb_spec x "."); [congruence|]. cbn. f_equal. auto. }
  apply G. fold (segments (below_url names)). rewrite segs_below by auto.
  apply Forall_impl with (2 := F). intros x X. apply X.
Qed.
Lemma walk_entry names : Forall (fun n => n <> "..") names -> forall n m, entry n names = Some m -> walk n names = Ok m.
Proof.
  induction names as [|x r IH]; cbn; intros F n m E; [congruence|]. inversion F; subst.
  destruct (String.eqb_spec x ".."); [congruence|]. destruct n as [t|es]; [discriminate|].
  destruct (dget x es); [auto|discriminate].
Qed.
Lemma walk_nothing names : Forall (fun n => n <> "..") names -> forall n, entry n names = None ->
  exists e, walk n names = Err e /\ (e = FileNotFoundError \/ e = NotADirectoryError).
Proof.
  induction names as [|x r IH]; cbn; intros F n E; [discriminate|]. inversion F; subst.
  destruct (String.eqb_spec x ".."); [congruence|]. destruct n as [t|es]; [eauto|].
  destruct (dget x es); [auto|eauto].
Qed.

Section Files.
  Variables (ip : string -> bool) (margs : list string) (W : world).

  Lemma file_request_at names urls strict method : Forall plain_name names -> In (urls, strict) files_allowed ->
    request ip margs urls method (file_url names) strict
      = Ok (Filesystem, [("scheme", PStr "file")], [PStr (match names with [] => "//" | _ => below_url names ++ "/" end)%string]).
  Proof.
    intros F I. unfold file_url. destruct names as [|n r].
    - rewrite (file_request ip margs "/" _ urls strict method); auto. repeat split.
    - rewrite (file_request ip margs (below_url (n :: r)) _ urls strict method); auto. apply plain_below; [discriminate|auto].
  Qed.
  Lemma file_parts names : Forall plain_name names ->
    path_parts (match names with [] => "//" | _ => below_url names ++ "/" end)%string = names.
  Proof.
    intros F. destruct names as [|n r]; [reflexivity|]. now rewrite CommandsFacts.parts_slash, parts_below.
  Qed.

  Theorem files_ls names urls strict es : Forall plain_name names -> Forall (fun n => n <> "..") names ->
    In (urls, strict) files_allowed -> entry (w_root W) names = Some (Dir es) ->
    ls ip margs W urls (file_url names) strict = Ok (map fst es).
  Proof.
    intros F D I E. unfold ls. replace (nonempty (file_url names)) with true by reflexivity.
    rewrite file_request_at by auto. cbn [rbind client_ls]. unfold arg. cbn [dget String.eqb Ascii.eqb Bool.eqb nth].
    unfold fs_ls. rewrite file_parts by auto. now rewrite (walk_entry _ D _ _ E).
  Qed.
  Theorem files_fetch names urls strict t k : Forall plain_name names -> Forall (fun n => n <> "..") names -> names <> [] ->
    In (urls, strict) files_allowed -> entry (w_root W) names = Some (File t) -> file_of_kind k (below_url names) ->
    fetch ip margs W urls (file_url names) strict = Ok (Text k t).
  Proof.
    intros F D N I E K. unfold fetch. rewrite file_request_at by auto. cbn [rbind client_fetch].
    unfold arg. cbn [dget String.eqb Ascii.eqb Bool.eqb nth].
    unfold fs_text. rewrite file_parts by auto. rewrite (walk_entry _ D _ _ E).
    assert (X : file_kind (match names with [] => "//" | _ => below_url names ++ "/" end)%string = Ok k).
    { destruct names as [|n r]; [congruence|]. rewrite kind_slash. now apply file_kind_iff. }
    now rewrite X.
  Qed.
  Theorem files_absent names urls strict : Forall plain_name names -> Forall (fun n => n <> "..") names ->
    In (urls, strict) files_allowed -> entry (w_root W) names = None ->
    (exists e, ls ip margs W urls (file_url names) strict = Err e /\ (e = FileNotFoundError \/ e = NotADirectoryError))
    /\ exists e, fetch ip margs W urls (file_url names) strict = Err e
       /\ ((exists k, file_of_kind k (below_url names)) -> e = FileNotFoundError \/ e = NotADirectoryError).
  Proof.
    intros F D I E. destruct (walk_nothing _ D _ E) as (e & X & Y). split.
    - unfold ls. replace (nonempty (file_url names)) with true by reflexivity.
      rewrite file_request_at by auto. cbn [rbind client_ls]. unfold arg. cbn [dget String.eqb Ascii.eqb Bool.eqb nth].
      unfold fs_ls. rewrite file_parts by auto. rewrite X. cbn [rbind]. exists e. split; [reflexivity|exact Y].
    - unfold fetch. rewrite file_request_at by auto. cbn [rbind client_fetch].
      unfold arg. cbn [dget String.eqb Ascii.eqb Bool.eqb nth].
      unfold fs_text. rewrite file_parts by auto. rewrite X.
      destruct names as [|n r]; [discriminate|]. rewrite kind_slash.
      destruct (file_kind (below_url (n :: r))) as [k|e'] eqn:K; cbn [rbind].
      { exists e. split; [reflexivity|]. intros _. exact Y. }
      exists e'. split; [reflexivity|]. intros [k G]. apply file_kind_iff in G. congruence.
  Qed.
  Theorem files_wrong names urls strict : Forall plain_name names -> Forall (fun n => n <> "..") names ->
    In (urls, strict) files_allowed ->
    (forall t, entry (w_root W) names = Some (File t) -> ls ip margs W urls (file_url names) strict = Err NotADirectoryError)
    /\ (forall es, entry (w_root W) names = Some (Dir es) -> exists e, fetch ip margs W urls (file_url names) strict = Err e).
  Proof.
    intros F D I. split.
    - intros t E. unfold ls. replace (nonempty (file_url names)) with true by reflexivity.
      rewrite file_request_at by auto. cbn [rbind client_ls]. unfold arg. cbn [dget String.eqb Ascii.eqb Bool.eqb nth].
      unfold fs_ls. rewrite file_parts by auto. now rewrite (walk_entry _ D _ _ E).
    - intros es E. unfold fetch. rewrite file_request_at by auto. cbn [rbind client_fetch].
      unfold arg. cbn [dget String.eqb Ascii.eqb Bool.eqb nth].
      unfold fs_text. rewrite file_parts by auto. rewrite (walk_entry _ D _ _ E).
      destruct (file_kind _); cbn [rbind]; eauto.
  Qed.
End Files.

(** *** SQLite *)
Lemma substring_all s : String.substring 0 (String.length s) s = s.
Proof. induction s; cbn; congruence. Qed.
Lemma drop_prefix p s : drop_chars (String.length p) (p ++ s) = s.
Proof.
  unfold drop_chars. induction p as [|c p IH]; cbn [append String.length String.substring]; [|exact IH].
  rewrite Nat.sub_0_r. apply substring_all.
Qed.
Lemma below_relative names : names <> [] -> below_url names = ("/" ++ relative names)%string.
Proof.
  induction names as [|n r IH]; [congruence|]. intros _. rewrite below_cons. cbn [append]. f_equal.
  destruct r as [|m r]; [unfold below_url; cbn; apply app_nil_r'|]. rewrite IH by discriminate. reflexivity.
Qed.

Lemma sqlite_text names : names <> [] -> sqlite_url names = ("sqlite:///" ++ relative names)%string.
Proof. intros N. unfold sqlite_url. rewrite below_relative by auto. reflexivity. Qed.
Lemma sqlite_split ip names : Forall plain_name names ->
  urlsplit ip (sqlite_url names) = Ok (mkSplit "sqlite" "" (below_url names) "" "").
Proof.
  intros F. unfold sqlite_url. pose proof (urlsplit_build ip "sqlite" "" (below_url names) "" "") as U.
  change (tail "" "") with "" in U. rewrite app_nil_r' in U. cbn [append] in *. rewrite U; auto.
  - apply below_start.
  - apply below_has; [discriminate|]. apply Forall_impl with (2 := F). intros n N. apply N.
  - apply below_has; [discriminate|]. apply Forall_impl with (2 := F). intros n N. apply N.
  - apply below_clean. apply Forall_impl with (2 := F). intros n N. apply N.
Qed.
Lemma join_concat l : join "/" l = relative l.
Proof. unfold relative. induction l as [|x l IH]; [reflexivity|]. destruct l; [reflexivity|]. cbn [join String.concat] in *. now rewrite IH. Qed.
Lemma rmap_text l : rmap as_text (map PStr l) = Ok l.
Proof. induction l as [|x l IH]; cbn; auto. now rewrite IH. Qed.

Section Sqlite.
  Variables (ip : string -> bool) (margs : list string) (W : world).

  Lemma sqlite_dict names : Forall plain_name names ->
    exists d, url_to_dict ip (sqlite_url names) = Ok d
      /\ plain_dict None (mkSplit "sqlite" "" (below_url names) "" "") None (sqlite_url names) d.
  Proof.
    intros F. apply url_to_dict_plain; try reflexivity; [now apply sqlite_split|]. now apply plain_none'.
  Qed.
  Lemma sqlite_create names : names <> [] -> Forall plain_name names ->
    exists kw, create_client ip margs (sqlite_url names) = Ok (Sqlite, kw) /\ dget "database" kw = Some (PStr (relative names)).
  Proof.
    intros N F. destruct (sqlite_dict names F) as (d & D & P). unfold create_client. rewrite D. cbn [rbind].
    unfold client_of, text. rewrite (pd_scheme _ _ _ _ _ P). cbn [u_scheme rbind]. cbn [dget clients String.eqb Ascii.eqb Bool.eqb rbind create_args].
    unfold text. rewrite (pd_url _ _ _ _ _ P). cbn [rbind]. eexists. split; [reflexivity|].
    rewrite dget_keep. cbn [str_in existsb sqlite3_args String.eqb Ascii.eqb Bool.eqb orb].
    rewrite dget_dset. cbn [String.eqb Ascii.eqb Bool.eqb]. rewrite sqlite_text by auto.
    now rewrite (drop_prefix "sqlite:///").
  Qed.
  Lemma sqlite_unsafe names : Forall plain_name names -> unsafe_url ip [] (sqlite_url names) false = Ok (sqlite_url names).
  Proof. intros F. unfold unsafe_url. rewrite sqlite_split by auto. reflexivity. Qed.

  Theorem sqlite_ls_request names : names <> [] -> Forall plain_name names ->
    exists kw, request ip margs [] "ls" (sqlite_url names) false = Ok (Sqlite, kw, [])
      /\ dget "database" kw = Some (PStr (relative names)).
  Proof.
    intros N F. destruct (sqlite_create names N F) as (kw & K & D). exists kw. split; auto.
    destruct (sqlite_dict names F) as (d & DD & P). unfold request, parse_url. rewrite DD. cbn [rbind].
    unfold client_of, text. rewrite (pd_scheme _ _ _ _ _ P). cbn [u_scheme rbind]. cbn [dget clients String.eqb Ascii.eqb Bool.eqb rbind].
    unfold client_parse, dmem. rewrite (pd_method _ _ _ _ _ P). unfold sqlite_parse, text. cbn [String.eqb Ascii.eqb Bool.eqb].
    rewrite (pd_url _ _ _ _ _ P). cbn [rbind fst snd]. rewrite sqlite_unsafe by auto. cbn [rbind fst snd]. rewrite K. reflexivity.
  Qed.

  Theorem sqlite_schema_request names t : names <> [] -> Forall plain_name (names ++ [t]) ->
    exists kw, request ip margs [] "schema" (sqlite_url (names ++ [t])) false = Ok (Sqlite, kw, [PStr t])
      /\ dget "database" kw = Some (PStr (relative names)).
  Proof.
    intros N F. assert (F0 : Forall plain_name names) by (apply Forall_app in F; apply F).
    destruct (sqlite_create names N F0) as (kw & K & D). exists kw. split; auto.
    destruct (sqlite_dict _ F) as (d & DD & P). unfold request, parse_url. rewrite DD. cbn [rbind].
    unfold client_of, text. rewrite (pd_scheme _ _ _ _ _ P). cbn [u_scheme rbind]. cbn [dget clients String.eqb Ascii.eqb Bool.eqb rbind].
    unfold client_parse, dmem. rewrite (pd_method _ _ _ _ _ P). unfold sqlite_parse. cbn [String.eqb Ascii.eqb Bool.eqb].
    unfold paths_of. rewrite (pd_paths _ _ _ _ _ P). cbn [rbind u_path]. unfold seg_vals. rewrite segs_below by auto.
    unfold pop_last. rewrite map_app, rev_app_distr. cbn [map rev app rbind]. rewrite rev_involutive.
    unfold dialect_or_scheme, text. rewrite (pd_dialect _ _ _ _ _ P), (pd_scheme _ _ _ _ _ P). cbn [option_map rbind u_scheme].
    rewrite rmap_text. cbn [rbind]. unfold unparse, text.
    rewrite (pd_netloc _ _ _ _ _ P), (pd_params _ _ _ _ _ P), (pd_query _ _ _ _ _ P), (pd_fragment _ _ _ _ _ P).
    cbn [rbind u_netloc u_query u_fragment nonempty]. rewrite join_concat.
    assert (U : replace_colon ":///" (urlunsplit (mkSplit "sqlite" "" (relative names) "" "")) = sqlite_url names).
    { rewrite sqlite_text by auto. unfold urlunsplit. cbn [u_netloc u_scheme u_path u_query u_fragment nonempty].
      assert (SS : starts_slashes (relative names) = false).
      { destruct names as [|n r]; [congruence|]. inversion F0 as [|? ? X _]; subst. destruct X as (X1 & _ & X3 & _).
        destruct n as [|c n]; [congruence|]. cbn in X3. apply orb_false_elim in X3 as [X3 _].
        assert (G : exists z, relative (String c n :: r) = String c z) by (unfold relative; destruct r; cbn; eauto).
        destruct G as [z ->]. destruct c as [[] [] [] [] [] [] [] []]; reflexivity || discriminate. }
      rewrite SS. reflexivity. }
    rewrite U. cbn [fst snd]. rewrite sqlite_unsafe by auto. cbn [rbind fst snd]. rewrite K. reflexivity.
  Qed.

  Theorem sqlite_lists names d : names <> [] -> Forall plain_name names -> dget (relative names) (w_sqlite W) = Some d ->
    ls ip margs W [] (sqlite_url names) false = Ok (map fst d).
  Proof.
    intros N F D. destruct (sqlite_ls_request names N F) as (kw & K & Q). unfold ls.
    replace (nonempty (sqlite_url names)) with true by reflexivity. rewrite K. cbn [rbind client_ls].
    unfold sqlite_open. rewrite Q. cbn [rbind]. now rewrite D.
  Qed.
  Theorem sqlite_reads names t d rows : names <> [] -> Forall plain_name (names ++ [t]) -> sql_name t ->
    dget (relative names) (w_sqlite W) = Some d -> dget t d = Some rows ->
    fetch ip margs W [] (sqlite_url (names ++ [t])) false = Ok (Rows rows).
  Proof.
    intros N F [S1 S2] D T. destruct (sqlite_schema_request names t N F) as (kw & K & Q). unfold fetch.
    rewrite K. cbn [rbind client_fetch]. unfold sqlite_open. rewrite Q. cbn [rbind]. rewrite D.
    unfold sqlite_rows, dmem. rewrite T. unfold table_info. rewrite S1, T.
    destruct (str_in (lower t) sqlite_keywords) eqn:E; [|reflexivity]. apply str_in_In in E. contradiction.
  Qed.
  Theorem sqlite_absent names t : names <> [] -> Forall plain_name (names ++ [t]) ->
    (forall d, dget (relative names) (w_sqlite W) = Some d -> dget t d = None) ->
    fetch ip margs W [] (sqlite_url (names ++ [t])) false = Err ValueError.
  Proof.
    intros N F T. destruct (sqlite_schema_request names t N F) as (kw & K & Q). unfold fetch.
    rewrite K. cbn [rbind client_fetch]. unfold sqlite_open. rewrite Q. cbn [rbind].
    destruct (dget (relative names) (w_sqlite W)) as [d|]; [|reflexivity].
    unfold sqlite_rows, dmem. now rewrite (T d eq_refl).
  Qed.
  Theorem sqlite_new names : names <> [] -> Forall plain_name names -> dget (relative names) (w_sqlite W) = None ->
    ls ip margs W [] (sqlite_url names) false = Ok [].
  Proof.
    intros N F D. destruct (sqlite_ls_request names N F) as (kw & K & Q). unfold ls.
    replace (nonempty (sqlite_url names)) with true by reflexivity. rewrite K. cbn [rbind client_ls].
    unfold sqlite_open. rewrite Q. cbn [rbind]. now rewrite D.
  Qed.
End Sqlite.

(** *** Children *)
Lemma below_app t a b : below t (a ++ b) = match below t a with Some u => below u b | None => None end.
Proof.
  revert t. induction a as [|n a IH]; intros t; [reflexivity|]. cbn. destruct t; [reflexivity|].
  destruct (dget n children); [apply IH|reflexivity].
Qed.
Lemma below_distinct t names u : distinct t -> below t names = Some u -> distinct u.
Proof.
  revert t. induction names as [|n r IH]; cbn; intros t D B; [congruence|]. destruct t as [|ch]; [discriminate|].
  destruct (dget n ch) eqn:E; [|discriminate]. inversion D as [|? _ G]; subst. apply dget_In in E. eauto.
Qed.
Lemma below_child t names ch n : below t names = Some (Branch ch) -> In n (map fst ch) ->
  exists u, below t (names ++ [n]) = Some u.
Proof.
  intros B I. rewrite below_app, B. cbn.
  destruct (dget n ch) eqn:E; [eauto|]. exfalso. revert E I. clear. induction ch as [|[a v] ch IH]; cbn; [tauto|].
  destruct (String.eqb_spec n a); [discriminate|]. intros E [I|I]; [congruence|eauto].
Qed.

Lemma depth_branch c W names ch : db_client c -> below (server_tree c W) names = Some (Branch ch) ->
  List.length names <= match c with Postgresql => 2 | _ => 1 end.
Proof.
  assert (S : forall ss names ch, below (Branch (schema_trees ss)) names = Some (Branch ch) -> List.length names <= 1).
  { intros ss [|s [|t r]] ch' B; cbn; try lia. exfalso. cbn in B. rewrite dget_schemas in B.
    destruct (dget s ss) as [ts|]; [|discriminate]. cbn in B. rewrite (dget_map Leaf) in B.
    destruct (dget t ts); [|discriminate]. destruct r; discriminate. }
  intros [-> | ->]; cbn [server_tree].
  - destruct names as [|d r]; cbn; intros B; [lia|].
    rewrite (dget_map (fun db => Branch (schema_trees (db_schemas db)))) in B.
    destruct (dget d (w_pg W)); [|discriminate]. apply S in B. lia.
  - apply S.
Qed.
Lemma depth_leaf c W names cols : db_client c -> below (server_tree c W) names = Some (Leaf cols) ->
  List.length names = match c with Postgresql => 3 | _ => 2 end.
Proof.
  assert (S : forall ss names cols, below (Branch (schema_trees ss)) names = Some (Leaf cols) -> List.length names = 2).
  { intros ss [|s [|t r]] cs B; cbn in B; try discriminate.
    - rewrite dget_schemas in B. destruct (dget s ss); discriminate.
    - rewrite dget_schemas in B.
      destruct (dget s ss) as [ts|]; [|discriminate]. cbn in B. rewrite (dget_map Leaf) in B.
      destruct (dget t ts); [|discriminate]. destruct r; [reflexivity|discriminate]. }
  intros [-> | ->]; cbn [server_tree].
  - destruct names as [|d r]; cbn; intros B; [discriminate|].
    rewrite (dget_map (fun db => Branch (schema_trees (db_schemas db)))) in B.
    destruct (dget d (w_pg W)); [|discriminate]. apply S in B. lia.
  - apply S.
Qed.

Lemma located_nonempty ip loc : located ip loc -> nonempty loc = true.
Proof. intros (_ & _ & _ & _ & H & _). destruct loc; [now cbn in H|reflexivity]. Qed.

Section Open.
  Variables (ip : string -> bool) (margs : list string) (W : world).

  Lemma parse_loose c loc names method : db_client c -> located ip loc -> Forall plain_name names ->
    method = "ls" /\ (c = Postgresql -> List.length names <= 2)
    \/ method = "schema" /\ (match c with Postgresql => 3 | _ => 2 end) <= List.length names ->
    exists pa, parse_url ip [] method (db_url c loc names) false = Ok pa.
  Proof.
    intros C L F M. pose proof (db_url_split ip c loc names L F) as E. pose proof (located_nonempty _ _ L) as NE.
    destruct L as (_ & _ & _ & _ & _ & p & P).
    assert (SG : segs (below_url names) = names) by exact (segs_below names F).
    destruct C as [-> | ->].
    - destruct (relational_positions ip _ _ p E P NE (plain_none' _ eq_refl) ltac:(now left)) as (conn & r & _ & _ & _ & _ & _ & A & B).
      cbn [u_path] in *. rewrite SG in *. destruct M as [[-> M]|[-> M]].
      + apply Nat.leb_le in M; auto. rewrite M in A. eauto.
      + apply Nat.leb_le in M. rewrite M in B. eauto.
    - destruct (mysql_positions ip _ _ p E P NE (plain_none' _ eq_refl) eq_refl) as (conn & r & _ & _ & _ & _ & _ & A & B).
      cbn [u_path] in *. rewrite SG in *. destruct M as [[-> M]|[-> M]]; [eauto|].
      apply Nat.leb_le in M. rewrite M in B. eauto.
  Qed.

  Lemma no_queries_nil : no_queries ip [].
  Proof. intros x s []. Qed.

  (** Every listed name that can be written in a URL leads on. *)
  Theorem listed_opens c loc names l n :
    db_client c -> located ip loc -> Forall plain_name names -> distinct (server_tree c W) -> connectable c W names ->
    (exists ch, below (server_tree c W) names = Some (Branch ch)) ->
    ls ip margs W [] (db_url c loc names) false = Ok l -> In n l -> plain_name n -> connectable c W (names ++ [n]) ->
    exists child, below (server_tree c W) (names ++ [n]) = Some child
      /\ match child with
         | Branch ch => exists l', ls ip margs W [] (db_url c loc (names ++ [n])) false = Ok l' /\ Permutation l' (map fst ch)
         | Leaf cols => exists rows, fetch ip margs W [] (db_url c loc (names ++ [n])) false = Ok (Rows rows) /\ in_order cols rows
         end.
  Proof.
    intros C L F D CN (ch & B) H I N CN'.
    destruct (parse_loose c loc names "ls" C L F) as (pa & PA).
    { left. split; auto. intros ->. exact (depth_branch _ _ _ _ C B). }
    destruct (db_ls ip margs W c loc names [] false ch pa C L F no_queries_nil D CN B PA) as (l0 & H0 & PM).
    rewrite H in H0. injection H0 as <-.
    assert (I' : In n (map fst ch)) by (apply (Permutation_in _ PM I)).
    destruct (below_child _ _ _ _ B I') as (u & BU).
    assert (F' : Forall plain_name (names ++ [n])) by (apply Forall_app; split; auto).
    exists u. split; auto. destruct u as [cols|ch'].
    - pose proof (depth_leaf _ _ _ _ C BU) as DL.
      destruct (parse_loose c loc (names ++ [n]) "schema" C L F') as (pb & PB); [right; split; auto; destruct c; lia|].
      eapply db_fetch; eauto using no_queries_nil.
    - pose proof (depth_branch _ _ _ _ C BU) as DL.
      destruct (parse_loose c loc (names ++ [n]) "ls" C L F') as (pb & PB); [left; split; auto; intros ->; auto|].
      eapply db_ls; eauto using no_queries_nil.
  Qed.

  (** A database that is closed is listed and cannot be opened. *)
  Theorem closed_listed loc d db : located ip loc -> plain_name d -> distinct (server_tree Postgresql W) ->
    connectable Postgresql W [] -> dget d (w_pg W) = Some db -> db_open db = false ->
    (exists l, ls ip margs W [] (db_url Postgresql loc []) false = Ok l /\ In d l)
    /\ ls ip margs W [] (db_url Postgresql loc [d]) false = Err KeyError.
  Proof.
    intros L N D CN E O. assert (C : db_client Postgresql) by now left. split.
    - destruct (parse_loose Postgresql loc [] "ls" C L (Forall_nil _)) as (pa & PA); [left; split; cbn; auto|].
      destruct (db_ls ip margs W Postgresql loc [] [] false _ pa C L (Forall_nil _) no_queries_nil D CN eq_refl PA) as (l & H & P).
      exists l. split; auto. apply (Permutation_in _ (Permutation_sym P)). rewrite map_map. apply dget_In in E.
      apply (in_map fst _ _ E).
    - assert (F : Forall plain_name [d]) by auto.
      destruct (parse_loose Postgresql loc [d] "ls" C L F) as ([u args] & PA); [left; split; cbn; auto|].
      destruct (request_at ip margs _ _ _ _ _ _ _ _ C L F no_queries_nil PA) as (conn & kw & RP & RQ & K1 & _).
      unfold ls. rewrite url_nonempty, RQ. cbn [rbind client_ls]. specialize (K1 d [] eq_refl). cbn [db_key db_allowed] in K1.
      rewrite dbname_kept in K1. unfold pg_open. rewrite K1, E, O. reflexivity.
  Qed.

  (** A table that does not exist has no columns. *)
  Theorem absent_table c loc names t ch : db_client c -> located ip loc -> Forall plain_name (names ++ [t]) ->
    distinct (server_tree c W) -> connectable c W (names ++ [t]) ->
    List.length names = (match c with Postgresql => 2 | _ => 1 end) ->
    below (server_tree c W) names = Some (Branch ch) -> dget t ch = None ->
    fetch ip margs W [] (db_url c loc (names ++ [t])) false = Ok (Rows []).
  Proof.
    intros C L F D CN LN B N.
    destruct (parse_loose c loc (names ++ [t]) "schema" C L F) as ([u args] & PA).
    { right. split; auto. rewrite app_length. cbn. destruct c; lia. }
    destruct (request_at ip margs _ _ _ _ _ _ _ _ C L F no_queries_nil PA) as (conn & kw & RP & RQ & K1 & K2).
    unfold fetch. rewrite RQ. cbn [rbind].
    unfold relational_parse in RP. cbn [u_path u_scheme] in RP. rewrite segs_below in RP by auto.
    destruct C as [-> | ->]; cbn [db_scheme String.eqb Ascii.eqb Bool.eqb db_key db_allowed server_tree client_fetch] in *.
    - destruct names as [|d [|s [|]]]; try discriminate. cbn [app] in *.
      rewrite dbname_kept in K1. destruct (pg_opened W (d :: [s; t]) kw CN K1 K2) as (db & DB & ->). cbn [rbind].
      cbn in RP. injection RP as _ <-. cbn [pg_rows rbind].
      cbn [below] in B. rewrite (dget_map (fun db => Branch (schema_trees (db_schemas db)))) in B.
      rewrite DB in B. cbn [option_map] in B.
      assert (D' : distinct (Branch (schema_trees (db_schemas db)))).
      { inversion D as [|? _ G]; subst. apply (G d). apply dget_In in DB.
        apply (in_map (fun x => (fst x, Branch (schema_trees (db_schemas (snd x))))) _ _ DB). }
      destruct (distinct_schemas _ D') as (N1 & N2 & _). rewrite query_columns; eauto.
      rewrite dget_schemas in B. destruct (dget s (db_schemas db)) as [ts|] eqn:ES; [|discriminate].
      injection B as <-. rewrite (dget_map Leaf) in N. destruct (dget t ts); [discriminate|]. reflexivity.
    - destruct names as [|s [|]]; try discriminate. cbn [app] in *.
      cbn in RP. injection RP as _ <-. cbn [mysql_rows].
      destruct (distinct_schemas _ D) as (N1 & N2 & _). rewrite query_columns; eauto.
      cbn [below] in B. rewrite dget_schemas in B. destruct (dget s (w_mysql W)) as [ts|] eqn:ES; [|discriminate].
      injection B as <-. rewrite (dget_map Leaf) in N. destruct (dget t ts); [discriminate|].
      assert (OP : mysql_open (w_mysql W) kw = Ok tt).
      { unfold mysql_open. rewrite (K1 s [t] eq_refl). destruct (str_in _ _); [|reflexivity]. unfold dmem. now rewrite ES. }
      now rewrite OP.
  Qed.

  (** The connector is never told which database a Snowflake URL names. *)
  Theorem snowflake_database urls method url strict s kw args :
    urlsplit ip url = Ok s -> u_scheme s = "snowflake" -> hostname (u_netloc s) <> None -> u_query s = "" -> no_queries ip urls ->
    first_seg (u_path s) <> "." ->
    request ip margs urls method url strict = Ok (Snowflake, kw, args) -> dget "database" kw = None.
  Proof.
    intros E SC HN Q NQ ND H.
    assert (R : relational s) by (unfold relational; rewrite SC; cbn; auto).
    pose proof (urlsplit_well _ _ _ E) as WS. pose proof (plain_none' _ Q) as PQ.
    assert (NE : nonempty (u_netloc s) = true) by (destruct (u_netloc s); [now cbn in HN|reflexivity]).
    unfold request in H. destruct (parse_url ip urls method url strict) as [[u a]|] eqn:PU; [|discriminate]. cbn [rbind fst snd] in H.
    assert (PP : exists p, port (u_netloc s) = Ok p).
    { unfold parse_url in PU. destruct (url_to_dict ip url) as [d0|] eqn:D0; cbn [rbind] in PU; [|discriminate].
      exact (url_dict_port _ _ _ _ E D0). }
    destruct PP as [p P]. rewrite (parse_url_relational _ _ _ _ _ _ _ E P PQ R) in PU.
    destruct (relational_parse method s) as [[conn a']|] eqn:RP; cbn [rbind fst snd] in PU; [|discriminate].
    destruct (unsafe_url ip urls conn strict) as [u'|] eqn:UU; cbn [rbind] in PU; [|discriminate].
    injection PU; intros; subst u' a'. clear PU. apply relational_first in RP. subst conn.
    pose proof (conn_url_split ip s WS R NE) as CS.
    set (inp := mkSplit (u_scheme s) (u_netloc s) _ (u_query s) (u_fragment s)) in CS.
    destruct (first_seg_facts _ _ WS) as (_ & _ & _ & F4).
    destruct (final_url ip urls _ inp strict u CS) as (f & Ef & Sf & Qf & Hf & Pf & Gf & Zf); auto.
    { cbn. rewrite SC. discriminate. }
    { cbn. destruct (nonempty (first_seg (u_path s))) eqn:N; [right|left; reflexivity].
      exists (first_seg (u_path s)). repeat split; auto. intros Z. rewrite Z in N. discriminate. }
    { intros x t I X. apply plain_none'. exact (NQ x t I X). }
    assert (Sf' : u_scheme f = "snowflake") by (rewrite Sf; exact SC).
    destruct (url_to_dict_plain ip u f p Ef) as (d & DE & D); auto; try (rewrite Sf'; reflexivity).
    { rewrite Pf. exact P. }
    unfold create_client in H. rewrite DE in H. cbn [rbind] in H. unfold client_of, text in H.
    rewrite (pd_scheme _ _ _ _ _ D), Sf' in H. cbn [rbind] in H.
    cbn [dget clients String.eqb Ascii.eqb Bool.eqb rbind create_args] in H.
    rewrite (pd_host _ _ _ _ _ D), (pd_paths _ _ _ _ _ D) in H. rewrite Hf in H. cbn [u_netloc inp] in H.
    destruct (hostname (u_netloc s)) as [h|]; [|congruence]. cbn [option_map rbind] in H.
    assert (LE : match seg_vals (u_path f) with [PStr _; PStr _] => False | _ => True end).
    { unfold seg_vals. rewrite Gf. unfold inp. cbn [u_path]. destruct (nonempty (first_seg (u_path s))); [|exact Logic.I].
      cbn [append]. unfold segments. rewrite split_cons_sep. cbn [filter nonempty]. rewrite split_plain by auto. cbn [filter].
      destruct (nonempty (first_seg (u_path s))); exact Logic.I. }
    assert (DN : dget "database" d = None).
    { apply (dict_noquery _ _ _ _ _ Ef); auto; try (rewrite Sf'; reflexivity).
      cbn; intros Z; repeat destruct Z as [Z|Z]; try discriminate; contradiction. }
    destruct (arity Snowflake method) as [lo hi].
    assert (KW : kw = dupd [("account", PStr h)] (ddel "host" d)).
    { destruct (Nat.leb lo (List.length a) && Nat.leb (List.length a) hi)%bool; [|discriminate].
      injection H as H _. destruct (seg_vals (u_path f)) as [|x [|y [|z r]]]; try now subst.
      - destruct x; now subst.
      - destruct x, y; try contradiction; now subst.
      - destruct x, y; now subst. }
    rewrite KW. rewrite dget_dupd_notin; [reflexivity|].
    intros I. assert (K : dget "database" (ddel "host" d) = None) by (rewrite dget_ddel; cbn; exact DN).
    revert I K. generalize (ddel "host" d). clear. intros l. unfold dkeys. induction l as [|[k v] l IH]; cbn [map fst dget In]; [tauto|].
    destruct (String.eqb_spec "database" k); [discriminate|]. intros [I|I]; [congruence|auto].
  Qed.
End Open.
