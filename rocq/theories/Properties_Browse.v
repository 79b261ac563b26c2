(** C98-C100: browsing database servers, SQLite files and directories. *)
From Coq Require Import String Ascii List NArith ZArith Bool Sorting.Permutation Sorting.Sorted Lia.
From Verif Require Import PyVal RType Registry FromDict Url Settings Clients SpecUrl UrlFacts ClientsFacts Dbapi Commands SpecCommands
  Browse SpecBrowse BrowseRequest BrowseFacts.
Import ListNotations.
Open Scope nat_scope.
Open Scope string_scope.
Open Scope list_scope.

(** ** Examples *)
Definition no_ip6 : string -> bool := fun _ => false.
Definition my_args : list string := ["host"; "port"; "user"; "password"; "database"].
Definition col (n : string) : column := [("COLUMN_NAME", PStr n)].
Definition sales : schemas :=
  [("public", [("orders", [(2%Z, col "total"); (1%Z, col "id")]); ("a", [(1%Z, col "x")]); ("a/b", [(1%Z, col "y")])]);
   ("empty", [])].
Definition here : world :=
  mkWorld [("sales", mkDb true sales); ("template0", mkDb false []); ("me", mkDb true [])] "me" sales
    [("data/app.db", [("users", [col "id"; col "name"]); ("order", [col "id"]); ("order items", [col "n"])])]
    (Dir [("data", Dir [("user.avsc", File (PStr "text")); ("a?b.avsc", File (PStr "other"))]); ("tmp", Dir [])]).

Lemma located_here : located no_ip6 "u:p@db:5432".
Proof. repeat split; try reflexivity; [discriminate|]. eexists. reflexivity. Qed.
Lemma plain_example : Forall plain_name ["sales"; "public"; "orders"; "template0"; "data"; "app.db"; "users"; "missing"].
Proof. repeat constructor; try discriminate. Qed.
Lemma sales_distinct : distinct (Branch (schema_trees sales)).
Proof.
  repeat (constructor || (intros ? ? I; cbn in I; repeat destruct I as [I|I]; try contradiction; injection I as <- <-));
    cbn; intuition congruence.
Qed.
Lemma here_distinct c : c = Postgresql \/ c = Mysql -> distinct (server_tree c here).
Proof.
  intros [-> | ->]; [|exact sales_distinct]. constructor.
  - repeat constructor; cbn; intuition congruence.
  - intros n c I. cbn [map here w_pg fst snd] in I. destruct I as [I|[I|[I|[]]]]; injection I as <- <-; [exact sales_distinct| |];
      (constructor; [constructor|intros ? ? []]).
Qed.

(** ** C98 *)
(** PostgreSQL and MySQL, in strict mode or not: what [ls] returns are the names of what is there,
    and [schema] is given the columns of the table in order. *)
Theorem C98_listed_partial : forall ip margs W c loc names urls strict ch pa,
  c = Postgresql \/ c = Mysql -> located ip loc -> Forall plain_name names -> no_queries ip urls ->
  distinct (server_tree c W) -> connectable c W names ->
  below (server_tree c W) names = Some (Branch ch) ->
  parse_url ip urls "ls" (db_url c loc names) strict = Ok pa ->
  exists l, ls ip margs W urls (db_url c loc names) strict = Ok l /\ Permutation l (map fst ch).
Proof. exact db_ls. Qed.
Print Assumptions C98_listed_partial.

Theorem C98_read_partial : forall ip margs W c loc names urls strict cols pa,
  c = Postgresql \/ c = Mysql -> located ip loc -> Forall plain_name names -> no_queries ip urls ->
  distinct (server_tree c W) -> connectable c W names ->
  below (server_tree c W) names = Some (Leaf cols) ->
  parse_url ip urls "schema" (db_url c loc names) strict = Ok pa ->
  exists rows, fetch ip margs W urls (db_url c loc names) strict = Ok (Rows rows) /\ in_order cols rows.
Proof. exact db_fetch. Qed.
Print Assumptions C98_read_partial.

(** So a listed name can be appended to the URL. *)
Theorem C98_opens_partial : forall ip margs W c loc names l n,
  c = Postgresql \/ c = Mysql -> located ip loc -> Forall plain_name names ->
  distinct (server_tree c W) -> connectable c W names ->
  (exists ch, below (server_tree c W) names = Some (Branch ch)) ->
  ls ip margs W [] (db_url c loc names) false = Ok l -> In n l ->
  plain_name n -> connectable c W (names ++ [n]) ->
  exists child, below (server_tree c W) (names ++ [n]) = Some child
    /\ match child with
       | Branch ch => exists l', ls ip margs W [] (db_url c loc (names ++ [n])) false = Ok l' /\ Permutation l' (map fst ch)
       | Leaf cols => exists rows, fetch ip margs W [] (db_url c loc (names ++ [n])) false = Ok (Rows rows) /\ in_order cols rows
       end.
Proof. exact listed_opens. Qed.
Print Assumptions C98_opens_partial.

(** SQLite files with a relative path. *)
Theorem C98_sqlite_partial : forall ip margs W names d,
  names <> [] -> Forall plain_name names -> dget (relative names) (w_sqlite W) = Some d ->
  ls ip margs W [] (sqlite_url names) false = Ok (map fst d)
  /\ forall t rows, plain_name t -> sql_name t -> dget t d = Some rows ->
     fetch ip margs W [] (sqlite_url (names ++ [t])) false = Ok (Rows rows).
Proof.
  intros ip margs W names d N F D. split; [now apply sqlite_lists|].
  intros t rows P S T. eapply sqlite_reads; eauto. apply Forall_app. auto.
Qed.
Print Assumptions C98_sqlite_partial.

(** Directories and schema files. *)
Theorem C98_files_partial : forall ip margs W names urls strict,
  Forall plain_name names -> Forall (fun n => n <> "..") names -> In (urls, strict) files_allowed ->
  (forall es, entry (w_root W) names = Some (Dir es) -> ls ip margs W urls (file_url names) strict = Ok (map fst es))
  /\ (forall t k, names <> [] -> entry (w_root W) names = Some (File t) -> file_of_kind k (below_url names) ->
      fetch ip margs W urls (file_url names) strict = Ok (Text k t)).
Proof.
  intros ip margs W names urls strict F D I. split; intros.
  - now apply files_ls.
  - eapply files_fetch; eauto.
Qed.
Print Assumptions C98_files_partial.

(** False: PostgreSQL lists the databases that accept no connection (template0 always is one). *)
Theorem C98_closed_refuted : forall ip margs W loc d db,
  located ip loc -> plain_name d -> distinct (server_tree Postgresql W) -> connectable Postgresql W [] ->
  dget d (w_pg W) = Some db -> db_open db = false ->
  (exists l, ls ip margs W [] (db_url Postgresql loc []) false = Ok l /\ In d l)
  /\ ls ip margs W [] (db_url Postgresql loc [d]) false = Err KeyError.
Proof. exact closed_listed. Qed.
Print Assumptions C98_closed_refuted.

(** False: a name with a slash leads to another table, one with a question mark to another file, and
    a SQLite table whose name has to be quoted is listed but cannot be read. *)
Theorem C98_names_refuted :
  (exists l, ls no_ip6 my_args here [] "mysql://db/public" false = Ok l /\ In "a/b" l)
  /\ fetch no_ip6 my_args here [] "mysql://db/public/a/b" false = Ok (Rows [col "x"])
  /\ ls no_ip6 my_args here [] "file:///data" false = Ok ["user.avsc"; "a?b.avsc"]
  /\ fetch no_ip6 my_args here [] "file:///data/a?b.avsc" false = Err ValueError
  /\ ls no_ip6 my_args here [] "sqlite:///data/app.db" false = Ok ["users"; "order"; "order items"]
  /\ fetch no_ip6 my_args here [] "sqlite:///data/app.db/order" false = Err ValueError
  /\ fetch no_ip6 my_args here [] "sqlite:///data/app.db/order items" false = Err ValueError.
Proof.
  split; [eexists; split; [vm_compute; reflexivity|cbn; auto]|]. repeat split; vm_compute; reflexivity.
Qed.
Print Assumptions C98_names_refuted.

Example C98_example :
  below (server_tree Postgresql here) ["sales"; "public"; "orders"] = Some (Leaf [(2%Z, col "total"); (1%Z, col "id")])
  /\ connectable Postgresql here ["sales"; "public"; "orders"] /\ connectable Postgresql here []
  /\ db_url Postgresql "u:p@db:5432" ["sales"; "public"; "orders"] = "postgresql://u:p@db:5432/sales/public/orders"
  /\ ls no_ip6 my_args here [] "postgresql://u:p@db:5432" false = Ok ["me"; "sales"; "template0"]
  /\ ls no_ip6 my_args here ["postgresql://u:p@db:5432/sales"] "postgresql://db:5432/sales" true = Ok ["public"; "empty"]
  /\ fetch no_ip6 my_args here [] "postgresql://u:p@db:5432/sales/public/orders" false = Ok (Rows [col "id"; col "total"])
  /\ fetch no_ip6 my_args here [] "sqlite:///data/app.db/users" false = Ok (Rows [col "id"; col "name"])
  /\ fetch no_ip6 my_args here ["file:///"] "file:///data/user.avsc" true = Ok (Text KAvro (PStr "text")).
Proof.
  split; [reflexivity|]. split; [eexists; split; reflexivity|]. split; [eexists; split; reflexivity|].
  repeat split; vm_compute; reflexivity.
Qed.

(** ** C99 *)
Theorem C99_named_database_partial : forall ip margs urls method url strict s n r c kw args,
  urlsplit ip url = Ok s -> c = Postgresql /\ u_scheme s = "postgresql" \/ c = Mysql /\ u_scheme s = "mysql" ->
  hostname (u_netloc s) <> None -> plain_query (u_query s) ->
  (forall x t, In x urls -> urlsplit ip x = Ok t -> plain_query (u_query t)) ->
  segs (u_path s) = n :: r -> n <> "." -> In "database" margs ->
  request ip margs urls method url strict = Ok (c, kw, args) ->
  dget (match c with Postgresql => "dbname" | _ => "database" end) kw = Some (PStr n).
Proof.
  intros ip margs urls method url strict s n r c kw args E C HN Q QC SG ND DB H.
  assert (C' : db_client c) by (unfold db_client; tauto).
  assert (SC : u_scheme s = db_scheme c) by (destruct C as [[-> ?]|[-> ?]]; auto).
  assert (P : exists pa, parse_url ip urls method url strict = Ok pa).
  { unfold request in H. destruct (parse_url ip urls method url strict) as [pa|]; [eauto|discriminate]. }
  destruct P as ([u a] & P).
  assert (FS : first_seg (u_path s) <> ".").
  { unfold first_seg. change (segments (u_path s)) with (segs (u_path s)). now rewrite SG. }
  destruct (db_request ip margs urls method url s u a strict c C' E SC HN Q QC FS P) as (_ & kw' & K & K1 & _).
  rewrite K in H. injection H as <- <-. specialize (K1 n r SG).
  assert (IN : str_in (db_key c) (db_allowed margs c) = true).
  { destruct C as [[-> _]|[-> _]]; [reflexivity|]. cbn [db_key db_allowed]. now apply CommandsFacts.str_in_In. }
  rewrite IN in K1. destruct C as [[-> _]|[-> _]]; exact K1.
Qed.
Print Assumptions C99_named_database_partial.

(** SQLite files with a relative path: [ls] and [schema] open the same file. *)
Theorem C99_sqlite_partial : forall ip margs names, names <> [] -> Forall plain_name names ->
  (exists kw, request ip margs [] "ls" (sqlite_url names) false = Ok (Sqlite, kw, [])
     /\ dget "database" kw = Some (PStr (relative names)))
  /\ forall t, plain_name t -> exists kw, request ip margs [] "schema" (sqlite_url (names ++ [t])) false = Ok (Sqlite, kw, [PStr t])
     /\ dget "database" kw = Some (PStr (relative names)).
Proof.
  intros ip margs names N F. split; [now apply sqlite_ls_request|].
  intros t P. apply sqlite_schema_request; auto. apply Forall_app. auto.
Qed.
Print Assumptions C99_sqlite_partial.

(** False: no Snowflake request says which database its URL names. *)
Theorem C99_snowflake_refuted : forall ip margs urls method url strict s kw args,
  urlsplit ip url = Ok s -> u_scheme s = "snowflake" -> hostname (u_netloc s) <> None -> u_query s = "" ->
  no_queries ip urls -> first_seg (u_path s) <> "." ->
  request ip margs urls method url strict = Ok (Snowflake, kw, args) -> dget "database" kw = None.
Proof. exact snowflake_database. Qed.
Print Assumptions C99_snowflake_refuted.

(** False: for an absolute path [schema] opens a relative one, and a query is taken for a part of
    the file name. *)
Theorem C99_sqlite_refuted : forall ip margs,
  (exists kw, request ip margs [] "ls" "sqlite:////data/app.db" false = Ok (Sqlite, kw, [])
     /\ dget "database" kw = Some (PStr "/data/app.db"))
  /\ (exists kw, request ip margs [] "schema" "sqlite:////data/app.db/users" false = Ok (Sqlite, kw, [PStr "users"])
     /\ dget "database" kw = Some (PStr "data/app.db"))
  /\ (exists kw, request ip margs [] "ls" "sqlite:///app.db?timeout=5" false = Ok (Sqlite, kw, [])
     /\ dget "database" kw = Some (PStr "app.db?timeout=5")).
Proof. intros ip margs. repeat split; eexists; split; reflexivity. Qed.
Print Assumptions C99_sqlite_refuted.

Example C99_example :
  (exists kw, request no_ip6 my_args [] "schema" "mysql://db/shop/orders" false = Ok (Mysql, kw, [PStr "shop"; PStr "orders"])
     /\ dget "database" kw = Some (PStr "shop"))
  /\ (exists kw, request no_ip6 my_args ["postgresql://u:p@db/sales"] "ls" "postgresql://db/sales/public?sslmode=require" true
        = Ok (Postgresql, kw, [PStr "sales"; PStr "public"]) /\ dget "dbname" kw = Some (PStr "sales"))
  /\ (exists kw, request no_ip6 my_args [] "ls" "snowflake://acc/sales/public" false
        = Ok (Snowflake, kw, [PStr "sales"; PStr "public"]) /\ dget "database" kw = None).
Proof. repeat split; eexists; split; vm_compute; reflexivity. Qed.

(** ** C100 *)
Theorem C100_absent_partial : forall ip margs W names t,
  names <> [] -> Forall plain_name (names ++ [t]) ->
  (forall d, dget (relative names) (w_sqlite W) = Some d -> dget t d = None) ->
  fetch ip margs W [] (sqlite_url (names ++ [t])) false = Err ValueError.
Proof. exact sqlite_absent. Qed.
Print Assumptions C100_absent_partial.

(** Files that are not there fail, and so do listing a file and reading a directory. *)
Theorem C100_files_partial : forall ip margs W names urls strict,
  Forall plain_name names -> Forall (fun n => n <> "..") names -> In (urls, strict) files_allowed ->
  (entry (w_root W) names = None ->
     (exists e, ls ip margs W urls (file_url names) strict = Err e /\ (e = FileNotFoundError \/ e = NotADirectoryError))
     /\ exists e, fetch ip margs W urls (file_url names) strict = Err e
        /\ ((exists k, file_of_kind k (below_url names)) -> e = FileNotFoundError \/ e = NotADirectoryError))
  /\ (forall t, entry (w_root W) names = Some (File t) -> ls ip margs W urls (file_url names) strict = Err NotADirectoryError)
  /\ (forall es, entry (w_root W) names = Some (Dir es) -> exists e, fetch ip margs W urls (file_url names) strict = Err e).
Proof.
  intros ip margs W names urls strict F D I. split; [intros E; now apply files_absent|]. now apply files_wrong.
Qed.
Print Assumptions C100_files_partial.

(** False: the tables of a SQLite file that is not there are listed: there are none. *)
Theorem C100_listed_refuted : forall ip margs W names,
  names <> [] -> Forall plain_name names -> dget (relative names) (w_sqlite W) = None ->
  ls ip margs W [] (sqlite_url names) false = Ok [].
Proof. exact sqlite_new. Qed.
Print Assumptions C100_listed_refuted.

(** False: a table that is not there is read as a struct without fields. *)
Theorem C100_absent_refuted : forall ip margs W c loc names t ch R,
  c = Postgresql \/ c = Mysql -> located ip loc -> Forall plain_name (names ++ [t]) ->
  distinct (server_tree c W) -> connectable c W (names ++ [t]) ->
  List.length names = (match c with Postgresql => 2 | _ => 1 end) ->
  below (server_tree c W) names = Some (Branch ch) -> dget t ch = None ->
  fetch ip margs W [] (db_url c loc (names ++ [t])) false = Ok (Rows [])
  /\ db_schema c [] R = (R, Ok (TStruct c0 [])).
Proof.
  intros ip margs W c loc names t ch R C L F D CN LN B N. split; [eapply absent_table; eauto|].
  destruct C as [-> | ->]; reflexivity.
Qed.
Print Assumptions C100_absent_refuted.

Example C100_example :
  fetch no_ip6 my_args here [] "sqlite:///data/app.db/missing" false = Err ValueError
  /\ fetch no_ip6 my_args here [] "sqlite:///data/missing.db/users" false = Err ValueError
  /\ ls no_ip6 my_args here [] "sqlite:///data/missing.db" false = Ok []
  /\ fetch no_ip6 my_args here [] "file:///data/missing.avsc" false = Err FileNotFoundError
  /\ fetch no_ip6 my_args here [] "file:///data/user.avsc/missing.avsc" false = Err NotADirectoryError
  /\ ls no_ip6 my_args here [] "file:///data/user.avsc" false = Err NotADirectoryError
  /\ below (server_tree Postgresql here) ["sales"; "public"; "missing"] = None
  /\ fetch no_ip6 my_args here [] "postgresql://db/sales/public/missing" false = Ok (Rows [])
  /\ fetch no_ip6 my_args here [] "postgresql://db/missing/public/orders" false = Err KeyError.
Proof. repeat split; vm_compute; reflexivity. Qed.
