(** What the clients return: the [ls] and [schema] methods of recap/clients/dbapi.py, mysql.py,
    postgresql.py, sqlite.py and fs.py, as recap/commands.py:28-41 and 58-60 call them, over a
    database server, a directory of SQLite files and a file system.
    Simplifications: there is one server of each kind (where connections go is C31); it shows the
    user everything that is in it; text comparison in SQL is exact; names are ordered by their bytes;
    a row of a query is the dictionary that dbapi.py:104-108 makes of it; the joins of
    postgresql.py:90-124 find one attribute for each column; errors of the database drivers are
    [KeyError], syntax errors in SQL are [ValueError].  Elsewhere: BigQuery and
    Snowflake (Warehouse.v).  Not modelled: Hive (its requests fail: C58), and file systems other than "file". *)
From Coq Require Import String Ascii List NArith ZArith Bool.
From Verif Require Import PyVal RType Registry FromDict Url Settings Clients Dbapi Commands.
Import ListNotations.
Open Scope nat_scope.
Open Scope string_scope.
Open Scope list_scope.

(** ** Servers *)
(** The columns of a table: ordinal_position and the row of information_schema.columns. *)
Definition columns := list (Z * column).
(** The schemas of a database with their tables. *)
Definition schemas := list (string * list (string * columns)).
(** A PostgreSQL database; not every database accepts connections (pg_database.datallowconn). *)
Record database := mkDb { db_open : bool; db_schemas : schemas }.

(** The rows of information_schema.schemata, tables and columns for a catalog (dbapi.py:69,81,94). *)
Definition v_schemata (cat : string) (ss : schemas) : list (string * string) :=
  map (fun s => (cat, fst s)) ss.
Definition v_tables (cat : string) (ss : schemas) : list (string * string * string) :=
  flat_map (fun s => map (fun t => (cat, fst s, fst t)) (snd s)) ss.
Definition v_columns (cat : string) (ss : schemas) : list (string * string * string * (Z * column)) :=
  flat_map (fun s => flat_map (fun t => map (fun c => (cat, fst s, fst t, c)) (snd t)) (snd s)) ss.

(** ORDER BY: a stable insertion sort. *)
Section Sort.
  Context {A : Type}.
  Variable before : A -> A -> bool.
  Fixpoint insert (x : A) (l : list A) : list A :=
    match l with
    | [] => [x]
    | y :: r => if before x y then x :: l else y :: insert x r
    end.
  Definition sorted (l : list A) : list A := fold_right insert [] l.
End Sort.

(** dbapi.py:63-73 *)
Definition q_schemas (rows : list (string * string)) (catalog : string) : list string :=
  map snd (filter (fun r => String.eqb (fst r) catalog) rows).
(** dbapi.py:75-86 *)
Definition q_tables (rows : list (string * string * string)) (catalog schema : string) : list string :=
  map snd (filter (fun r => let '(c, s, _) := r in (String.eqb c catalog && String.eqb s schema)%bool) rows).
(** dbapi.py:88-108 *)
Definition q_columns (rows : list (string * string * string * (Z * column)))
    (catalog schema table : string) : list column :=
  map snd (sorted (fun x y => Z.leb (fst x) (fst y))
    (map snd (filter (fun r => let '(c, s, t, _) := r in
       (String.eqb t table && String.eqb s schema && String.eqb c catalog)%bool) rows))).

(** Positional arguments default to None (dbapi.py:41, mysql.py:61). *)
Definition arg (n : nat) (args : list pyval) : pyval := nth n args PNone.

(** ** PostgreSQL *)
(** psycopg2.connect(dbname=...), postgresql.py:71; without dbname the server's default for the
    user.  A connection sees the information schema of its own database only. *)
Definition pg_open (S : list (string * database)) (dflt : string) (kw : dict) : res (string * database) :=
  let name := match dget "dbname" kw with Some (PStr n) => n | _ => dflt end in
  match dget name S with
  | Some db => if db_open db then Ok (name, db) else Err KeyError
  | None => Err KeyError
  end.
(** dbapi.py:41-50 with postgresql.py:75-83 *)
Definition pg_ls (S : list (string * database)) (conn : string * database) (args : list pyval)
    : res (list string) :=
  let '(name, db) := conn in
  match arg 0 args, arg 1 args with
  | PNone, PNone => Ok (sorted String.leb (map fst S))
  | PStr c, PNone => Ok (q_schemas (v_schemata name (db_schemas db)) c)
  | PStr c, PStr s => Ok (q_tables (v_tables name (db_schemas db)) c s)
  | _, _ => Err ValueError
  end.
(** postgresql.py:85-126 *)
Definition pg_rows (conn : string * database) (args : list pyval) : res (list column) :=
  let '(name, db) := conn in
  match args with
  | [PStr c; PStr s; PStr t] => Ok (q_columns (v_columns name (db_schemas db)) c s t)
  | _ => Err KeyError
  end.

(** ** MySQL *)
(** MYSQL_CATALOG_NAME, mysql.py:10 *)
Definition mysql_catalog := "def".
(** mysql.connector.connect(database=...), mysql.py:31; the information schema covers all schemas. *)
Definition mysql_open (S : schemas) (kw : dict) : res unit :=
  match dget "database" kw with
  | Some (PStr n) => if dmem n S then Ok tt else Err KeyError
  | _ => Ok tt
  end.
(** mysql.py:61-68 *)
Definition mysql_ls (S : schemas) (args : list pyval) : res (list string) :=
  match arg 0 args with
  | PNone => Ok (q_schemas (v_schemata mysql_catalog S) mysql_catalog)
  | PStr s => Ok (q_tables (v_tables mysql_catalog S) mysql_catalog s)
  | _ => Err ValueError
  end.
(** mysql.py:70-71 *)
Definition mysql_rows (S : schemas) (args : list pyval) : res (list column) :=
  match args with
  | [PStr s; PStr t] => Ok (q_columns (v_columns mysql_catalog S) mysql_catalog s t)
  | _ => Err KeyError
  end.

(** ** SQLite *)
(** The SQLite files by the text they are opened with; opening another one creates an empty
    database.  A database is its tables with the rows of PRAGMA table_info. *)
Definition sqlite_files := list (string * list (string * list column)).
(** sqlite3.connect(database=...), sqlite.py:38 *)
Definition sqlite_open (F : sqlite_files) (kw : dict) : res (list (string * list column)) :=
  match dget "database" kw with
  | Some (PStr n) => Ok (match dget n F with Some d => d | None => [] end)
  | _ => Err TypeError
  end.
(** sqlite.py:75-78 *)
Definition sqlite_ls (d : list (string * list column)) : list string := map fst d.

(** The argument of PRAGMA table_info({table}), sqlite.py:88: the name is not quoted.  A word is
    looked up (a keyword is not a word); two words are a syntax error; other texts are not modelled. *)
Definition word_start (c : ascii) : bool := (is_word c && negb (is_digit c))%bool.
Definition is_ident (s : string) : bool :=
  match s with EmptyString => false | String c r => (word_start c && all_chars is_word r)%bool end.
(** The keywords that SQLite 3.46 does not accept as this argument (sqlite.py:88). *)
Definition sqlite_keywords : list string :=
  ["add"; "all"; "alter"; "and"; "as"; "autoincrement"; "between"; "case"; "check"; "collate";
   "commit"; "constraint"; "create"; "deferrable"; "distinct"; "drop"; "else"; "escape"; "except";
   "exists"; "foreign"; "from"; "group"; "having"; "in"; "index"; "insert"; "intersect"; "into";
   "is"; "isnull"; "join"; "limit"; "not"; "nothing"; "notnull"; "null"; "or"; "order"; "primary";
   "references"; "returning"; "select"; "set"; "table"; "then"; "to"; "transaction"; "union";
   "unique"; "update"; "using"; "values"; "when"; "where"].
Definition table_info (d : list (string * list column)) (name : string) : res (list column) :=
  if is_ident name then
    if str_in (lower name) sqlite_keywords then Err ValueError
    else match dget name d with Some rows => Ok rows | None => Ok [] end
  else if (forallb is_ident (split " " name))%bool then Err ValueError
  else Err Unmodelled.
(** sqlite.py:80-97 up to the conversion (Dbapi.sqlite_schema), and 143-148 *)
Definition sqlite_rows (d : list (string * list column)) (args : list pyval) : res (list column) :=
  match args with
  | [PStr t] => if dmem t d then table_info d t else Err ValueError
  | _ => Err ValueError
  end.

(** ** Files *)
Inductive node :=
| File (text : pyval)
| Dir (entries : list (string * node)).
(** Opening a path: the parts of pathlib from the root on; ".." is not modelled. *)
Fixpoint walk (n : node) (parts : list string) : res node :=
  match parts with
  | [] => Ok n
  | p :: r =>
      if String.eqb p ".." then Err Unmodelled
      else match n with
           | File _ => Err NotADirectoryError
           | Dir es =>
               match dget p es with
               | Some c => walk c r
               | None => Err FileNotFoundError
               end
           end
  end.
(** fs.py:34-36 *)
Definition fs_ls (root : node) (path : string) : res (list string) :=
  rbind (walk root (path_parts path)) (fun n =>
    match n with Dir es => Ok (map fst es) | File _ => Err NotADirectoryError end).
(** fs.py:43-64, the converter and the text it is given *)
Definition fs_text (root : node) (path : string) : res (kind * pyval) :=
  rbind (file_kind path) (fun k =>
  rbind (walk root (path_parts path)) (fun n =>
    match n with File t => Ok (k, t) | Dir _ => Err IsADirectoryError end)).

(** ** Commands *)
Record world := mkWorld {
  w_pg : list (string * database);
  w_pg_default : string;
  w_mysql : schemas;
  w_sqlite : sqlite_files;
  w_root : node }.

(** What [client.schema] reads before it converts it. *)
Inductive fetched := Rows (rows : list column) | Text (k : kind) (text : pyval).

(** The conversion of the rows: dbapi.py:105, postgresql.py:123, sqlite.py:97 *)
Definition db_schema (c : client) (rows : list column) : M rtype :=
  match c with
  | Postgresql => pg_read rows
  | Mysql => to_recap (pure mysql_type) rows
  | Snowflake => to_recap (pure snowflake_type) rows
  | Sqlite => sqlite_schema rows
  | _ => fail Unmodelled
  end.

Section Run.
  Variables (ip : string -> bool) (margs : list string) (W : world).

  (** client.ls after create_client *)
  Definition client_ls (c : client) (kw : dict) (args : list pyval) : res (list string) :=
    match c with
    | Postgresql => rbind (pg_open (w_pg W) (w_pg_default W) kw) (fun conn => pg_ls (w_pg W) conn args)
    | Mysql => rbind (mysql_open (w_mysql W) kw) (fun _ => mysql_ls (w_mysql W) args)
    | Sqlite => rbind (sqlite_open (w_sqlite W) kw) (fun d => Ok (sqlite_ls d))
    | Filesystem =>
        match dget "scheme" kw, arg 0 args with
        | Some (PStr "file"), PStr p => fs_ls (w_root W) p
        | _, _ => Err Unmodelled
        end
    | _ => Err Unmodelled
    end.
  (** client.schema after create_client *)
  Definition client_fetch (c : client) (kw : dict) (args : list pyval) : res fetched :=
    match c with
    | Postgresql => rbind (pg_open (w_pg W) (w_pg_default W) kw) (fun conn =>
        rbind (pg_rows conn args) (fun r => Ok (Rows r)))
    | Mysql => rbind (mysql_open (w_mysql W) kw) (fun _ =>
        rbind (mysql_rows (w_mysql W) args) (fun r => Ok (Rows r)))
    | Sqlite => rbind (sqlite_open (w_sqlite W) kw) (fun d =>
        rbind (sqlite_rows d args) (fun r => Ok (Rows r)))
    | Filesystem =>
        match dget "scheme" kw, arg 0 args with
        | Some (PStr "file"), PStr p => rbind (fs_text (w_root W) p) (fun kt => Ok (Text (fst kt) (snd kt)))
        | _, _ => Err Unmodelled
        end
    | _ => Err Unmodelled
    end.

  (** commands.py:28-41: without a URL the configured ones are listed *)
  Definition ls (urls : list string) (url : string) (strict : bool) : res (list string) :=
    if nonempty url then
      rbind (request ip margs urls "ls" url strict) (fun r =>
        let '(c, kw, args) := r in client_ls c kw args)
    else safe_urls ip urls.
  (** commands.py:58-60 *)
  Definition fetch (urls : list string) (url : string) (strict : bool) : res fetched :=
    rbind (request ip margs urls "schema" url strict) (fun r =>
      let '(c, kw, args) := r in client_fetch c kw args).
End Run.
