(** Vocabulary of the browsing properties (C98-C100), independent of recap/clients: a server as a
    tree of named things, the URL of a thing in it, and the columns of a table in order. *)
From Coq Require Import String Ascii List NArith ZArith Bool Sorting.Permutation Sorting.Sorted.
From Verif Require Import PyVal Url SpecUrl Clients Dbapi Browse.
Import ListNotations.
Open Scope nat_scope.
Open Scope string_scope.
Open Scope list_scope.

(** ** Trees *)
Inductive tree :=
| Leaf (cols : columns)
| Branch (children : list (string * tree)).

(** What [names] lead to. *)
Fixpoint below (t : tree) (names : list string) : option tree :=
  match names with
  | [] => Some t
  | n :: r =>
      match t with
      | Leaf _ => None
      | Branch ch => match dget n ch with Some c => below c r | None => None end
      end
  end.

(** Siblings have different names, columns different positions. *)
Inductive distinct : tree -> Prop :=
| d_leaf cols : NoDup (map fst cols) -> distinct (Leaf cols)
| d_branch ch : NoDup (map fst ch) -> (forall n c, In (n, c) ch -> distinct c) -> distinct (Branch ch).

Definition schema_trees (ss : schemas) : list (string * tree) :=
  map (fun s => (fst s, Branch (map (fun t => (fst t, Leaf (snd t))) (snd s)))) ss.
(** PostgreSQL: databases, schemas, tables.  MySQL: schemas, tables. *)
Definition server_tree (c : client) (W : world) : tree :=
  match c with
  | Postgresql => Branch (map (fun d => (fst d, Branch (schema_trees (db_schemas (snd d))))) (w_pg W))
  | _ => Branch (schema_trees (w_mysql W))
  end.

(** The rows of a table by ascending position. *)
Definition in_order (cols : columns) (rows : list column) : Prop :=
  exists l, Permutation l cols /\ StronglySorted (fun a b => (fst a < fst b)%Z) l /\ rows = map snd l.

(** A PostgreSQL database that accepts connections; for the root, the user's own database. *)
Definition connectable (c : client) (W : world) (names : list string) : Prop :=
  match c with
  | Postgresql =>
      exists db, dget (match names with [] => w_pg_default W | n :: _ => n end) (w_pg W) = Some db
        /\ db_open db = true
  | _ => True
  end.

(** ** URLs *)
(** A name that can be written in a URL path as it is. *)
Definition plain_name (n : string) : Prop :=
  n <> "" /\ n <> "." /\ has "/" n = false /\ has "?" n = false /\ has "#" n = false /\ clean n = true.

Definition below_url (names : list string) : string :=
  String.concat "" (map (fun n => "/" ++ n)%string names).
Definition db_scheme (c : client) : string :=
  match c with Postgresql => "postgresql" | _ => "mysql" end.
(** scheme://location/name/name *)
Definition db_url (c : client) (loc : string) (names : list string) : string :=
  (db_scheme c ++ "://" ++ loc ++ below_url names)%string.

(** A network location with a host and a legal port, that a URL may contain. *)
Definition located (ip : string -> bool) (loc : string) : Prop :=
  no_end loc = true /\ is_ascii loc = true /\ clean loc = true /\ check_brackets ip loc = Ok tt
  /\ hostname loc <> None /\ exists p, port loc = Ok p.

(** Configured URLs have no query. *)
Definition no_queries (ip : string -> bool) (urls : list string) : Prop :=
  forall x s, In x urls -> urlsplit ip x = Ok s -> u_query s = "".

(** ** Files *)
Fixpoint entry (n : node) (names : list string) : option node :=
  match names with
  | [] => Some n
  | x :: r =>
      match n with
      | File _ => None
      | Dir es => match dget x es with Some c => entry c r | None => None end
      end
  end.
(** file:///name/name *)
Definition file_url (names : list string) : string :=
  ("file://" ++ match names with [] => "/" | _ => below_url names end)%string.

(** ** SQLite *)
(** sqlite:///name/name *)
Definition sqlite_url (names : list string) : string := ("sqlite://" ++ below_url names)%string.
(** The relative path that such a URL names. *)
Definition relative (names : list string) : string := String.concat "/" names.
(** A name that SQL takes as it is. *)
Definition sql_name (t : string) : Prop := is_ident t = true /\ ~ In (lower t) sqlite_keywords.
