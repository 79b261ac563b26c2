(** What the Snowflake and BigQuery clients return: the [ls] and [schema] methods of
    recap/clients/dbapi.py (as recap/clients/snowflake.py inherits them) and recap/clients/bigquery.py,
    as recap/commands.py:28-41 and 58-60 call them.
    Simplifications: as in Browse.v.  In Snowflake the information schema belongs to the current
    database of the session; a session without one cannot query it.  Naming a database that does not
    exist leaves the session without one.  The errors of both services are [KeyError].  Not
    modelled: the Hive client, whose requests all fail (C58). *)
From Coq Require Import String Ascii List NArith ZArith Bool.
From Verif Require Import PyVal RType Registry Url Settings Clients Dbapi Commands BigQuery Browse.
Import ListNotations.
Open Scope nat_scope.
Open Scope string_scope.
Open Scope list_scope.

(** ** Snowflake *)
(** The databases of an account, and the database of a session that names none (the default
    namespace of the user). *)
Record account := mkAccount { ac_databases : list (string * schemas); ac_default : option string }.

(** snowflake.connector.connect(...), snowflake.py:28: the current database of the session *)
Definition sf_session (A : account) (kw : dict) : option (string * schemas) :=
  let named n := match dget n (ac_databases A) with Some ss => Some (n, ss) | None => None end in
  match dget "database" kw with
  | Some (PStr n) => named n
  | _ => match ac_default A with Some n => named n | None => None end
  end.
(** dbapi.py:41-86 with snowflake.py:31-40 *)
Definition sf_ls (A : account) (session : option (string * schemas)) (args : list pyval) : res (list string) :=
  let query l := match session with Some cur => Ok (l cur) | None => Err KeyError end in
  match arg 0 args, arg 1 args with
  | PNone, PNone => query (fun _ => sorted String.leb (map fst (ac_databases A)))
  | PStr c, PNone => query (fun cur => q_schemas (v_schemata (fst cur) (snd cur)) c)
  | PStr c, PStr s => query (fun cur => q_tables (v_tables (fst cur) (snd cur)) c s)
  | _, _ => Err ValueError
  end.
(** dbapi.py:88-108 *)
Definition sf_rows (session : option (string * schemas)) (args : list pyval) : res (list column) :=
  match args, session with
  | [PStr c; PStr s; PStr t], Some cur => Ok (q_columns (v_columns (fst cur) (snd cur)) c s t)
  | _, _ => Err KeyError
  end.

(** ** BigQuery *)
(** Projects, datasets and tables, with the fields of the tables. *)
Definition bq_projects := list (string * list (string * list (string * list bq_field))).
(** bigquery.py:32-51 *)
Definition bq_ls (P : bq_projects) (args : list pyval) : res (list string) :=
  match arg 0 args, arg 1 args with
  | PNone, PNone => Ok (map fst P)
  | PStr p, PNone => match dget p P with Some ds => Ok (map fst ds) | None => Err KeyError end
  | PStr p, PStr d =>
      match dget p P with
      | Some ds => match dget d ds with Some ts => Ok (map fst ts) | None => Err KeyError end
      | None => Err KeyError
      end
  | _, _ => Err ValueError
  end.
(** bigquery.py:53-55: what the table is made of; the client refuses names that are None (a missing
    project is the one of the client, which is not modelled). *)
Definition bq_table (P : bq_projects) (args : list pyval) : res (list bq_field) :=
  match args with
  | [PStr p; PStr d; PStr t] =>
      match dget p P with
      | Some ds =>
          match dget d ds with
          | Some ts => match dget t ts with Some fs => Ok fs | None => Err KeyError end
          | None => Err KeyError
          end
      | None => Err KeyError
      end
  | [PNone; PStr _; PStr _] => Err Unmodelled
  | _ => Err ValueError
  end.

(** ** Commands *)
Section Run.
  Variables (ip : string -> bool) (margs : list string) (A : account) (P : bq_projects).

  (** commands.py:39-41 *)
  Definition wh_ls (urls : list string) (url : string) (strict : bool) : res (list string) :=
    rbind (request ip margs urls "ls" url strict) (fun r =>
      let '(c, kw, args) := r in
      match c with
      | Snowflake => sf_ls A (sf_session A kw) args
      | BigQuery => bq_ls P args
      | _ => Err Unmodelled
      end).
  (** commands.py:58-60 with dbapi.py:105 and bigquery.py:56 *)
  Definition wh_schema (urls : list string) (url : string) (strict : bool) : M rtype :=
    match request ip margs urls "schema" url strict with
    | Ok (Snowflake, kw, args) =>
        match sf_rows (sf_session A kw) args with Ok rows => db_schema Snowflake rows | Err e => fail e end
    | Ok (BigQuery, kw, args) =>
        match rbind (bq_table P args) bq_to_recap with Ok t => fun R => (R, Ok t) | Err e => fail e end
    | Ok _ => fail Unmodelled
    | Err e => fail e
    end.
End Run.
