(** recap/clients/__init__.py (URL dictionary, client lookup), the [parse] and [create]
    argument handling of every client, and the way recap/commands.py uses them.

    Not modelled: the database connectors behind [create] (what is modelled is the keyword
    arguments they are called with) and the query results of the clients. *)
From Coq Require Import String Ascii List NArith ZArith Bool.
From Verif Require Import PyVal Quote Url Settings.
Import ListNotations.
Open Scope nat_scope.
Open Scope string_scope.
Open Scope list_scope.

Notation dict := (list (string * pyval)).

(** str.replace(old, new): every occurrence of a non-empty [old], left to right. *)
Fixpoint strip_prefix (p s : string) : option string :=
  match p, s with
  | EmptyString, _ => Some s
  | String a p', String b s' => if Ascii.eqb a b then strip_prefix p' s' else None
  | String _ _, EmptyString => None
  end.
Fixpoint replace_fuel (n : nat) (old new s : string) : string :=
  match n with
  | O => s
  | S n' =>
      match strip_prefix old s with
      | Some r => (new ++ replace_fuel n' old new r)%string
      | None =>
          match s with
          | EmptyString => EmptyString
          | String c r => String c (replace_fuel n' old new r)
          end
      end
  end.
Definition replace_all (old new s : string) : string :=
  replace_fuel (S (String.length s)) old new s.

Definition opt_str (o : option string) : pyval :=
  match o with Some s => PStr s | None => PNone end.
Definition opt_int (o : option N) : pyval :=
  match o with Some n => PInt (Z.of_N n) | None => PNone end.

(** clients/__init__.py:121: [path for path in path.split("/") if path] *)
Definition segments (path : string) : list string := filter nonempty (split "/" path).

(** clients/__init__.py:124-126: a single value is unwrapped from its list. *)
Definition unwrap (vs : list string) : pyval :=
  match vs with
  | [v] => PStr v
  | _ => PList (map PStr vs)
  end.
Definition query_dict (q : string) : dict :=
  map (fun kv => (fst kv, unwrap (snd kv))) (parse_qs q).

(** The client classes of CLIENTS (clients/__init__.py:12-24). *)
Inductive client :=
| Filesystem | BigQuery | Confluent | Mysql | Postgresql | Snowflake | Sqlite | Hive.

Definition clients : list (string * client) :=
  [("", Filesystem); ("file", Filesystem); ("bigquery", BigQuery); ("http+csr", Confluent);
   ("https+csr", Confluent); ("mysql", Mysql); ("postgresql", Postgresql);
   ("snowflake", Snowflake); ("sqlite", Sqlite); ("thrift+hms", Hive)].

(** PSYCOPG2_CONNECT_ARGS (clients/postgresql.py:10-48) *)
Definition psycopg2_args : list string :=
  ["host"; "hostaddr"; "port"; "dbname"; "user"; "password"; "passfile"; "channel_binding";
   "connect_timeout"; "client_encoding"; "options"; "application_name";
   "fallback_application_name"; "keepalives"; "keepalives_idle"; "keepalives_interval";
   "keepalives_count"; "tcp_user_timeout"; "replication"; "gssencmode"; "sslmode"; "requiressl";
   "sslcompression"; "sslcert"; "sslkey"; "sslpassword"; "sslrootcert"; "sslcrl"; "sslcrldir";
   "sslsni"; "requirepeer"; "ssl_min_protocol_version"; "ssl_max_protocol_version"; "krbsrvname";
   "gsslib"; "service"; "target_session_attrs"].
(** SQLITE3_CONNECT_ARGS (clients/sqlite.py:11-20) *)
Definition sqlite3_args : list string :=
  ["database"; "timeout"; "detect_types"; "isolation_level"; "check_same_thread"; "factory";
   "cached_statements"; "uri"].
(** ALLOWED_ATTRS (clients/confluent_registry.py:10-16) *)
Definition confluent_args : list string :=
  ["url"; "ssl.ca.location"; "ssl.key.location"; "ssl.certificate.location";
   "basic.auth.user.info"].

Definition keep (allowed : list string) (d : dict) : dict :=
  filter (fun kv => str_in (fst kv) allowed) d.

(** A dictionary entry used as text; a repeated query parameter gives a list, which the
    callers reject with a TypeError. *)
Definition text (k : string) (d : dict) : res string :=
  match dget k d with
  | Some (PStr s) => Ok s
  | _ => Err TypeError
  end.

(** urlunparse([scheme, netloc, path, params, query, fragment]) with the entries of [d]. *)
Definition unparse (scheme path : string) (d : dict) : res string :=
  rbind (text "netloc" d) (fun netloc =>
  rbind (text "params" d) (fun params =>
  rbind (text "query" d) (fun query =>
  rbind (text "fragment" d) (fun fragment =>
    let path := if nonempty params then (path ++ ";" ++ params)%string else path in
    Ok (urlunsplit (mkSplit scheme netloc path query fragment)))))).

Definition or_none (o : option pyval) : pyval := match o with Some v => v | None => PNone end.

(** The list of path segments; a query parameter "paths" replaces it with a string, which has
    no pop(). *)
Definition paths_of (d : dict) : res (list pyval) :=
  match dget "paths" d with
  | Some (PList l) => Ok l
  | None => Ok []
  | _ => Err AttributeError
  end.

(** [x or ""] as text *)
Definition or_empty (v : pyval) : res string :=
  if truthy v then match v with PStr s => Ok s | _ => Err TypeError end else Ok "".

(** clients/dbapi.py:15-39 *)
Definition dbapi_parse (method : string) (d : dict) : res (string * list pyval) :=
  rbind (paths_of d) (fun paths =>
    let catalog := or_none (nth_error paths 0) in
    let schema := or_none (nth_error paths 1) in
    let table := or_none (nth_error paths 2) in
    rbind (text "scheme" d) (fun scheme =>
    rbind (or_empty catalog) (fun path =>
    rbind (unparse scheme path d) (fun url =>
      if String.eqb method "ls" && negb (truthy table) then Ok (url, [catalog; schema])
      else if String.eqb method "schema" && truthy catalog && truthy schema && truthy table
      then Ok (url, [catalog; schema; table])
      else Err ValueError)))).

(** clients/mysql.py:36-59 *)
Definition mysql_parse (method : string) (d : dict) : res (string * list pyval) :=
  rbind (paths_of d) (fun paths =>
    let schema := or_none (nth_error paths 0) in
    let table := or_none (nth_error paths 1) in
    rbind (text "scheme" d) (fun scheme =>
    rbind (or_empty schema) (fun path =>
    rbind (unparse scheme path d) (fun url =>
      if String.eqb method "ls" then Ok (url, [schema])
      else if String.eqb method "schema" && truthy schema && truthy table
      then Ok (url, [schema; table])
      else Err ValueError)))).

(** clients/bigquery.py:23-30 *)
Definition bigquery_parse (method : string) (d : dict) : res (string * list pyval) :=
  match dget "paths" d with
  | Some (PList paths) =>
      if String.eqb method "ls" || String.eqb method "schema"
      then Ok ("bigquery://", firstn 3 (paths ++ [PNone; PNone; PNone]))
      else Err ValueError
  | _ => Err TypeError
  end.

(** paths.pop(-1) *)
Definition pop_last (l : list pyval) : res (list pyval * pyval) :=
  match rev l with
  | [] => Err IndexError
  | x :: r => Ok (rev r, x)
  end.
Definition as_text (v : pyval) : res string :=
  match v with PStr s => Ok s | _ => Err TypeError end.

(** url_args.get("dialect") or url_args.get("scheme") *)
Definition dialect_or_scheme (d : dict) : res string :=
  match dget "dialect" d with
  | Some v => if truthy v then as_text v else text "scheme" d
  | None => text "scheme" d
  end.

(** clients/sqlite.py:43-73 *)
Definition sqlite_parse (method : string) (d : dict) : res (string * list pyval) :=
  if String.eqb method "ls" then rbind (text "url" d) (fun u => Ok (u, []))
  else if String.eqb method "schema" then
    rbind (paths_of d) (fun paths =>
    rbind (pop_last paths) (fun pt =>
      let '(rest, table) := pt in
      rbind (dialect_or_scheme d) (fun scheme =>
      rbind (rmap as_text rest) (fun rest =>
      rbind (unparse scheme (join "/" rest) d) (fun url =>
      rbind (text "netloc" d) (fun netloc =>
        Ok (if nonempty netloc then url else replace_colon ":///" url, [table])))))))
  else Err ValueError.

(** clients/confluent_registry.py:33-58 *)
Definition confluent_parse (method : string) (d : dict) : res (string * list pyval) :=
  if String.eqb method "ls" then
    rbind (text "url" d) (fun u =>
      Ok (replace_all "https+csr://" "https://" (replace_all "http+csr://" "http://" u), []))
  else if String.eqb method "schema" then
    rbind (paths_of d) (fun paths =>
    rbind (pop_last paths) (fun pt =>
      let '(rest, subject) := pt in
      rbind (dialect_or_scheme d) (fun scheme =>
      rbind (rmap as_text rest) (fun rest =>
      rbind (unparse scheme (join "/" rest) d) (fun url => Ok (url, [subject]))))))
  else Err ValueError.

(** Formatting a host or port into an f-string. *)
Definition show (v : pyval) : res string :=
  match v with
  | PStr s => Ok s
  | PInt z => if Z.leb 0 z then Ok (dec_N (Z.to_N z)) else Err Unmodelled
  | _ => Err Unmodelled
  end.

(** clients/hive_metastore.py:33-49 *)
Definition hive_parse (method : string) (d : dict) : res (string * list pyval) :=
  match dget "paths" d with
  | Some (PList paths) =>
      match dget "host" d with
      | None => Err KeyError
      | Some host =>
          rbind (show host) (fun h =>
            let p := or_none (dget "port" d) in
            rbind (if truthy p then rbind (show p) (fun t => Ok (":" ++ t)%string) else Ok "")
              (fun suffix =>
                let url := ("thrift://" ++ h ++ suffix)%string in
                if String.eqb method "ls" then Ok (url, paths)
                else if String.eqb method "schema" && Nat.leb 2 (List.length paths)
                then Ok (url, paths ++ [PBool (dmem "include_stats" d)])
                else Err ValueError))
      end
  | _ => Err TypeError
  end.

Section Commands.
  Variable ip_ok : string -> bool.
  (** The keys of mysql.connector.constants.DEFAULT_CONFIGURATION, which is not part of /repo. *)
  Variable mysql_args : list string.

  (** clients/fs.py:20-32 *)
  Definition fs_parse (d : dict) : res (string * list pyval) :=
    rbind (text "url" d) (fun url =>
    rbind (urlsplit ip_ok url) (fun s =>
      let root := ((if nonempty (u_scheme s) then u_scheme s else "file") ++ "://")%string in
      let path := "/" in
      let path := if nonempty (u_netloc s) then (path ++ u_netloc s ++ "/")%string else path in
      let path :=
        match u_path s with
        | EmptyString => path
        | String _ r => (path ++ r ++ "/")%string
        end in
      Ok (root, [PStr path]))).

  (** clients/__init__.py:73-129 *)
  Definition url_to_dict (url : string) : res dict :=
    rbind (urlsplit ip_ok url) (fun s =>
      let '(path, params) :=
        if str_in (u_scheme s) uses_params && has ";" (u_path s)
        then split_params (u_path s) else (u_path s, EmptyString) in
      rbind (port (u_netloc s)) (fun p =>
        let d0 :=
          [("scheme", PStr (u_scheme s)); ("netloc", PStr (u_netloc s)); ("path", PStr path);
           ("params", PStr params); ("query", PStr (u_query s));
           ("fragment", PStr (u_fragment s)); ("username", opt_str (username (u_netloc s)));
           ("password", opt_str (password (u_netloc s)));
           ("hostname", opt_str (hostname (u_netloc s))); ("port", opt_int p)] in
        rbind (if has "+" (u_scheme s) then
                 match split "+" (u_scheme s) with
                 | [dialect; driver] =>
                     Ok (dset "driver" (PStr driver) (dset "dialect" (PStr dialect) d0),
                         replace_all (dialect ++ "+" ++ driver ++ "://")
                           (dialect ++ "://") url)
                 | _ => Err ValueError
                 end
               else Ok (d0, url))
          (fun du =>
             let '(d1, url) := du in
             let d2 := match username (u_netloc s) with
                       | Some u => if nonempty u then dset "user" (PStr u) d1 else d1
                       | None => d1
                       end in
             let d3 := match hostname (u_netloc s) with
                       | Some h => if nonempty h then dset "host" (PStr h) d2 else d2
                       | None => d2
                       end in
             let d4 := dset "path" (PStr (rstrip_slash path)) d3 in
             let d5 := dset "paths" (PList (map PStr (segments (rstrip_slash path)))) d4 in
             let d6 := dset "url" (PStr url) d5 in
             Ok (dupd d6 (query_dict (u_query s)))))).

  (** CLIENTS.get(url_args["scheme"]) with the ValueError of lines 46-47 and 69-70. *)
  Definition client_of (d : dict) : res client :=
    rbind (text "scheme" d) (fun s =>
      match dget s clients with Some c => Ok c | None => Err ValueError end).

  (** client_class.parse(method, **url_args): a query parameter with the name of the positional
      parameter is a second value for it. *)
  Definition client_parse (c : client) (method : string) (d : dict) : res (string * list pyval) :=
    match c with
    | Filesystem => if dmem "_" d then Err TypeError else fs_parse d
    | _ =>
        if dmem "method" d then Err TypeError
        else match c with
             | BigQuery => bigquery_parse method d
             | Confluent => confluent_parse method d
             | Mysql => mysql_parse method d
             | Sqlite => sqlite_parse method d
             | Hive => hive_parse method d
             | _ => dbapi_parse method d
             end
    end.

  (** clients/__init__.py:50-70 *)
  Definition parse_url (urls : list string) (method url : string) (strict : bool)
      : res (string * list pyval) :=
    rbind (url_to_dict url) (fun d =>
    rbind (client_of d) (fun c =>
    rbind (client_parse c method d) (fun ua =>
    rbind (unsafe_url ip_ok urls (fst ua) strict) (fun u => Ok (u, snd ua))))).

  (** [if paths: url_args[key] = paths[0]] and the removal of the paths parameter
      (clients/postgresql.py:61-68, clients/mysql.py:19-27). *)
  Definition first_path (key : string) (d : dict) : dict :=
    let rest := ddel "paths" d in
    match dget "paths" d with
    | Some (PList (x :: _)) => dset key x rest
    | Some (PStr (String c _)) => dset key (PStr (String c EmptyString)) rest
    | _ => rest
    end.

  (** url[len("sqlite:///"):] *)
  Definition drop_chars (n : nat) (s : string) : string :=
    String.substring n (String.length s - n) s.

  (** The keyword arguments that client_class.create hands to the connector
      (postgresql.py:61-73, mysql.py:19-32, snowflake.py:16-29, sqlite.py:30-39,
      hive_metastore.py:28-30, confluent_registry.py:25-29, fs.py:16-17, bigquery.py:18-20). *)
  Definition create_args (c : client) (d : dict) : res dict :=
    match c with
    | Filesystem => Ok (keep ["scheme"] d)
    | BigQuery => Ok []
    | Confluent => Ok (keep confluent_args d)
    | Mysql => Ok (keep mysql_args (first_path "database" d))
    | Postgresql => Ok (keep psycopg2_args (first_path "dbname" d))
    | Snowflake =>
        match dget "host" d with
        | None => Err KeyError
        | Some h =>
            let base := [("account", h)] in
            let base :=
              match dget "paths" d with
              | Some (PList [PStr db; PStr sch]) =>
                  base ++ [("database", PStr db); ("schema", PStr sch)]
              | _ => base
              end in
            Ok (dupd base (ddel "host" d))
        end
    | Sqlite =>
        rbind (text "url" d) (fun u =>
          Ok (keep sqlite3_args (dset "database" (PStr (drop_chars 10 u)) (ddel "url" d))))
    | Hive =>
        match dget "host" d, dget "port" d with
        | Some h, Some p => Ok [("host", h); ("port", p)]
        | _, _ => Err TypeError
        end
    end.

  (** clients/__init__.py:27-47 *)
  Definition create_client (url : string) : res (client * dict) :=
    rbind (url_to_dict url) (fun d =>
    rbind (client_of d) (fun c =>
    rbind (create_args c d) (fun kw => Ok (c, kw)))).

  (** How many positional arguments (lo..hi, self excluded) client.ls and client.schema take
      (dbapi.py:41,88; mysql.py:61,70; bigquery.py:32,53; sqlite.py:75,80;
      hive_metastore.py:51,68; confluent_registry.py:60,63; fs.py:34,43). *)
  Definition arity (c : client) (method : string) : nat * nat :=
    let ls := String.eqb method "ls" in
    match c with
    | Filesystem => (0, 1)
    | BigQuery | Postgresql | Snowflake => if ls then (0, 2) else (3, 3)
    | Mysql => if ls then (0, 1) else (2, 2)
    | Sqlite | Confluent => if ls then (0, 0) else (1, 1)
    | Hive => if ls then (0, 2) else (2, 3)
    end.

  (** commands.py:39-41 and 58-60: the connector call and the method call that a request leads
      to; a wrong number of arguments is a TypeError. *)
  Definition request (urls : list string) (method url : string) (strict : bool)
      : res (client * dict * list pyval) :=
    rbind (parse_url urls method url strict) (fun ua =>
    rbind (create_client (fst ua)) (fun ck =>
      let '(c, kw) := ck in
      let '(lo, hi) := arity c method in
      let n := List.length (snd ua) in
      if Nat.leb lo n && Nat.leb n hi then Ok (c, kw, snd ua) else Err TypeError)).
End Commands.
