(** Vocabulary of the property of query parameters (C114, C115), independent of recap/clients: the query
    of a URL as the list of parameters it spells, and the values given for one of them. *)
From Coq Require Import String Ascii List NArith ZArith Bool.
From Verif Require Import PyVal Quote Url SpecUrl Clients Dbapi Browse SpecBrowse.
Import ListNotations.
Open Scope nat_scope.
Open Scope string_scope.
Open Scope list_scope.

Notation parameters := (list (string * string)).

(** The text of parameters in a URL: name=value&name=value, percent-encoded. *)
Definition query_text (ps : parameters) : string :=
  String.concat "&" (map (fun kv => (quote_plus (fst kv) ++ "=" ++ quote_plus (snd kv))%string) ps).

(** The values given for a parameter, in order, without the empty ones. *)
Definition given (k : string) (ps : parameters) : list string :=
  filter nonempty (map snd (filter (fun kv => String.eqb (fst kv) k) ps)).

(** How several values are handed over: one as it is, several as a list. *)
Inductive passed : list string -> pyval -> Prop :=
| passed_one v : passed [v] (PStr v)
| passed_many v w vs : passed (v :: w :: vs) (PList (map PStr (v :: w :: vs))).

(** Parameters that do not name a part of the URL or a place to connect to. *)
Definition modest (ps : parameters) : Prop := forall k, In k steering -> ~ In k (map fst ps).

(** The configured URLs have such parameters. *)
Definition configured_queries (ip : string -> bool) (urls : list string) : Prop :=
  forall x t, In x urls -> urlsplit ip x = Ok t -> exists ps, u_query t = query_text ps /\ modest ps.

(** What a driver takes: the keys of mysql.connector's default configuration are not part of /repo. *)
Definition driver_args (margs : list string) (c : client) : list string :=
  match c with Postgresql => psycopg2_args | _ => margs end.
(** The keyword arguments that come from the rest of the URL. *)
Definition url_args : list string :=
  ["scheme"; "netloc"; "path"; "params"; "query"; "fragment"; "username"; "password"; "hostname"; "port";
   "user"; "host"; "paths"; "url"; "dialect"; "driver"; "dbname"; "database"].

(** Two URLs with the same scheme, host and port. *)
Definition same_place (s t : split_url) : Prop :=
  u_scheme t = u_scheme s /\ hostname (u_netloc t) = hostname (u_netloc s) /\ port (u_netloc t) = port (u_netloc s).

(** ** Other clients (C115) *)
(** scheme://location/name/name?parameter=value *)
Definition asked (scheme loc : string) (names : list string) (ps : parameters) : string :=
  (scheme ++ "://" ++ loc ++ below_url names ++ match ps with [] => "" | _ => "?" ++ query_text ps end)%string.

(** A network location that a URL may contain; it may be empty. *)
Definition location (ip : string -> bool) (loc : string) : Prop :=
  no_end loc = true /\ is_ascii loc = true /\ clean loc = true /\ check_brackets ip loc = Ok tt
  /\ exists p, port loc = Ok p.

(** host:port, without the port if there is none *)
Definition place (h : string) (p : option N) : string :=
  (h ++ match p with Some n => if N.eqb n 0 then "" else ":" ++ dec_N n | None => "" end)%string.
