(** Property theorems for URLs: settings and clients (C27-C32, C58, C59). *)
From Coq Require Import String Ascii List NArith ZArith Bool Lia.
From Verif Require Import PyVal Quote Url Settings Clients SpecUrl UrlFacts SettingsFacts SettingsMore
  ClientsFacts ClientsMore.
Import ListNotations.
Open Scope nat_scope.
Open Scope string_scope.
Open Scope list_scope.

(** No IPv6 literals in the examples. *)
Definition no_ip : string -> bool := fun _ => false.
Definition no_mysql : list string := ["host"; "port"; "user"; "password"; "unix_socket"].

Definition config : list string :=
  ["bigquery://"; "postgresql://u:p@db.internal:5432/app"; "mysql://root:pw@my.internal/shop";
   "snowflake://me:pw@acc/wh"].

Lemma plain_none : plain_query "".
Proof. intros k _ []. Qed.
Lemma plain_empty : forall urls, Forall (fun x => exists s, urlsplit no_ip x = Ok s /\ u_query s = "") urls ->
  forall x t, In x urls -> urlsplit no_ip x = Ok t -> plain_query (u_query t).
Proof.
  intros urls F x t I E. rewrite Forall_forall in F. destruct (F _ I) as (s & E' & Q).
  rewrite E in E'. injection E'; intros; subst. rewrite Q. exact plain_none.
Qed.
Lemma config_plain : forall x t, In x config -> urlsplit no_ip x = Ok t -> plain_query (u_query t).
Proof. apply plain_empty. repeat constructor; eexists; split; reflexivity. Qed.

(** ** C27: a listed URL carries neither user name nor password, and does not depend on them.
    A URL with credentials but no host is no AnyUrl (pydantic rejects it). *)
Theorem C27_listed_urls_have_no_credentials : forall ip url s out r,
  urlsplit ip url = Ok s -> u_scheme s <> "" -> hostname (u_netloc s) <> None ->
  safe_url ip url = Ok out -> urlsplit ip out = Ok r ->
  opt_text (username (u_netloc r)) = "" /\ opt_text (password (u_netloc r)) = "".
Proof. exact safe_no_credentials. Qed.
Print Assumptions C27_listed_urls_have_no_credentials.

Theorem C27_listing_independent_of_secrets : forall ip sch a b h rest,
  scheme_ok sch = true -> secret_ok a -> secret_ok b ->
  a <> "" -> a <> ":" -> b <> "" -> b <> ":" ->
  no_end h = true -> clean h = true -> has "@" h = false -> hostname h <> None ->
  at_end rest = true -> clean rest = true ->
  safe_url ip (sch ++ "://" ++ a ++ "@" ++ h ++ rest) =
  safe_url ip (sch ++ "://" ++ b ++ "@" ++ h ++ rest).
Proof. exact safe_noninterference. Qed.
Print Assumptions C27_listing_independent_of_secrets.

Example C27_listed : exists s r,
  urlsplit no_ip "postgresql://me:s3@cr@DB.internal:5432/app/?sslmode=require" = Ok s
  /\ hostname (u_netloc s) = Some "db.internal" /\ username (u_netloc s) = Some "me"
  /\ password (u_netloc s) = Some "s3@cr"
  /\ safe_url no_ip "postgresql://me:s3@cr@DB.internal:5432/app/?sslmode=require"
     = Ok "postgresql://db.internal:5432/app?sslmode=require"
  /\ urlsplit no_ip "postgresql://db.internal:5432/app?sslmode=require" = Ok r
  /\ username (u_netloc r) = None.
Proof. eexists _, _. repeat split; reflexivity. Qed.
Example C27_secrets : secret_ok "me:s3cr" /\ secret_ok "root:" /\ hostname "db:5432" <> None
  /\ safe_url no_ip "mysql://me:s3cr@db:5432/x" = Ok "mysql://db:5432/x".
Proof. repeat split; vm_compute; congruence. Qed.
(** Outside AnyUrl: with credentials and an empty host the code would list them. *)
Example C27_empty_host : safe_url no_ip "postgresql://u:p@/db" = Ok "postgresql://u:p@/db".
Proof. reflexivity. Qed.

(** ** C28 *)
Theorem C28_strict_configured_partial : forall ip urls url inp out,
  (forall c s, In c urls -> urlsplit ip c = Ok s -> u_scheme s <> "") ->
  urlsplit ip url = Ok inp ->
  u_path inp = "" \/ starts_slash (u_path inp) = true ->
  unsafe_url ip urls url true = Ok out ->
  exists c conf res, In c urls /\ urlsplit ip c = Ok conf /\ urlsplit ip out = Ok res
    /\ u_scheme res = u_scheme conf /\ u_netloc res = u_netloc conf
    /\ u_scheme inp = u_scheme conf
    /\ hostname (u_netloc inp) = hostname (u_netloc conf)
    /\ port (u_netloc inp) = port (u_netloc conf).
Proof. exact strict_configured. Qed.
Print Assumptions C28_strict_configured_partial.

(** Missing: paths that are relative, which become the host of the result. *)
Theorem C28_strict_configured_refuted :
  exists url out res, unsafe_url no_ip ["bigquery://"] url true = Ok out
    /\ urlsplit no_ip out = Ok res /\ hostname (u_netloc res) = Some ".evil.com"
    /\ forall conf, urlsplit no_ip "bigquery://" = Ok conf -> hostname (u_netloc conf) = None.
Proof.
  exists "bigquery:.evil.com/x", "bigquery://.evil.com/x".
  eexists. repeat split; try reflexivity. intros conf E. injection E; intros; subst. reflexivity.
Qed.
Print Assumptions C28_strict_configured_refuted.

Example C28_merged :
  unsafe_url no_ip config "postgresql://DB.internal:5432/app/public/t?a=b" true
  = Ok "postgresql://u:p@db.internal:5432/app/public/t?a=b"
  /\ unsafe_url no_ip config "postgresql://other:5432/app" true = Err ValueError
  /\ unsafe_url no_ip config "postgresql://db.internal/app" true = Err ValueError
  /\ unsafe_url no_ip config "mysql://db.internal:5432/app" true = Err ValueError.
Proof. repeat split; reflexivity. Qed.

(** ** C29 *)
Theorem C29_below_configured_path_partial : forall ip urls url inp out,
  (forall c s, In c urls -> urlsplit ip c = Ok s ->
     u_scheme s <> "" /\ starts_slash (u_path s) = true) ->
  urlsplit ip url = Ok inp -> u_path inp = "" \/ starts_slash (u_path inp) = true ->
  unsafe_url ip urls url true = Ok out ->
  exists c conf res, In c urls /\ urlsplit ip c = Ok conf /\ urlsplit ip out = Ok res
    /\ u_netloc res = u_netloc conf
    /\ path_parts (u_path res) = path_parts (u_path inp)
    /\ forall init last, path_parts (u_path conf) = init ++ [last] ->
       exists x rest, path_parts (u_path inp) = init ++ x :: rest /\ String.prefix last x = true.
Proof. exact strict_below. Qed.
Print Assumptions C29_below_configured_path_partial.

(** False: a sibling whose name extends the last configured component, and dot segments. *)
Theorem C29_below_configured_path_refuted :
  unsafe_url no_ip config "postgresql://db.internal:5432/app_other/public" true
    = Ok "postgresql://u:p@db.internal:5432/app_other/public"
  /\ path_parts "/app" = ["app"]
  /\ (forall rest, path_parts "/app_other/public" <> path_parts "/app" ++ rest)
  /\ unsafe_url no_ip config "postgresql://db.internal:5432/app/../secret" true
    = Ok "postgresql://u:p@db.internal:5432/app/../secret".
Proof.
  split; [reflexivity|]. split; [reflexivity|]. split; [|reflexivity].
  intros rest H. vm_compute in H. discriminate.
Qed.
Print Assumptions C29_below_configured_path_refuted.

(** ** C30 *)
Theorem C30_listed_url_accepted_partial : forall ip urls c conf out,
  In c urls ->
  (forall d, In d urls -> exists s p, urlsplit ip d = Ok s /\ port (u_netloc s) = Ok p) ->
  urlsplit ip c = Ok conf -> u_scheme conf <> "" ->
  starts_slash (u_path conf) = true -> starts_slashes (u_path conf) = false ->
  (has_credentials (u_netloc conf) = true ->
     hostname (u_netloc conf) <> None /\ has "[" (hostpart (u_netloc conf)) = false
     /\ has "]" (hostpart (u_netloc conf)) = false) ->
  safe_url ip c = Ok out ->
  exists r, unsafe_url ip urls out true = Ok r.
Proof. exact listed_accepted. Qed.
Print Assumptions C30_listed_url_accepted_partial.

(** False: URLs without a path, absolute sqlite paths, and IPv6 hosts with credentials. *)
Theorem C30_listed_url_accepted_refuted :
  (safe_url no_ip "bigquery://" = Ok "bigquery://"
   /\ unsafe_url no_ip ["bigquery://"] "bigquery://" true = Err ValueError)
  /\ (safe_url no_ip "postgresql://host" = Ok "postgresql://host"
   /\ unsafe_url no_ip ["postgresql://host"] "postgresql://host" true = Err ValueError)
  /\ (safe_url no_ip "sqlite:////abs/x.db" = Ok "sqlite://////abs/x.db"
   /\ unsafe_url no_ip ["sqlite:////abs/x.db"] "sqlite://////abs/x.db" true = Err ValueError)
  /\ (exists out e, safe_url (String.eqb "::1") "postgresql://u:p@[::1]:5432/db" = Ok out
   /\ unsafe_url (String.eqb "::1") ["postgresql://u:p@[::1]:5432/db"] out true = Err e).
Proof.
  do 3 (split; [split; vm_compute; reflexivity|]).
  do 2 eexists. split; [vm_compute; reflexivity|vm_compute; reflexivity].
Qed.
Print Assumptions C30_listed_url_accepted_refuted.

Example C30_accepted : exists conf,
  urlsplit no_ip "postgresql://u:p@db.internal:5432/app" = Ok conf
  /\ starts_slash (u_path conf) = true /\ starts_slashes (u_path conf) = false
  /\ has_credentials (u_netloc conf) = true
  /\ safe_url no_ip "postgresql://u:p@db.internal:5432/app" = Ok "postgresql://db.internal:5432/app"
  /\ unsafe_url no_ip config "postgresql://db.internal:5432/app" true
     = Ok "postgresql://u:p@db.internal:5432/app".
Proof. eexists. repeat split; reflexivity. Qed.

(** ** C31: the connection arguments name the configured host and port. *)
Theorem C31_connects_to_configured_host_partial : forall ip my urls method url s c kw args,
  urlsplit ip url = Ok s -> nonempty (u_netloc s) = true ->
  In (u_scheme s) ["postgresql"; "mysql"] ->
  plain_query (u_query s) ->
  (forall x t, In x urls -> urlsplit ip x = Ok t -> plain_query (u_query t)) ->
  request ip my urls method url true = Ok (c, kw, args) ->
  exists x conf p, In x urls /\ urlsplit ip x = Ok conf /\ port (u_netloc conf) = Ok p
    /\ u_scheme conf = client_scheme c
    /\ (forall v, dget "host" kw = Some v -> option_map PStr (hostname (u_netloc conf)) = Some v)
    /\ (forall v, dget "port" kw = Some v -> v = opt_int p)
    /\ (forall k, In k ["hostaddr"; "service"; "unix_socket"; "dsn"] -> dget k kw = None)
    /\ (c = Postgresql -> dget "host" kw = option_map PStr (hostname (u_netloc conf))
                          /\ dget "port" kw = Some (opt_int p)).
Proof. exact relational_target. Qed.
Print Assumptions C31_connects_to_configured_host_partial.

(** False with a steering query parameter in the request: the configured password goes to the
    host named by the request. *)
Theorem C31_connects_to_configured_host_refuted :
  (exists kw args,
    request no_ip no_mysql config "schema"
      "postgresql://db.internal:5432/app/public/t?host=evil.example" true
      = Ok (Postgresql, kw, args)
    /\ dget "host" kw = Some (PStr "evil.example")
    /\ dget "user" kw = Some (PStr "u") /\ dget "password" kw = Some (PStr "p"))
  /\ (exists kw args,
    request no_ip no_mysql config "ls" "snowflake://acc/wh?account=evil" true = Ok (Snowflake, kw, args)
    /\ dget "account" kw = Some (PStr "evil")
    /\ dget "user" kw = Some (PStr "me") /\ dget "password" kw = Some (PStr "pw")).
Proof. split; (do 2 eexists; split; [vm_compute; reflexivity|split; [vm_compute; reflexivity|split; vm_compute; reflexivity]]). Qed.
Print Assumptions C31_connects_to_configured_host_refuted.

Example C31_target : exists kw args,
  request no_ip no_mysql config "schema"
    "postgresql://db.internal:5432/app/public/t?sslmode=require" true = Ok (Postgresql, kw, args)
  /\ plain_query "sslmode=require"
  /\ dget "host" kw = Some (PStr "db.internal") /\ dget "port" kw = Some (PInt 5432).
Proof.
  eexists _, _. split; [vm_compute; reflexivity|]. split; [|split; vm_compute; reflexivity].
  intros k I X. cbn in I, X. intuition congruence.
Qed.

(** ** C32 *)
Theorem C32_positions_partial : forall ip url s p,
  urlsplit ip url = Ok s -> port (u_netloc s) = Ok p -> nonempty (u_netloc s) = true ->
  plain_query (u_query s) -> In (u_scheme s) ["postgresql"; "snowflake"] ->
  exists conn r, urlsplit ip conn = Ok r
    /\ u_scheme r = u_scheme s /\ u_netloc r = u_netloc s /\ u_query r = u_query s
    /\ segs (u_path r) = firstn 1 (segs (u_path s))
    /\ parse_url ip [] "ls" url false =
         (if Nat.leb (List.length (segs (u_path s))) 2
          then Ok (conn, pad 2 (segs (u_path s))) else Err ValueError)
    /\ parse_url ip [] "schema" url false =
         (if Nat.leb 3 (List.length (segs (u_path s)))
          then Ok (conn, pad 3 (segs (u_path s))) else Err ValueError).
Proof. exact relational_positions. Qed.
Print Assumptions C32_positions_partial.

Theorem C32_mysql_positions_partial : forall ip url s p,
  urlsplit ip url = Ok s -> port (u_netloc s) = Ok p -> nonempty (u_netloc s) = true ->
  plain_query (u_query s) -> u_scheme s = "mysql" ->
  exists conn r, urlsplit ip conn = Ok r
    /\ u_scheme r = u_scheme s /\ u_netloc r = u_netloc s /\ u_query r = u_query s
    /\ segs (u_path r) = firstn 1 (segs (u_path s))
    /\ parse_url ip [] "ls" url false = Ok (conn, pad 1 (segs (u_path s)))
    /\ parse_url ip [] "schema" url false =
         (if Nat.leb 2 (List.length (segs (u_path s)))
          then Ok (conn, pad 2 (segs (u_path s))) else Err ValueError).
Proof. exact mysql_positions. Qed.
Print Assumptions C32_mysql_positions_partial.

(** False: surplus segments are ignored by schema, and by ls of MySQL. *)
Theorem C32_positions_refuted :
  (exists conn, parse_url no_ip [] "schema" "postgresql://h/a/b/c/d" false
                = Ok (conn, [PStr "a"; PStr "b"; PStr "c"]))
  /\ (exists conn, parse_url no_ip [] "ls" "mysql://h/a/b/c" false = Ok (conn, [PStr "a"])).
Proof. split; eexists; vm_compute; reflexivity. Qed.
Print Assumptions C32_positions_refuted.

Example C32_split :
  parse_url no_ip [] "schema" "postgresql://u:p@h:5432//app/public///t/?x=y" false
    = Ok ("postgresql://u:p@h:5432/app?x=y", [PStr "app"; PStr "public"; PStr "t"])
  /\ parse_url no_ip [] "ls" "snowflake://acc" false = Ok ("snowflake://acc", [PNone; PNone])
  /\ parse_url no_ip [] "ls" "postgresql://h/a/b/c" false = Err ValueError.
Proof. repeat split; vm_compute; reflexivity. Qed.

(** ** C58: whether a request that parses can be opened *)
Theorem C58_relational_requests_open_partial : forall ip my urls method url s u args,
  urlsplit ip url = Ok s -> nonempty (u_netloc s) = true -> hostname (u_netloc s) <> None ->
  In (u_scheme s) ["postgresql"; "mysql"; "snowflake"] ->
  plain_query (u_query s) ->
  (forall x t, In x urls -> urlsplit ip x = Ok t -> plain_query (u_query t)) ->
  parse_url ip urls method url true = Ok (u, args) ->
  exists c kw, request ip my urls method url true = Ok (c, kw, args)
    /\ dget (u_scheme s) clients = Some c.
Proof. exact relational_opens. Qed.
Print Assumptions C58_relational_requests_open_partial.

(** Every request for a Hive metastore fails, whatever is configured. *)
Theorem C58_hive_requests_refuted : forall ip my urls method url strict s,
  urlsplit ip url = Ok s -> u_scheme s = "thrift+hms" -> plain_query (u_query s) ->
  (forall x t, In x urls -> urlsplit ip x = Ok t -> plain_query (u_query t)) ->
  exists e, request ip my urls method url strict = Err e.
Proof. exact hive_unreachable. Qed.
Print Assumptions C58_hive_requests_refuted.

(** Every request for a Confluent schema registry fails, whatever is configured. *)
Theorem C58_confluent_requests_refuted : forall ip my urls method dial rest strict s,
  In dial ["http"; "https"] -> has "+" rest = false ->
  urlsplit ip (dial ++ "+csr://" ++ rest) = Ok s -> nonempty (u_netloc s) = true ->
  plain_query (u_query s) ->
  (forall x t, In x urls -> urlsplit ip x = Ok t -> plain_query (u_query t)) ->
  exists e, request ip my urls method (dial ++ "+csr://" ++ rest) strict = Err e.
Proof. exact confluent_unreachable. Qed.
Print Assumptions C58_confluent_requests_refuted.

(** Parsing succeeds; opening the parsed URL is what fails. *)
Example C58_parses_but_does_not_open :
  parse_url no_ip ["thrift://hms:9083/"] "ls" "thrift+hms://hms:9083/db" true
    = Ok ("thrift://hms:9083", [PStr "db"])
  /\ request no_ip no_mysql ["thrift://hms:9083/"] "ls" "thrift+hms://hms:9083/db" true = Err ValueError
  /\ parse_url no_ip [] "schema" "https+csr://u:p@csr:8081/subj" false
    = Ok ("https://u:p@csr:8081", [PStr "subj"])
  /\ request no_ip no_mysql [] "schema" "https+csr://u:p@csr:8081/subj" false = Err ValueError
  /\ (exists kw, request no_ip no_mysql config "ls" "mysql://my.internal/shop" true
       = Ok (Mysql, kw, [PStr "shop"])).
Proof. repeat split; try (vm_compute; reflexivity). eexists. vm_compute. reflexivity. Qed.

(** ** C59: parsed arguments fit the method they are for *)
Theorem C59_bigquery_ls_refuted : forall ip my urls url strict s,
  urlsplit ip url = Ok s -> u_scheme s = "bigquery" -> plain_query (u_query s) ->
  (forall x t, In x urls -> urlsplit ip x = Ok t -> plain_query (u_query t)) ->
  exists e, request ip my urls "ls" url strict = Err e.
Proof. exact bigquery_ls_fails. Qed.
Print Assumptions C59_bigquery_ls_refuted.

Example C59_bigquery :
  (exists u args, parse_url no_ip [] "ls" "bigquery://proj/data" false = Ok (u, args)
     /\ List.length args = 3)
  /\ request no_ip no_mysql [] "ls" "bigquery://proj/data" false = Err TypeError.
Proof. split; [eexists _, _; split|]; vm_compute; reflexivity. Qed.
