(** C114-C115: query parameters, and the URLs of BigQuery, Hive and Confluent. *)
From Coq Require Import String Ascii List NArith ZArith Bool Lia.
From Verif Require Import PyVal Quote Url Settings Clients SpecUrl ClientsFacts Dbapi Browse SpecBrowse BrowseRequest CommandsFacts SpecDriver DriverFacts SettingsFacts.
Import ListNotations.
Open Scope nat_scope.
Open Scope string_scope.
Open Scope list_scope.

Definition v4 : string -> bool := fun _ => false.
Definition v6 : string -> bool := String.eqb "::1".
Definition some_args : list string := ["host"; "port"; "user"; "password"; "database"; "charset"; "ssl_ca"].

(** ** C114 *)
(** The non-empty values a request gives for a parameter of the driver are passed to it, whatever
    is configured. *)
Theorem C114_passed_partial : forall ip my urls method url s c kw args strict k ps,
  c = Postgresql \/ c = Mysql -> urlsplit ip url = Ok s -> u_scheme s = db_scheme c -> hostname (u_netloc s) <> None ->
  u_query s = query_text ps -> modest ps -> configured_queries ip urls -> first_seg (u_path s) <> "." ->
  request ip my urls method url strict = Ok (c, kw, args) ->
  In k (driver_args my c) -> k <> "dbname" -> k <> "database" ->
  given k ps <> [] -> exists v, dget k kw = Some v /\ passed (given k ps) v.
Proof.
  intros ip my urls method url s c kw args strict k ps C E SC HN Q M QC ND H I N1 N2 G.
  destruct (driver_query ip my urls method url s c kw args strict k ps C E SC HN Q M QC ND H) as [_ X].
  destruct (X I N1 N2) as [X1 _]. auto.
Qed.
Print Assumptions C114_passed_partial.

(** A parameter that the request does not give has the values of a configured URL with the same
    scheme, host and port, or is not passed. *)
Theorem C114_configured_partial : forall ip my urls method url s c kw args strict k ps,
  c = Postgresql \/ c = Mysql -> urlsplit ip url = Ok s -> u_scheme s = db_scheme c -> hostname (u_netloc s) <> None ->
  u_query s = query_text ps -> modest ps -> configured_queries ip urls -> first_seg (u_path s) <> "." ->
  request ip my urls method url strict = Ok (c, kw, args) ->
  ~ In k url_args -> given k ps = [] ->
  dget k kw = None
  \/ exists x t qs v, In x urls /\ urlsplit ip x = Ok t /\ same_place s t /\ u_query t = query_text qs
       /\ dget k kw = Some v /\ passed (given k qs) v.
Proof.
  intros ip my urls method url s c kw args strict k ps C E SC HN Q M QC ND H NU G.
  destruct (driver_query ip my urls method url s c kw args strict k ps C E SC HN Q M QC ND H) as [Y X].
  destruct (in_dec string_dec k (driver_args my c)) as [I|I]; [|left; auto].
  assert (N1 : k <> "dbname") by (intros ->; apply NU, CommandsFacts.str_in_In; reflexivity).
  assert (N2 : k <> "database") by (intros ->; apply NU, CommandsFacts.str_in_In; reflexivity).
  exact (proj2 (X I N1 N2) G NU).
Qed.
Print Assumptions C114_configured_partial.

(** No other parameter is passed. *)
Theorem C114_unknown_partial : forall ip my urls method url s c kw args strict k ps,
  c = Postgresql \/ c = Mysql -> urlsplit ip url = Ok s -> u_scheme s = db_scheme c -> hostname (u_netloc s) <> None ->
  u_query s = query_text ps -> modest ps -> configured_queries ip urls -> first_seg (u_path s) <> "." ->
  request ip my urls method url strict = Ok (c, kw, args) ->
  ~ In k (driver_args my c) -> dget k kw = None.
Proof.
  intros ip my urls method url s c kw args strict k ps C E SC HN Q M QC ND H I.
  destruct (driver_query ip my urls method url s c kw args strict k ps C E SC HN Q M QC ND H) as [Y _]. auto.
Qed.
Print Assumptions C114_unknown_partial.

(** False: an empty value is not passed, so it does not replace a configured one; a database named
    by the path replaces the one named by the query; of a parameter that the driver does not know
    nothing is said. *)
Theorem C114_passed_refuted : forall k ps, In (k, "") ps -> given k ps = [] ->
  forall ip my urls method url s c kw args strict,
  c = Postgresql \/ c = Mysql -> urlsplit ip url = Ok s -> u_scheme s = db_scheme c -> hostname (u_netloc s) <> None ->
  u_query s = query_text ps -> modest ps -> configured_queries ip urls -> first_seg (u_path s) <> "." ->
  request ip my urls method url strict = Ok (c, kw, args) ->
  ~ In k url_args -> dget k kw <> Some (PStr "").
Proof.
  intros k ps _ G ip my urls method url s c kw args strict C E SC HN Q M QC ND H NU D.
  destruct (C114_configured_partial ip my urls method url s c kw args strict k ps C E SC HN Q M QC ND H NU G)
    as [X|(x & t & qs & v & _ & _ & _ & _ & X & Y)]; [congruence|].
  rewrite X in D. injection D as ->.
  assert (Z : In "" (given k qs)) by (inversion Y; subst; now left).
  unfold given in Z. apply filter_In in Z as [_ Z]. discriminate.
Qed.
Print Assumptions C114_passed_refuted.
Theorem C114_witness_refuted :
  (exists kw args, request v4 some_args ["postgresql://u:p@db/sales?options=-cstatement_timeout%3D5"] "ls"
       "postgresql://db/sales?options=" true = Ok (Postgresql, kw, args)
     /\ dget "options" kw = Some (PStr "-cstatement_timeout=5"))
  /\ (exists kw args, request v4 some_args [] "ls" "postgresql://db/sales?dbname=other&sslMode=require" false = Ok (Postgresql, kw, args)
     /\ dget "dbname" kw = Some (PStr "sales") /\ dget "sslMode" kw = None /\ dget "sslmode" kw = None).
Proof.
  split; eexists; eexists; (split; [vm_compute; reflexivity|]); repeat split.
Qed.
Print Assumptions C114_witness_refuted.

Example C114_case :
  let ps := [("sslmode", "require"); ("application_name", "a b&c"); ("options", "x"); ("options", "y"); ("sslcert", "")] in
  query_text ps = "sslmode=require&application_name=a+b%26c&options=x&options=y&sslcert="
  /\ modest ps /\ given "options" ps = ["x"; "y"] /\ given "sslcert" ps = []
  /\ configured_queries v4 ["postgresql://u:p@db/sales?sslmode=disable&connect_timeout=5"]
  /\ exists kw args,
    request v4 some_args ["postgresql://u:p@db/sales?sslmode=disable&connect_timeout=5"] "ls"
      ("postgresql://db/sales?" ++ query_text ps) true = Ok (Postgresql, kw, args)
    /\ dget "sslmode" kw = Some (PStr "require")
    /\ dget "application_name" kw = Some (PStr "a b&c")
    /\ dget "options" kw = Some (PList [PStr "x"; PStr "y"])
    /\ dget "connect_timeout" kw = Some (PStr "5")
    /\ dget "sslcert" kw = None.
Proof.
  cbv zeta. split; [vm_compute; reflexivity|]. split.
  { intros k I J. cbn in I, J. repeat destruct J as [J|J]; subst; repeat destruct I as [I|I]; try discriminate; contradiction. }
  split; [reflexivity|]. split; [reflexivity|]. split.
  { intros x t [<-|[]] E. vm_compute in E. injection E as <-. exists [("sslmode", "disable"); ("connect_timeout", "5")].
    split; [reflexivity|]. intros k I J. cbn in I, J. repeat destruct J as [J|J]; subst; repeat destruct I as [I|I]; try discriminate; contradiction. }
  eexists; eexists; (split; [vm_compute; reflexivity|]); repeat split.
Qed.

(** ** C115 *)
(** BigQuery: project, dataset and table are the first three names of the path. *)
Theorem C115_bigquery_partial : forall ip loc names ps,
  location ip loc -> Forall plain_name names -> modest ps -> forall method, In method ["ls"; "schema"] ->
  parse_url ip [] method (asked "bigquery" loc names ps) false = Ok ("bigquery://", pad 3 names).
Proof. exact bigquery_positions. Qed.
Print Assumptions C115_bigquery_partial.

(** Hive: the names of the path in order, and whether statistics are asked for. *)
Theorem C115_hive_partial : forall ip loc names ps,
  location ip loc -> Forall plain_name names -> modest ps ->
  forall h p, hostname loc = Some h -> port loc = Ok p -> location ip (place h p) ->
  parse_url ip [] "ls" (asked "thrift+hms" loc names ps) false = Ok (("thrift://" ++ place h p)%string, map PStr names)
  /\ parse_url ip [] "schema" (asked "thrift+hms" loc names ps) false
     = if Nat.leb 2 (List.length names)
       then Ok (("thrift://" ++ place h p)%string,
                map PStr names ++ [PBool (match given "include_stats" ps with [] => false | _ => true end)])
       else Err ValueError.
Proof. exact hive_positions. Qed.
Print Assumptions C115_hive_partial.

(** Confluent: the last name is the subject, the others belong to the address of the registry. *)
Theorem C115_confluent_partial : forall ip dial loc,
  In dial ["http"; "https"] -> location ip loc -> nonempty loc = true -> has "+" loc = false ->
  (forall names, Forall plain_name names -> Forall (fun n => has "+" n = false) names ->
     parse_url ip [] "ls" (asked (dial ++ "+csr") loc names []) false = Ok (asked dial loc names [], []))
  /\ (forall names subject, Forall plain_name (names ++ [subject]) -> Forall (fun n => has "+" n = false) (names ++ [subject]) ->
     parse_url ip [] "schema" (asked (dial ++ "+csr") loc (names ++ [subject]) []) false
       = Ok (asked dial loc names [], [PStr subject])).
Proof.
  intros ip dial loc ID L NE NP. split; [now apply confluent_ls|now apply confluent_schema].
Qed.
Print Assumptions C115_confluent_partial.

(** Schemes with several plus signs are rejected, whatever is configured. *)
Theorem C115_scheme_partial : forall ip my urls method url strict s a b c r,
  urlsplit ip url = Ok s -> split "+" (u_scheme s) = a :: b :: c :: r -> (exists p, port (u_netloc s) = Ok p) ->
  request ip my urls method url strict = Err ValueError.
Proof.
  intros ip my urls method url strict s a b c r E SP [p P]. unfold request, parse_url, url_to_dict. rewrite E. cbn [rbind].
  destruct (if (str_in (u_scheme s) uses_params && has ";" (u_path s))%bool then split_params (u_path s) else (u_path s, "")) as [path params].
  rewrite P. cbn [rbind]. destruct (has "+" (u_scheme s)) eqn:HP.
  - rewrite SP. reflexivity.
  - rewrite SettingsFacts.split_plain in SP by auto. discriminate.
Qed.
Print Assumptions C115_scheme_partial.

(** False: an IPv6 address loses its brackets, so the address no longer names the host;
    include_stats=false asks for statistics and a parameter without a value does not; a plus sign
    in a path can change it; a registry without a subject is no ValueError. *)
Theorem C115_refuted :
  (hostname "[::1]:9083" = Some "::1"
   /\ parse_url v6 [] "ls" "thrift+hms://[::1]:9083/db" false = Ok ("thrift://::1:9083", [PStr "db"])
   /\ hostname "::1:9083" = None)
  /\ parse_url v4 [] "schema" "thrift+hms://hms:9083/db/t?include_stats=false" false
       = Ok ("thrift://hms:9083", [PStr "db"; PStr "t"; PBool true])
  /\ parse_url v4 [] "schema" "thrift+hms://hms:9083/db/t?include_stats" false
       = Ok ("thrift://hms:9083", [PStr "db"; PStr "t"; PBool false])
  /\ parse_url v4 [] "ls" "http+csr://csr/proxy/http+csr://other" false = Ok ("http://csr/proxy/http://other", [])
  /\ parse_url v4 [] "schema" "http+csr://csr" false = Err IndexError.
Proof. repeat split; vm_compute; reflexivity. Qed.
Print Assumptions C115_refuted.

Example C115_case :
  location v4 "u:p@hms:9083" /\ location v4 "" /\ Forall plain_name ["db"; "t"] /\ modest [("include_stats", "true")]
  /\ hostname "u:p@hms:9083" = Some "hms" /\ port "u:p@hms:9083" = Ok (Some 9083%N) /\ location v4 (place "hms" (Some 9083%N))
  /\ asked "thrift+hms" "u:p@hms:9083" ["db"; "t"] [("include_stats", "true")] = "thrift+hms://u:p@hms:9083/db/t?include_stats=true"
  /\ parse_url v4 [] "schema" "thrift+hms://u:p@hms:9083/db/t?include_stats=true" false
       = Ok ("thrift://hms:9083", [PStr "db"; PStr "t"; PBool true])
  /\ parse_url v4 [] "schema" "thrift+hms://u:p@hms:9083/db" false = Err ValueError
  /\ parse_url v4 [] "ls" "bigquery:///p/d" false = Ok ("bigquery://", [PStr "p"; PStr "d"; PNone])
  /\ parse_url v4 [] "schema" "https+csr://csr:8081/proxy/orders-value" false = Ok ("https://csr:8081/proxy", [PStr "orders-value"])
  /\ split "+" "a+b+c" = ["a"; "b"; "c"] /\ urlsplit v4 "a+b+c://h/x" = Ok (mkSplit "a+b+c" "h" "/x" "" "").
Proof.
  split; [repeat split; try reflexivity; eexists; reflexivity|]. split; [repeat split; try reflexivity; eexists; reflexivity|].
  split; [repeat constructor; discriminate|]. split.
  { intros k I [<-|[]]. cbn in I. repeat destruct I as [I|I]; try discriminate; contradiction. }
  split; [reflexivity|]. split; [reflexivity|]. split; [repeat split; try reflexivity; eexists; reflexivity|].
  repeat split; vm_compute; reflexivity.
Qed.
