(** C129: the command line prints what the gateway answers. *)
From Coq Require Import String Ascii List NArith ZArith QArith Bool Sorting.Permutation.
From Verif Require Import PyVal RType Registry Url Settings Clients Proto Commands SpecUrl UrlFacts Cli CliFacts SpecBrowse BrowseFacts.
From Verif Require Browse Properties_Url Properties_Browse.
Import ListNotations.
Open Scope nat_scope.
Open Scope string_scope.
Open Scope list_scope.

(** The format of a content type as gateway requests name it; [None] and the empty text are Recap. *)
Inductive asks_for : option string -> format -> Prop :=
| asks_nothing : asks_for None FRecap
| asks_empty : asks_for (Some "") FRecap
| asks_recap : asks_for (Some "application/x-recap+json") FRecap
| asks_avro : asks_for (Some "application/avro+json") FAvro
| asks_json : asks_for (Some "application/schema+json") FJson
| asks_protobuf : asks_for (Some "application/x-protobuf") FProtobuf.
(** What is printed for an answer: the same JSON document, or the same proto file. *)
Inductive prints : output -> printed -> Prop :=
| prints_json d : prints (ODocument (PDict d)) (Json (PDict d))
| prints_proto file : prints (OProto file) (ProtoText file).
Inductive lists : list string -> printed -> Prop :=
| lists_none : lists [] Silence
| lists_some l : l <> [] -> lists l (Json (PList (map PStr l))).

Section Clients.
Variables (ip : string -> bool) (margs : list string) (urls : list string).
Variables (client_ls : client -> dict -> list pyval -> res (list string)) (client_schema : client -> dict -> list pyval -> res rtype).
Notation cli_ls := (cli_ls ip margs urls client_ls).
Notation cli_schema := (cli_schema ip margs urls client_schema).
Notation gateway_ls := (gateway_ls ip margs urls client_ls).
Notation gateway_schema := (gateway_schema ip margs urls client_schema).

(** Whatever the gateway answers is printed. *)
Theorem C129_schema : forall url ct f o, asks_for ct f -> gateway_schema url ct = Ok o ->
  exists p, cli_schema url f = Ok p /\ prints o p.
Proof.
  intros url ct f o A H. unfold Cli.gateway_schema in H.
  assert (requested_format ct = Ok f) as E by (destruct A; reflexivity). rewrite E in H. cbn [rbind] in H.
  unfold Cli.cli_schema, cmd_schema in *. apply rbind_Ok in H as (q & H & K). rewrite (request_lax _ _ _ _ _ _ H). cbn [rbind].
  destruct q as [[c kw] args]. rewrite K. cbn [rbind]. apply rbind_Ok in K as (t & _ & S). apply output_shape in S.
  destruct f, S as [d ->]; eexists; (split; [reflexivity|constructor]).
Qed.
Theorem C129_ls : forall url l, gateway_ls url = Ok l -> exists p, cli_ls url = Ok p /\ lists l p.
Proof.
  intros url l H. unfold Cli.gateway_ls, Cli.cli_ls in *. assert (E : cmd_ls ip margs urls client_ls url false = Ok l).
  { unfold cmd_ls in *. destruct url as [[|c r]|]; auto. apply rbind_Ok in H as (q & H & K). rewrite (request_lax _ _ _ _ _ _ H). exact K. }
  rewrite E. cbn [rbind]. destruct l; eexists; (split; [reflexivity|constructor]). discriminate.
Qed.
(** Whatever is printed is answered by the gateway, unless no configured URL matches. *)
Theorem C129_schema_back : forall url ct f p, asks_for ct f -> cli_schema url f = Ok p ->
  (exists o, gateway_schema url ct = Ok o /\ prints o p) \/ gateway_schema url ct = Err ValueError.
Proof.
  intros url ct f p A H. unfold Cli.gateway_schema.
  assert (requested_format ct = Ok f) as -> by (destruct A; reflexivity). cbn [rbind].
  unfold Cli.cli_schema, cmd_schema in *. apply rbind_Ok in H as (o & H & K). apply rbind_Ok in H as (q & H & L).
  destruct (request_strict _ _ _ _ _ _ H) as [E|E]; rewrite E; cbn [rbind]; auto. left. exists o. destruct q as [[c kw] args].
  split; auto. apply rbind_Ok in L as (t & _ & S). apply output_shape in S. destruct f, S as [d ->]; injection K as <-; constructor.
Qed.
Theorem C129_ls_back : forall url p, cli_ls url = Ok p ->
  (exists l, gateway_ls url = Ok l /\ lists l p) \/ gateway_ls url = Err ValueError.
Proof.
  intros url p H. unfold Cli.gateway_ls, Cli.cli_ls in *. apply rbind_Ok in H as (l & H & K).
  assert (LP : lists l p) by (destruct l; injection K as <-; constructor; discriminate).
  unfold cmd_ls in *. destruct url as [[|c r]|]; eauto. apply rbind_Ok in H as (q & H & L).
  destruct (request_strict _ _ _ _ _ _ H) as [E|E]; rewrite E; cbn [rbind]; eauto.
Qed.
(** Printing itself never fails: an error is one of the request, the client or the converter. *)
Theorem C129_printed : forall url f o, cmd_schema ip margs urls client_schema url f false = Ok o -> exists p, cli_schema url f = Ok p.
Proof.
  intros url f o H. unfold Cli.cli_schema. rewrite H. cbn [rbind]. unfold cmd_schema in H.
  apply rbind_Ok in H as ([[c kw] args] & _ & H). apply rbind_Ok in H as (t & _ & S). apply output_shape in S. destruct f, S as [d ->]; eauto.
Qed.
(** Without a URL the configured ones are listed in order, none with user name or password. *)
Theorem C129_root : forall l, gateway_ls None = Ok l ->
  Forall2 (fun url out => forall s r, urlsplit ip url = Ok s -> u_scheme s <> "" -> hostname (u_netloc s) <> None ->
    urlsplit ip out = Ok r -> opt_text (username (u_netloc r)) = "" /\ opt_text (password (u_netloc r)) = "") urls l.
Proof.
  unfold Cli.gateway_ls, cmd_ls, safe_urls. induction urls as [|u us IH]; cbn [rmap]; intros l H.
  - injection H as <-. constructor.
  - apply rbind_Ok in H as (o & E & H). apply rbind_Ok in H as (os & F & H). injection H as <-. constructor; auto.
    intros s r U N M V. exact (Properties_Url.C27_listed_urls_have_no_credentials ip u s o r U N M E V).
Qed.
End Clients.
(** What the gateway answers for a PostgreSQL or MySQL URL, and the command line prints, are the names of
    what is there. *)
Theorem C129_servers : forall ip margs W c loc names urls ch pa,
  c = Postgresql \/ c = Mysql -> located ip loc -> Forall plain_name names -> no_queries ip urls ->
  distinct (server_tree c W) -> connectable c W names -> below (server_tree c W) names = Some (Branch ch) ->
  parse_url ip urls "ls" (db_url c loc names) true = Ok pa ->
  exists l p, gateway_ls ip margs urls (Browse.client_ls W) (Some (db_url c loc names)) = Ok l /\ Permutation l (map fst ch) /\
    cli_ls ip margs urls (Browse.client_ls W) (Some (db_url c loc names)) = Ok p /\ lists l p.
Proof.
  intros ip margs W c loc names urls ch pa C L F Q D K B P.
  destruct (Properties_Browse.C98_listed_partial ip margs W c loc names urls true ch pa C L F Q D K B P) as (l & E & M).
  assert (G : gateway_ls ip margs urls (Browse.client_ls W) (Some (db_url c loc names)) = Ok l).
  { rewrite <- E. unfold gateway_ls, cmd_ls, Browse.ls. destruct C as [-> | ->]; reflexivity. }
  destruct (C129_ls _ _ _ _ _ _ G) as (p & X & Y). exists l, p. auto.
Qed.
Print Assumptions C129_root.
Print Assumptions C129_servers.
Print Assumptions C129_schema.
Print Assumptions C129_ls.
Print Assumptions C129_schema_back.
Print Assumptions C129_ls_back.
Print Assumptions C129_printed.

(** ** Cases *)
(** One configured database with one table; everything below it is listed as empty. *)
Definition shop_urls : list string := ["mysql://u:secret@db/shop"].
Definition shop_ls (c : client) (kw : dict) (args : list pyval) : res (list string) :=
  match c, args with Mysql, [PStr "shop"] => Ok ["orders"] | _, _ => Ok [] end.
Definition shop_schema (c : client) (kw : dict) (args : list pyval) : res rtype :=
  match c, args with
  | Mysql, [PStr "shop"; PStr "orders"] =>
      Ok (TStruct (mkC PNone (PStr "shop.orders") PNone []) [TInt (mkC PNone PNone PNone [("name", PStr "id")]) (PInt 32) (PBool true)])
  | _, _ => Err KeyError
  end.
Notation shop f := (f Properties_Browse.no_ip6 Properties_Browse.my_args shop_urls).
Definition orders_url : string := "mysql://db/shop/orders".
Example C129_case :
  shop gateway_ls shop_ls None = Ok ["mysql://db/shop"] /\
  shop gateway_ls shop_ls (Some "mysql://db/shop") = Ok ["orders"] /\
  shop cli_ls shop_ls (Some "mysql://db/shop") = Ok (Json (PList [PStr "orders"])) /\
  shop cli_ls shop_ls (Some "mysql://other/shop") = Ok (Json (PList [PStr "orders"])) /\
  shop gateway_ls shop_ls (Some "mysql://other/shop") = Err ValueError /\
  (exists d, shop gateway_schema shop_schema orders_url (Some "application/schema+json") = Ok (ODocument (PDict d)) /\
     shop cli_schema shop_schema orders_url FJson = Ok (Json (PDict d)) /\ dmem "$defs" d = true) /\
  (exists d, shop gateway_schema shop_schema orders_url None = Ok (ODocument (PDict d)) /\
     shop cli_schema shop_schema orders_url FRecap = Ok (Json (PDict d)) /\ dget "type" d = Some (PStr "struct")) /\
  (exists file, shop gateway_schema shop_schema orders_url (Some "application/x-protobuf") = Ok (OProto file) /\
     shop cli_schema shop_schema orders_url FProtobuf = Ok (ProtoText file)).
Proof.
  repeat (split; [vm_compute; reflexivity|]). split; [|split].
  1,2: eexists; split; [vm_compute; reflexivity|]; split; vm_compute; reflexivity.
  eexists. split; vm_compute; reflexivity.
Qed.
Example C129_server_case : exists l p,
  gateway_ls Properties_Browse.no_ip6 Properties_Browse.my_args ["postgresql://u:p@db:5432/sales"] (Browse.client_ls Properties_Browse.here)
    (Some (db_url Postgresql "db:5432" ["sales"])) = Ok l /\ Permutation l ["public"; "empty"] /\
  cli_ls Properties_Browse.no_ip6 Properties_Browse.my_args ["postgresql://u:p@db:5432/sales"] (Browse.client_ls Properties_Browse.here)
    (Some (db_url Postgresql "db:5432" ["sales"])) = Ok p /\ lists l p.
Proof.
  assert (P : exists pa, parse_url Properties_Browse.no_ip6 ["postgresql://u:p@db:5432/sales"] "ls" (db_url Postgresql "db:5432" ["sales"]) true = Ok pa)
    by (eexists; vm_compute; reflexivity).
  destruct P as [pa P].
  apply (C129_servers Properties_Browse.no_ip6 Properties_Browse.my_args Properties_Browse.here Postgresql "db:5432" ["sales"]
    ["postgresql://u:p@db:5432/sales"] (schema_trees Properties_Browse.sales) pa); auto.
  - repeat split; try reflexivity; [discriminate|]. eexists. reflexivity.
  - repeat constructor; discriminate.
  - intros x s [<-|[]] E. vm_compute in E. injection E as <-. reflexivity.
  - apply Properties_Browse.here_distinct; auto.
  - eexists; split; reflexivity.
Qed.
