(** Property theorems for the JSON Schema converter (C38-C40, C77-C80). *)
From Coq Require Import String Ascii List NArith ZArith QArith Bool Lia.
From Verif Require Import PyVal RType Regex RegexFacts Registry FromDict SpecTypes RoundTrip Url JsonSchema JsonFacts SpecJson JsonWrite JsonProps JsonRead JsonRefs JsonTrip JsonUrn.
Import ListNotations.
Open Scope nat_scope.
Open Scope string_scope.
Open Scope list_scope.

Definition nm (s : string) : common := mkC PNone PNone PNone [("name", PStr s)].
Definition alias (a : string) : common := mkC PNone (PStr a) PNone [].
Definition opt (s : string) (t : rtype) : rtype := TUnion (mkC PNone PNone PNone [("default", PNone); ("name", PStr s)]) [TNull c0; t].
Definition str : rtype := TString c0 PNone (PBool true).

(** ** C38: the list of required properties is exact *)
(** For the outermost struct. *)
Theorem C38_required : forall R c fs d, not_aliased (TStruct c fs) -> js_from R (TStruct c fs) = Ok d ->
  exists ns ps, Forall2 named fs ns /\ holds d "type" (PStr "object") /\ holds d "properties" (PDict ps) /\
    (forall n, In n (dkeys ps) <-> In n ns) /\
    (NoDup ns -> dkeys ps = ns /\ Forall2 (fun f n => exists p, converts R true f p /\ holds ps n (PDict p)) fs ns) /\
    (forall n, required_name d n <-> exists f, In (f, n) (combine fs ns) /\ ~ optional_union f).
Proof. exact from_required. Qed.
Print Assumptions C38_required.
(** For a struct in any other place; one with an alias is written in "$defs". *)
Theorem C38_nested : forall R u c fs d, (u = false \/ not_aliased (TStruct c fs)) -> converts R u (TStruct c fs) d ->
  exists ns ps, Forall2 named fs ns /\ holds d "type" (PStr "object") /\ holds d "properties" (PDict ps) /\
    (forall n, In n (dkeys ps) <-> In n ns) /\
    (NoDup ns -> dkeys ps = ns /\ Forall2 (fun f n => exists p, converts R true f p /\ holds ps n (PDict p)) fs ns) /\
    (forall n, required_name d n <-> exists f, In (f, n) (combine fs ns) /\ ~ optional_union f).
Proof. exact struct_required. Qed.
Print Assumptions C38_nested.
Definition person : rtype :=
  TStruct c0 [TInt (nm "age") (PInt 32) (PBool true); opt "mail" str;
              TUnion (nm "id") [TInt c0 (PInt 32) (PBool true); str]].
Example C38_case : exists d, js_from [] person = Ok d /\ not_aliased person /\
  dget "required" d = Some (PList [PStr "age"; PStr "id"]) /\ optional_union (opt "mail" str).
Proof.
  eexists. split; [vm_compute; reflexivity|]. split; [intros a; discriminate|]. split; [vm_compute; reflexivity|].
  exists (mkC PNone PNone PNone [("default", PNone); ("name", PStr "mail")]), [TNull c0], str, [].
  repeat split; try discriminate. repeat constructor.
Qed.

(** ** C39: properties that are not required are read as nullable with a default *)
Theorem C39_read : forall strategy d ps J J' t, dget "type" d = Some (PStr "object") -> dget "properties" d = Some (PDict ps) ->
  (forall v, dget "required" d = Some v -> exists l, v = PList l) ->
  js_parse strategy (PDict d) J = (J', Ok t) ->
  exists c fs, t = TStruct c fs /\
    Forall2 (fun p f => exists J1 J2 g, js_parse strategy (snd p) J1 = (J2, Ok g) /\
      (required_name d (fst p) /\ sets "name" (PStr (fst p)) g f \/
       ~ required_name d (fst p) /\ exists h, made_nullable g h /\ sets "name" (PStr (fst p)) h f)) ps fs.
Proof. exact object_read. Qed.
Print Assumptions C39_read.
Definition person_schema : pyval :=
  PDict [("type", PStr "object"); ("required", PList [PStr "b"]);
         ("properties", PDict [("a", PDict [("type", PStr "integer"); ("default", PInt 3)]);
                               ("b", PDict [("type", PStr "string")])])].
Example C39_case : js_to (urn_to_alias (fun _ => false)) person_schema [] =
  ([], Ok (TStruct c0 [TUnion (mkC PNone PNone PNone [("default", PInt 3); ("name", PStr "a")]) [TNull c0; TInt c0 (PInt 32) (PBool true)];
                       TString (nm "b") PNone (PBool true)])).
Proof. vm_compute. reflexivity. Qed.

(** ** C40: every "$ref" that is written points to a definition *)
(** Proved when all references inside the type are to built-in types and no alias is that of a
    built-in type. *)
Theorem C40_refs_partial : forall R t d, keeps_builtins R ->
  (forall s, shown s t -> is_proxy s = true -> builtin_reference s) ->
  (forall s a, shown s t -> defines s a -> user_name a) -> js_from R t = Ok d ->
  forall r, In r (schema_refs (PDict d)) ->
    exists a e, r = pointer a /\ dget a (definitions d) = Some (PDict e) /\ dget "$ref" e <> Some (pointer a).
Proof. exact refs_defined. Qed.
Print Assumptions C40_refs_partial.
Definition shared : rtype :=
  TStruct c0 [TStruct (mkC PNone (PStr "geo.point") PNone [("name", PStr "from")]) [TInt (nm "x") (PInt 32) (PBool true)];
              TList (nm "all") (TStruct (alias "geo.line") [TProxy (mkC PNone (PStr "int32") PNone [("name", PStr "n")]) None]) PNone (PBool true)].
Example C40_case : exists d, js_from builtin_aliases shared = Ok d /\
  schema_refs (PDict d) = [pointer "geo.point"; pointer "geo.line"] /\ dkeys (definitions d) = ["geo.point"; "geo.line"].
Proof. eexists. split; [vm_compute; reflexivity|]. split; vm_compute; reflexivity. Qed.
Example C40_case_ok : keeps_builtins builtin_aliases /\
  (forall s, shown s shared -> is_proxy s = true -> builtin_reference s) /\
  (forall s a, shown s shared -> defines s a -> user_name a).
Proof.
  split; [intros a _; reflexivity|].
  assert (S : forall s, shown s shared -> In s (shared :: shown_children shared ++
      [TInt (nm "x") (PInt 32) (PBool true); TStruct (alias "geo.line") [TProxy (mkC PNone (PStr "int32") PNone [("name", PStr "n")]) None];
       TProxy (mkC PNone (PStr "int32") PNone [("name", PStr "n")]) None])).
  { intros s S. inversion S as [|? c I1 S1]; subst; [now left|]. right. apply in_or_app.
    destruct I1 as [<-|[<-|[]]].
    - inversion S1 as [|? c I2 S2]; subst; [left; now left|]. destruct I2 as [<-|[]]. inversion S2 as [|? c I3 _]; subst; [right; now left|destruct I3].
    - inversion S1 as [|? c I2 S2]; subst; [left; right; now left|]. destruct I2 as [<-|[]].
      inversion S2 as [|? c I3 S3]; subst; [right; right; now left|]. destruct I3 as [<-|[]].
      inversion S3 as [|? c I4 _]; subst; [right; right; right; now left|destruct I4]. }
  split.
  - intros s I P. apply S in I. cbn [app shown_children shared In] in I. repeat (destruct I as [<-|I]; [try discriminate P|]); [|destruct I].
    eexists _, "int32". split; [reflexivity|]. split; [reflexivity|]. split; [vm_compute; tauto|]. cbn. intuition discriminate.
  - intros s a I [P A]. apply S in I. cbn [app shown_children shared In] in I. repeat (destruct I as [<-|I]; [try discriminate P; try discriminate A; injection A as <-; (split; [discriminate|vm_compute; intuition discriminate])|]).
    destruct I.
Qed.
(** False for a reference to an alias of the user, which is written as its own definition, and for
    an alias that shadows a built-in type, which has no definition. *)
Theorem C40_refs_refuted :
  (exists t d e, js_from builtin_aliases t = Ok d /\ In (pointer "a.b") (schema_refs (PDict d)) /\
     dget "a.b" (definitions d) = Some (PDict e) /\ dget "$ref" e = Some (pointer "a.b")) /\
  (exists t d, js_from builtin_aliases t = Ok d /\ In (pointer "int32") (schema_refs (PDict d)) /\
     dget "int32" (definitions d) = None).
Proof.
  split.
  - (* a recursive type: the definition of the struct is overridden *)
    exists (TStruct (alias "a.b") [TList (nm "l") (TProxy (alias "a.b") None) PNone (PBool true)]).
    eexists _, _. split; [vm_compute; reflexivity|]. split; [vm_compute; now left|].
    split; [vm_compute; reflexivity|vm_compute; reflexivity].
  - exists (TStruct c0 [TString (mkC PNone (PStr "int32") PNone [("name", PStr "s")]) PNone (PBool true)]).
    eexists. split; [vm_compute; reflexivity|]. split; [vm_compute; now left|vm_compute; reflexivity].
Qed.
Print Assumptions C40_refs_refuted.

(** ** C77: references that are read lead to the schema they name *)
(** Proved: a reference has the alias of the id of a schema that was read. *)
Theorem C77_references_partial : forall strategy j J J' t, js_to strategy j J = (J', Ok t) ->
  forall s, shown s t -> is_proxy s = true ->
  exists id a, (In id J \/ exists i, has_id j i /\ id = rstrip_char "#" i) /\ strategy id = Ok a /\ c_alias (get_c s) = PStr a.
Proof. exact refs_known. Qed.
Print Assumptions C77_references_partial.
(** False: the alias is not added to the registry, so that resolving the reference fails. *)
Definition tree_schema : pyval :=
  PDict [("$id", PStr "https://example.com/tree#"); ("type", PStr "object"); ("required", PList [PStr "left"]);
         ("properties", PDict [("left", PDict [("$ref", PStr "https://example.com/tree")])])].
Definition left_ref : rtype := TProxy (mkC PNone (PStr "com.example.tree") PNone [("name", PStr "left")]) None.
Theorem C77_references_refuted : forall ip,
  js_to (urn_to_alias ip) tree_schema [] = (["https://example.com/tree"], Ok (TStruct (alias "com.example.tree") [left_ref])) /\
  shown left_ref (TStruct (alias "com.example.tree") [left_ref]) /\
  forall R, dget "com.example.tree" R = None -> resolve R left_ref = Err TypeError.
Proof.
  intros ip. split; [vm_compute; reflexivity|]. split; [econstructor; [now left|constructor]|].
  intros R E. unfold left_ref, resolve. cbn [c_alias]. unfold from_alias, proxy_reg. now rewrite E.
Qed.
Print Assumptions C77_references_refuted.

(** ** C78: a struct written as a JSON schema is read back unchanged *)
(** Proved for booleans, 32 bit integers, 64 bit floats, strings, lists, structs and optional fields. *)
Theorem C78_round_trip_partial : forall R c fs, json_like [] (TStruct c fs) ->
  exists d, js_from R (TStruct c fs) = Ok d /\
    forall strategy J, js_to strategy (PDict d) J = (J, Ok (TStruct c fs)).
Proof. exact json_round_trip. Qed.
Print Assumptions C78_round_trip_partial.
Definition order : rtype :=
  TStruct (mkC PNone PNone (PStr "an order") [])
    [TInt (nm "id") (PInt 32) (PBool true); opt "note" str;
     TList (mkC PNone PNone (PStr "items") [("default", PList []); ("name", PStr "items")])
       (TStruct c0 [TFloat (nm "price") (PInt 64); TBool (nm "paid")]) PNone (PBool true)].
Example C78_case : json_like [] order.
Proof.
  assert (N : forall s, plain_attrs [("name", PStr s)] (nm s)) by (intros s; repeat split; auto).
  assert (Z : plain_attrs [] c0) by (repeat split; auto).
  split; [repeat split; auto; right; reflexivity|]. exists ["id"; "note"; "items"].
  split; [repeat constructor; cbn; intuition discriminate|]. split; [cbn; intuition discriminate|].
  split; [split; [apply N|auto]|]. split.
  - split; [repeat split; auto; right; eexists; reflexivity|]. split; [discriminate|]. split; [discriminate|].
    split; [reflexivity|]. split; [reflexivity|]. split; [reflexivity|]. split; [reflexivity|]. split; [exact Z|auto].
  - split; [|exact I]. split; [split; [reflexivity|split; [reflexivity|split; [right; reflexivity|right; eexists; reflexivity]]]|].
    split; [|auto]. split; [exact Z|]. exists ["price"; "paid"].
    split; [repeat constructor; cbn; intuition discriminate|]. split; [cbn; intuition discriminate|].
    split; [split; [apply N|auto]|]. split; [split; [apply N|auto]|exact I].
Qed.
(** False: a map, an enum, bytes and a plain union cannot be read back, or become another type. *)
Definition trip (t : rtype) : res rtype :=
  rbind (js_from [] (TStruct c0 [t])) (fun d => snd (js_to (fun s => Ok s) (PDict d) [])).
Theorem C78_round_trip_refuted :
  trip (TMap (nm "m") str str) = Err ValueError /\
  trip (TUnion (nm "u") [TBool c0; str]) = Err ValueError /\
  trip (TEnum (nm "e") (PList [PStr "A"])) = Ok (TStruct c0 [TString (nm "e") PNone (PBool true)]) /\
  trip (TBytes (nm "b") PNone (PBool true)) = Ok (TStruct c0 [TString (nm "b") PNone (PBool true)]).
Proof. split; [|split; [|split]]; vm_compute; reflexivity. Qed.
Print Assumptions C78_round_trip_refuted.

(** ** C79: the alias made from a schema id is legal *)
(** Proved for web addresses with a plain host and path. *)
Theorem C79_alias_partial : forall ip sch hs ss, sch = "http" \/ sch = "https" -> hs <> [] -> ss <> [] -> Forall word hs -> Forall word ss ->
  urn_to_alias ip (sch ++ "://" ++ join "." hs ++ "/" ++ join "/" ss) = Ok (String.concat "." (rev hs ++ map lower ss)) /\
  dotted_name (String.concat "." (rev hs ++ map lower ss)).
Proof. exact urn_alias. Qed.
Print Assumptions C79_alias_partial.
Example C79_case : urn_to_alias (fun _ => false) "https://Schemas.example.com/Sales/order2" = Ok "com.example.Schemas.sales.order2".
Proof. vm_compute. reflexivity. Qed.
(** False for ids without a host, with a port or a hyphen in the host, or a path part that starts
    with a digit: the type that is read cannot be stored under its alias. *)
Definition bad_alias (id a : string) : Prop :=
  forall ip, urn_to_alias ip id = Ok a /\ ~ dotted_name a /\ 
    forall R t, c_alias (get_c t) = PStr a -> snd (register_alias t R) = Err ValueError.
Theorem C79_alias_refuted :
  bad_alias "urn:example:order" ".example.order" /\ bad_alias "order.json" ".order.json" /\
  bad_alias "https://localhost:8080/order" "localhost:8080.order" /\
  bad_alias "https://my-company.com/order" "com.my-company.order" /\
  bad_alias "https://example.com/2020/order" "com.example.2020.order".
Proof.
  assert (B : forall id a, (forall ip, urn_to_alias ip id = Ok a) -> re_match alias_regex a = false -> bad_alias id a).
  { intros id a U M ip. split; [apply U|]. split; [intros D; apply alias_regex_spec in D; congruence|].
    intros R t A. unfold register_alias. rewrite A, M. destruct (dmem a R); reflexivity. }
  split; [|split; [|split; [|split]]]; (apply B; [intros ip|]; vm_compute; reflexivity).
Qed.
Print Assumptions C79_alias_refuted.

(** ** C80: both conversions end *)
Theorem C80_read : forall ip j J, snd (js_to (urn_to_alias ip) j J) <> Err OutOfFuel.
Proof. exact (fun ip => nof_js_to (urn_to_alias ip) (alias_ends ip)). Qed.
Print Assumptions C80_read.
(** Writing, for a type made from a document; the registry may hold types of earlier documents. *)
Theorem C80_write : forall j R R' t, settled_reg R -> from_dict j R = (R', Ok t) ->
  settled_reg R' /\ js_from R' t <> Err OutOfFuel.
Proof. intros j R R' t S H. apply parsed_settled in H as [S' A]; auto. split; auto. now apply nof_js_from. Qed.
Print Assumptions C80_write.
Theorem C80_start : settled_reg builtin_aliases.
Proof. exact builtin_settled. Qed.
Print Assumptions C80_start.
(** Recursive types: a reference that has a name is resolved, once. *)
Definition tree_dict (f : pyval) : pyval :=
  PDict [("type", PStr "struct"); ("alias", PStr "a.tree"); ("fields", PList [f])].
Example C80_case : exists R' t d,
  from_dict (tree_dict (PDict [("type", PStr "list"); ("values", PStr "a.tree"); ("name", PStr "kids")])) builtin_aliases = (R', Ok t) /\
  js_from R' t = Ok d /\ schema_refs (PDict d) = [pointer "a.tree"; pointer "a.tree"].
Proof. eexists _, _, _. split; [vm_compute; reflexivity|]. split; [vm_compute; reflexivity|]. vm_compute. reflexivity. Qed.
Example C80_case_named : exists R' t,
  from_dict (tree_dict (PDict [("type", PStr "a.tree"); ("name", PStr "left")])) builtin_aliases = (R', Ok t) /\
  js_from R' t = Err TypeError.
Proof. eexists _, _. split; [vm_compute; reflexivity|]. vm_compute. reflexivity. Qed.
