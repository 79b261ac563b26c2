(** Property theorems for recap/types.py (C01-C16, C56, C57).
    Every theorem is closed by a lemma proved elsewhere; beside it a concrete case
    meets its hypotheses. *)
From Coq Require Import String Ascii List ZArith QArith Bool.
From Verif Require Import PyVal RType Regex Registry FromDict ToDict Nullable SpecTypes
  PyValFacts FromDictFacts RoundTrip RegexFacts RegistryFacts NullableFacts TypesMore Equality.
Import ListNotations.
Open Scope nat_scope.
Open Scope string_scope.
Open Scope list_scope.

(** A document with a struct, an alias, a reference with an override, an optional
    field, a list and a union: used by the examples below. *)
Definition doc_field (n : string) (d : list (string * pyval)) : pyval := PDict (("name", PStr n) :: d).
Definition sample_doc : pyval :=
  PDict [("type", PStr "struct"); ("alias", PStr "com.example.Person"); ("doc", PStr "a person");
         ("fields", PList
            [ doc_field "id" [("type", PStr "int"); ("bits", PInt 64); ("alias", PStr "com.example.Id")];
              doc_field "boss" [("type", PStr "com.example.Id"); ("optional", PBool true); ("note", PInt 7)];
              doc_field "tags" [("type", PStr "list"); ("values", PList [PStr "null"; PStr "string32"])];
              doc_field "props" [("type", PStr "map"); ("keys", PStr "string"); ("values", PStr "bytes")] ])].
Definition sample_type : rtype :=
  match from_dict_new sample_doc with (_, Ok t) => t | _ => TNull c0 end.
Definition sample_registry : registry := fst (from_dict_new sample_doc).

Lemma sample_accepted : from_dict sample_doc builtin_aliases = (sample_registry, Ok sample_type).
Proof. vm_compute. reflexivity. Qed.
Lemma sample_wf : pwf sample_doc.
Proof.
  repeat constructor; simpl; try (intuition discriminate); auto.
Qed.

(** ** C01 *)
Theorem C01_verbose_roundtrip : forall j R R' t,
  pwf j -> from_dict j R = (R', Ok t) ->
  exists d, to_dict false false t = Ok d /\ from_dict d R = (R', Ok t).
Proof. exact verbose_roundtrip. Qed.
Print Assumptions C01_verbose_roundtrip.

Example C01_case : exists d, to_dict false false sample_type = Ok d /\ d <> sample_doc /\
  from_dict d builtin_aliases = (sample_registry, Ok sample_type).
Proof. eexists. split; [vm_compute; reflexivity|]. split; [discriminate|vm_compute; reflexivity]. Qed.

(** ** C02 *)
Theorem C02_limits : forall j R R' t s,
  pwf j -> from_dict j R = (R', Ok t) -> node_of s t -> within_limits s.
Proof. exact from_dict_limits. Qed.
Print Assumptions C02_limits.

Example C02_case : node_of (TInt (mkC PNone (PStr "com.example.Id") PNone [("name", PStr "id")]) (PInt 64) (PBool true))
                     sample_type.
Proof. eapply node_child; [left; reflexivity|]. vm_compute. constructor. Qed.
(** The limits are not vacuous: 0 bits and a fixed string without length are rejected. *)
Example C02_rejects :
  snd (from_dict_new (PList [PDict [("type", PStr "int"); ("bits", PInt 0)]])) = Err ValueError /\
  snd (from_dict_new (PDict [("type", PStr "string"); ("variable", PBool false)])) = Err ValueError.
Proof. split; vm_compute; reflexivity. Qed.

(** ** C03
    [from_dict j] is [from_dict_f (psize j) j]; the fuel is never exhausted and any larger
    fuel gives the same result, so the recursion is well founded. *)
Theorem C03_terminates : forall j R,
  snd (from_dict j R) <> Err OutOfFuel /\
  forall n, psize j <= n -> from_dict_f n j R = from_dict j R.
Proof.
  exact (fun j R => conj (from_dict_total j R)
                      (fun n H => from_dict_f_fuel n (psize j) j R H (le_n _))).
Qed.
Print Assumptions C03_terminates.

Example C03_case : snd (from_dict_f 2 sample_doc builtin_aliases) = Err OutOfFuel /\
                   snd (from_dict sample_doc builtin_aliases) = Ok sample_type.
Proof. split; vm_compute; reflexivity. Qed.

(** ** C04 *)
Theorem C04_aliases : forall j R R' t,
  pwf j -> from_dict j R = (R', Ok t) ->
  exists E, R' = R ++ E /\ map PStr (dkeys E) = defined_aliases t /\ NoDup (dkeys E) /\
    (forall a, In a (dkeys E) -> ~ In a (dkeys R) /\ dotted_name a) /\
    (forall a e, In (a, e) E ->
       exists s, node_of s t /\ is_proxy s = false /\ c_alias (get_c s) = PStr a /\
                 forget e = forget (without_label s)).
Proof. exact from_dict_eff. Qed.
Print Assumptions C04_aliases.

Example C04_case : defined_aliases sample_type = [PStr "com.example.Id"; PStr "com.example.Person"] /\
  snd (from_dict_new (PList [sample_doc; sample_doc])) = Err ValueError /\
  snd (from_dict_new (PDict [("type", PStr "bool"); ("alias", PStr "int32")])) = Err ValueError.
Proof. split; [|split]; vm_compute; reflexivity. Qed.

(** ** C05
    [run h R]: the registry after the calls [h], failing calls included. *)
Theorem C05_registry_grows : forall h R a e,
  dget a R = Some e -> dget a (run h R) = Some e.
Proof. exact run_keeps. Qed.
Print Assumptions C05_registry_grows.

(** A name that was not present refers, after any history, to the first type of the
    history that carries it as alias, provided it is a dotted name. *)
Theorem C05_first_registration_wins : forall h R a, dget a R = None ->
  match dget a (run h R) with
  | None => dotted_name a -> find (names a) h = None
  | Some e => dotted_name a /\ exists t, find (names a) h = Some t /\ forget e = forget (without_label t)
  end.
Proof. exact run_spec. Qed.
Print Assumptions C05_first_registration_wins.

Theorem C05_failure_changes_nothing : forall t R R' e,
  register_alias t R = (R', Err e) -> R' = R.
Proof. exact register_alias_fail. Qed.
Print Assumptions C05_failure_changes_nothing.

Definition al (a : string) : common := mkC PNone (PStr a) PNone [].
Example C05_case :
  let h := [TBool (al "x.y"); TNull (al "x.y"); TNull (al "int32"); TNull (al "plain"); TNull (al "x.z")] in
  dget "x.y" (run h builtin_aliases) = Some (TBool c0) /\
  dget "x.z" (run h builtin_aliases) = Some (TNull c0) /\
  dget "plain" (run h builtin_aliases) = None /\
  dget "int32" (run h builtin_aliases) = Some (TInt c0 (PInt 32) (PBool true)).
Proof. vm_compute. auto. Qed.

(** ** C06 *)
Theorem C06_alias_grammar : forall t a R, c_alias (get_c t) = PStr a -> ~ In a (dkeys R) ->
  (snd (register_alias t R) = Ok tt <-> dotted_name a).
Proof.
  exact (fun t a R Ha Hn =>
    conj
      (fun H => match register_alias t R as r return
                  (register_alias t R = r -> snd r = Ok tt -> dotted_name a) with
                | (R', r) => fun E Hr =>
                    match proj1 (register_alias_spec t R R') (eq_trans E (f_equal (pair R') Hr)) with
                    | ex_intro _ b (conj Hb (conj _ (conj Hd _))) =>
                        eq_ind_r dotted_name Hd
                          (f_equal (fun v => match v with PStr s => s | _ => a end) (eq_trans (eq_sym Ha) Hb))
                    end
                end eq_refl H)
      (fun Hd => f_equal snd (proj2 (register_alias_spec t R _)
                   (ex_intro _ a (conj Ha (conj Hn (conj Hd eq_refl))))))).
Qed.
Print Assumptions C06_alias_grammar.

Example C06_case : snd (register_alias (TBool (al "_a1.B_2.c")) builtin_aliases) = Ok tt /\
  Forall (fun a => snd (register_alias (TBool (al a)) builtin_aliases) = Err ValueError)
    ["a"; ""; "a."; ".a"; "a..b"; "a.1"; "1.a"; "a.b-c"; "a.b "].
Proof. split; [vm_compute; reflexivity|]. repeat constructor. Qed.

(** ** C07
    Full property: every attribute given on a reference overrides that attribute of
    the registered type.  Missing from the partial theorem: doc and logical are
    dropped and the length of strings and bytes is not overridden (see the refutation). *)
Theorem C07_resolve_overrides_partial : forall t R R1 E c a,
  register_alias t R = (R1, Ok tt) -> c_alias (get_c t) = PStr a ->
  c_alias c = PStr a -> NoDup (dkeys (c_extra c)) ->
  (forall k, In k (dkeys (c_extra c)) -> data_name k) ->
  exists u, resolve (R1 ++ E) (TProxy c None) = Ok u /\ same_shape t u /\
    forall k, k <> "extra_attrs" ->
      attribute u k =
        match dget k (c_extra c) with
        | Some v => Some v
        | None => if String.eqb k "alias" then Some PNone else if String.eqb k "doc" then Some PNone
                  else if String.eqb k "default" then None else attribute t k
        end.
Proof. exact resolve_spec. Qed.
Print Assumptions C07_resolve_overrides_partial.

Example C07_case :
  let t := TInt (mkC (PStr "L") (PStr "x.y") (PStr "d") [("default", PInt 1); ("unit", PStr "s")]) (PInt 8) (PBool true) in
  let R1 := fst (register_alias t builtin_aliases) in
  register_alias t builtin_aliases = (R1, Ok tt) /\
  resolve R1 (TProxy (mkC PNone (PStr "x.y") PNone [("bits", PInt 16); ("scale", PInt 3)]) None)
  = Ok (TInt (mkC (PStr "L") PNone PNone [("unit", PStr "s"); ("scale", PInt 3)]) (PInt 16) (PBool true)).
Proof. split; vm_compute; reflexivity. Qed.

(** A reference parsed from a document with doc, logical or bytes does not apply them. *)
Theorem C07_resolve_overrides_refuted :
  exists j R t u,
    j = PDict [("type", PStr "uuid"); ("doc", PStr "D"); ("logical", PStr "L"); ("bytes", PInt 40)] /\
    from_dict_new j = (R, Ok t) /\ resolve R t = Ok u /\
    attribute u "doc" = Some PNone /\ attribute u "logical" = Some (PStr "build.recap.UUID") /\
    attribute u "bytes_" = Some (PInt 36).
Proof. do 4 eexists. split; [reflexivity|]. split; [vm_compute; reflexivity|]. vm_compute. auto. Qed.
Print Assumptions C07_resolve_overrides_refuted.

(** ** C08
    Full property: the inner reference of a recursive type can be resolved again and
    again.  The first unfolding works (C07).  The second never does, for any type
    that refers to itself. *)
Definition recursive_doc : pyval :=
  PDict [("type", PStr "struct"); ("alias", PStr "a.Node");
         ("fields", PList [doc_field "next" [("type", PStr "a.Node"); ("optional", PBool true)]])].

Theorem C08_unfolding_refuted :
  exists R t u p,
    from_dict_new recursive_doc = (R, Ok t) /\
    resolve R (TProxy (al "a.Node") None) = Ok u /\
    node_of p u /\ p = TProxy (al "a.Node") (Some builtin_aliases) /\ resolve R p = Err TypeError.
Proof.
  do 4 eexists. split; [vm_compute; reflexivity|]. split; [vm_compute; reflexivity|].
  split; [|split; [reflexivity|vm_compute; reflexivity]].
  eapply node_child; [left; reflexivity|]. eapply node_child; [right; left; reflexivity|]. constructor.
Qed.
Print Assumptions C08_unfolding_refuted.

Theorem C08_second_unfolding_always_fails : forall t R R1 E a c u c2 r2 x,
  twf t -> register_alias t R = (R1, Ok tt) -> c_alias (get_c t) = PStr a ->
  c_alias c = PStr a -> resolve (R1 ++ E) (TProxy c None) = Ok u ->
  In x (children u) -> node_of (TProxy c2 r2) x -> c_alias c2 = PStr a ->
  forall Rlive, resolve Rlive (TProxy c2 r2) = Err TypeError.
Proof. exact second_unfolding. Qed.
Print Assumptions C08_second_unfolding_always_fails.

(** ** C09 *)
Theorem C09_make_nullable : forall t, no_clash t ->
  exists self' c ts, make_nullable t = (self', Ok (TUnion c ts)) /\
    existsb is_null ts = true /\
    c_doc c = c_doc (get_c t) /\
    dget "default" (c_extra c) = Some (match dget "default" (c_extra (get_c t)) with Some v => v | None => PNone end) /\
    dget "name" (c_extra c) = dget "name" (c_extra (get_c t)) /\
    match t with
    | TUnion ct ms =>
        ts = (if is_nullable t then ms else TNull c0 :: ms) /\
        c_logical c = c_logical ct /\ c_alias c = c_alias ct /\
        (forall k, k <> "default" -> dget k (c_extra c) = dget k (c_extra ct))
    | _ =>
        c_logical c = PNone /\ c_alias c = PNone /\
        (forall k, In k (dkeys (c_extra c)) -> k = "default" \/ k = "name") /\
        exists u, ts = (if is_nullable t then [u] else [TNull c0; u]) /\ same_shape t u /\
          attribute u "doc" = Some PNone /\ attribute u "default" = None /\ attribute u "name" = None /\
          (forall k, k <> "doc" -> k <> "default" -> k <> "name" -> attribute u k = attribute t k)
    end /\
    snd (make_nullable (TUnion c ts)) = Ok (TUnion c ts).
Proof. exact make_nullable_spec. Qed.
Print Assumptions C09_make_nullable.

(** Every type returned by from_dict meets the hypothesis. *)
Theorem C09_applies_to_parsed_types : forall j R R' t,
  pwf j -> from_dict j R = (R', Ok t) -> no_clash t.
Proof. exact parsed_no_clash. Qed.
Print Assumptions C09_applies_to_parsed_types.

Example C09_case : exists self' c ts,
  make_nullable sample_type = (self', Ok (TUnion c ts)) /\ length ts = 2 /\
  c_doc c = PStr "a person".
Proof. do 3 eexists. vm_compute. auto. Qed.

(** ** C10
    Full property: make_nullable never changes its receiver.  It holds exactly for
    receivers without default and name that are not unions lacking a null member. *)
Theorem C10_receiver_partial : forall t, no_clash t ->
  (fst (make_nullable t) = t <->
   ~ In "default" (dkeys (c_extra (get_c t))) /\ ~ In "name" (dkeys (c_extra (get_c t))) /\
   (is_union t = false \/ is_nullable t = true)).
Proof. exact make_nullable_receiver. Qed.
Print Assumptions C10_receiver_partial.

Theorem C10_receiver_refuted :
  exists t, fst (make_nullable t) <> t /\
            from_dict_new (PDict [("type", PStr "bool"); ("name", PStr "f"); ("default", PBool true)])
            = (builtin_aliases, Ok t).
Proof. eexists. split; [|vm_compute; reflexivity]. vm_compute. discriminate. Qed.
Print Assumptions C10_receiver_refuted.

(** ** C11
    [awf] is the representation invariant of type objects: attribute dicts have
    unique keys. *)
Theorem C11_equality_refl : forall t, awf t -> rt_eq t t = true.
Proof. exact rt_eq_refl. Qed.
Print Assumptions C11_equality_refl.
Theorem C11_equality_sym : forall t u, awf t -> awf u -> rt_eq t u = true -> rt_eq u t = true.
Proof. exact rt_eq_sym_imp. Qed.
Print Assumptions C11_equality_sym.
Theorem C11_equality_trans : forall t u v, rt_eq t u = true -> rt_eq u v = true -> rt_eq t v = true.
Proof. exact rt_eq_trans. Qed.
Print Assumptions C11_equality_trans.
Theorem C11_equal_same_nullability : forall t u, rt_eq t u = true -> is_nullable t = is_nullable u.
Proof. exact rt_eq_nullable. Qed.
Print Assumptions C11_equal_same_nullability.
Theorem C11_applies_to_parsed_types : forall j R R' t, pwf j -> from_dict j R = (R', Ok t) -> awf t.
Proof. exact parsed_awf. Qed.
Print Assumptions C11_applies_to_parsed_types.

(** Two types are equal exactly when they are of the same class and have the same attributes and
    parts. *)
Theorem C11_equality_meaning : forall t u, awf t -> awf u -> (rt_eq t u = true <-> type_same t u).
Proof. exact rt_eq_same. Qed.
Print Assumptions C11_equality_meaning.

Example C11_case :
  let t := TInt (mkC PNone PNone PNone [("a", PInt 1); ("b", PStr "x")]) (PInt 32) (PBool true) in
  let u := TInt (mkC PNone PNone PNone [("b", PStr "x"); ("a", PFloat 1)]) (PFloat 32) (PInt 1) in
  t <> u /\ rt_eq t u = true /\ rt_eq t (TInt c0 (PInt 32) (PBool true)) = false.
Proof. split; [discriminate|vm_compute; auto]. Qed.

(** ** C16 *)
Theorem C16_struct_fields : forall d l R R' t,
  not_optional d -> dget "type" d = Some (PStr "struct") -> dget "fields" d = Some (PList l) ->
  from_dict (PDict d) R = (R', Ok t) -> exists c fs, t = TStruct c fs /\ Forall2 parses l fs.
Proof. exact struct_fields. Qed.
Print Assumptions C16_struct_fields.

(** Missing from the full property: a type list with entries that are neither
    documents nor names (for example nested lists). *)
Theorem C16_union_members_partial : forall d l R R' t,
  not_optional d ->
  (dget "type" d = Some (PStr "union") /\ dget "types" d = Some (PList l))
  \/ (dget "type" d = Some (PList l) /\ forallb is_doc l = true) ->
  from_dict (PDict d) R = (R', Ok t) -> exists c ts, t = TUnion c ts /\ Forall2 parses l ts.
Proof. exact union_members. Qed.
Print Assumptions C16_union_members_partial.

Theorem C16_list_members : forall l R R' t, from_dict (PList l) R = (R', Ok t) ->
  exists c ts, t = TUnion c ts /\ Forall2 parses l ts.
Proof. exact list_members. Qed.
Print Assumptions C16_list_members.

(** The field keeps the name given in its document, also through the optional shorthand. *)
Theorem C16_names_kept : forall d R R' t, from_dict (PDict d) R = (R', Ok t) ->
  kwarg "name" PNone (c_extra (get_c t)) = kwarg "name" PNone d.
Proof. exact from_dict_name. Qed.
Print Assumptions C16_names_kept.

Theorem C16_type_list_refuted :
  exists l R t c, length l = 2 /\
    from_dict_new (PDict [("type", PList l)]) = (R, Ok t) /\ t = TUnion c [TNull c0].
Proof.
  exists [PStr "null"; PList [PStr "bool"; PStr "string"]]. do 3 eexists.
  split; [reflexivity|]. split; vm_compute; reflexivity.
Qed.
Print Assumptions C16_type_list_refuted.

Example C16_case : match sample_type with
  | TStruct _ fs => map (fun f => kwarg "name" PNone (c_extra (get_c f))) fs
                    = [PStr "id"; PStr "boss"; PStr "tags"; PStr "props"]
  | _ => False
  end.
Proof. vm_compute. reflexivity. Qed.

(** ** C56
    Full property: a rejected document leaves the registry as it was.  Proved: existing
    entries always survive.  Aliases of inner types stay registered. *)
Theorem C56_rejected_document_partial : forall j R, exists E, fst (from_dict j R) = R ++ E.
Proof. exact (fun j => mono_from_dict_f (psize j) j). Qed.
Print Assumptions C56_rejected_document_partial.

Theorem C56_rejected_document_refuted :
  exists j R, from_dict_new j = (R, Err ValueError) /\ In "a.b" (dkeys R) /\ ~ In "a.b" (dkeys builtin_aliases).
Proof.
  exists (PList [PDict [("type", PStr "bool"); ("alias", PStr "a.b")]; PDict [("type", PStr "int")]]).
  eexists. split; [vm_compute; reflexivity|]. split; simpl; intuition discriminate.
Qed.
Print Assumptions C56_rejected_document_refuted.

(** ** C57 *)
Theorem C57_optional_shorthand : forall d v R R' t,
  dget "optional" d = Some v -> truthy v = true -> kwarg "type" PNone d <> PStr "union" ->
  from_dict (PDict d) R = (R', Ok t) ->
  exists c n u, t = TUnion c [n; u] /\ n = TNull c0 /\
    from_dict (PDict (ddel "default" (ddel "name" (ddel "optional" d)))) R = (R', Ok u) /\
    c_alias c = PNone /\ c_logical c = PNone /\ c_doc c = PNone /\
    dget "default" (c_extra c) = Some (kwarg "default" PNone d) /\
    kwarg "name" PNone (c_extra c) = kwarg "name" PNone d /\
    (forall k, In k (dkeys (c_extra c)) -> k = "default" \/ k = "name").
Proof. exact optional_shorthand. Qed.
Print Assumptions C57_optional_shorthand.

Example C57_case :
  from_dict_new (PDict [("type", PStr "int"); ("bits", PInt 8); ("optional", PBool true); ("name", PStr "n"); ("default", PInt 3)])
  = (builtin_aliases, Ok (TUnion (mkC PNone PNone PNone [("name", PStr "n"); ("default", PInt 3)])
                            [TNull c0; TInt c0 (PInt 8) (PBool true)])).
Proof. vm_compute. reflexivity. Qed.

(** ** C81: built-in types have the width in their name
    Proved for all but uuid, which has no number in its name, string32 and bytes32. *)
Theorem C81_widths_partial : forall a t, In (a, t) builtin_aliases -> a <> "uuid" -> ~ In a ["string32"; "bytes32"] ->
  has_width t (width a) /\ has_kind a t.
Proof. exact builtin_widths. Qed.
Print Assumptions C81_widths_partial.
Example C81_case : In ("decimal256", TBytes (lge "build.recap.Decimal" [("precision", PInt 56); ("scale", PInt 28)]) (PInt 32) (PBool false)) builtin_aliases /\
  width "decimal256" = 256%Z /\ width "timestamp64" = 64%Z.
Proof. split; [vm_compute; tauto|]. split; reflexivity. Qed.
(** The longest string32 is one longer than a 32 bit length allows. *)
Theorem C81_widths_refuted : exists t, In ("string32", t) builtin_aliases /\ ~ has_width t (width "string32").
Proof. eexists. split; [vm_compute; tauto|]. vm_compute. discriminate. Qed.
Print Assumptions C81_widths_refuted.
