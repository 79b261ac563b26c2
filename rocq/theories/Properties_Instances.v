(** C101-C103: what JSON schemas describe, and the documents that they accept. *)
From Coq Require Import String Ascii List NArith ZArith QArith Bool Lia.
From Verif Require Import PyVal RType Registry SpecTypes Url JsonSchema SpecJson SpecInstances SpecJsonSchema
  JsonAccepts JsonValues JsonMeans JsonFits.
Import ListNotations.
Open Scope nat_scope.
Open Scope string_scope.
Open Scope list_scope.

(** ** C101: a JSON schema is read as the type that it describes *)
Theorem C101_reads : forall strategy j J' t, required_lists j -> js_to strategy j [] = (J', Ok t) ->
  (exists ids, means (fun i a => strategy i = Ok a) [] j t ids) /\ exists c fs, t = TStruct c fs.
Proof. exact to_means. Qed.
Print Assumptions C101_reads.

(** Every object that describes a struct is read. *)
Theorem C101_accepts : forall strategy j c fs ids, required_lists j ->
  means (fun i a => strategy i = Ok a) [] j (TStruct c fs) ids -> exists J' t, js_to strategy j [] = (J', Ok t).
Proof. exact to_accepted. Qed.
Print Assumptions C101_accepts.

Definition strategy : string -> res string := urn_to_alias (fun _ => false).
Definition node_id : string := "https://acme.com/node".
(** A list of numbers, as a schema that refers to itself. *)
Definition node_schema : pyval :=
  PDict [("$id", PStr node_id); ("type", PStr "object"); ("description", PStr "a node"); ("required", PList [PStr "n"]);
         ("properties", PDict
            [("n", PDict [("type", PStr "integer"); ("default", PInt 0)]);
             ("when", PDict [("type", PStr "string"); ("format", PStr "date"); ("description", PStr "day")]);
             ("tags", PDict [("type", PStr "array"); ("items", PDict [("type", PList [PStr "string"; PStr "null"])])]);
             ("next", PDict [("$ref", PStr node_id)])])].
Definition nmd (n : string) (df doc : pyval) : common := mkC PNone PNone doc [("default", df); ("name", PStr n)].
Definition node_type : rtype :=
  TStruct (mkC PNone (PStr "com.acme.node") (PStr "a node") [])
    [TInt (nmd "n" (PInt 0) PNone) (PInt 32) (PBool true);
     TUnion (nmd "when" PNone (PStr "day")) [TNull c0; TString (mkC (PStr "org.iso.8601.Date") PNone PNone []) PNone (PBool true)];
     TUnion (nmd "tags" PNone PNone) [TNull c0; TList c0 (TUnion c0 [TString c0 PNone (PBool true); TNull c0]) PNone (PBool true)];
     TUnion (nmd "next" PNone PNone) [TNull c0; TProxy (mkC PNone (PStr "com.acme.node") PNone []) None]].

Ltac each_tac tac :=
  lazymatch goal with
  | |- each _ (PDict _) => apply each_dict; [tac|repeat (apply Forall_cons; [cbn [snd]; each_tac tac|]); apply Forall_nil]
  | |- each _ (PList _) => apply each_list; repeat (apply Forall_cons; [each_tac tac|]); apply Forall_nil
  | |- each _ _ => apply each_other; exact Logic.I
  end.
Example C101_required : required_lists node_schema.
Proof.
  assert (E : each (fun d => forall v, dget "required" d = Some v -> exists l, v = PList l) node_schema).
  { unfold node_schema. each_tac ltac:(intros v; cbn [dget String.eqb Ascii.eqb Bool.eqb]; try discriminate; intros [= <-]; eauto). }
  intros d v I. exact (E d I v).
Qed.
Example C101_case : js_to strategy node_schema [] = ([node_id], Ok node_type).
Proof. vm_compute. reflexivity. Qed.
(** The hypothesis of [C101_accepts] for the same schema. *)
Example C101_accepts_case : exists c fs ids, means (fun i a => strategy i = Ok a) [] node_schema (TStruct c fs) ids.
Proof.
  destruct (C101_reads _ _ _ _ C101_required C101_case) as [[ids M] (c & fs & E)]. rewrite E in M. eauto.
Qed.

(** ** C102: documents that a JSON schema accepts are values of the type that is read *)
(** Proved for numbers of 32 bits, or 64 bits if they are not whole. *)
Theorem C102_values_partial : forall strategy j J' t v, proper_ids j -> js_to strategy j [] = (J', Ok t) ->
  accepts j j v -> small v -> value true (names_of t) t v.
Proof. exact accepted_value. Qed.
Print Assumptions C102_values_partial.

Definition number_schema : pyval :=
  PDict [("type", PStr "object"); ("required", PList [PStr "n"]); ("properties", PDict [("n", PDict [("type", PStr "integer")])])].
Ltac keyword_tac :=
  let k := fresh "k" in let s := fresh "s" in let G := fresh "G" in
  apply acc_object; intros k s G; cbn [dget] in G;
  repeat (match type of G with (if String.eqb _ ?n then _ else _) = _ =>
            let E := fresh "E" in destruct (String.eqb k n) eqn:E; [apply String.eqb_eq in E; subst k; injection G as <-|clear E] end);
  try discriminate G.
(** Larger numbers are accepted, but an "integer" is read as a type of 32 bits. *)
Theorem C102_values_refuted : forall strategy z, (2 ^ 31 <= z)%Z ->
  let v := PDict [("n", PInt z)] in
  exists J' t, accepts number_schema number_schema v /\ js_to strategy number_schema [] = (J', Ok t)
    /\ ~ value true (names_of t) t v.
Proof.
  intros strategy z Z v. eexists _, _. split; [|split; [reflexivity|]].
  - unfold number_schema at 2. keyword_tac.
    + apply kw_type. eapply ty_object. reflexivity.
    + apply kw_required. intros o n [= <-] [[= <-]|[]]. discriminate.
    + apply kw_properties. intros o k s x [= <-] [[= <- <-]|[]] [= <-]. keyword_tac. apply kw_type. apply (ty_integer _ z). reflexivity.
  - intros H. inversion H as [| | | | | | | |c fs o _ P _| | |]; subst.
    specialize (P _ "n" (PInt z) (or_introl eq_refl) eq_refl eq_refl). inversion P; subst.
    match goal with N : number _ _, R : int_range _ _ _ |- _ =>
      cbn in N; apply (proj1 (inject_Z_injective _ _)) in N; rewrite <- N in R; cbn in R; lia end.
Qed.
Print Assumptions C102_values_refuted.

Definition nodes : pyval :=
  PDict [("n", PInt 1); ("tags", PList [PStr "a"; PNone]); ("next", PDict [("n", PFloat 2); ("more", PBool true)])].
Lemma node_ids : proper_ids node_schema.
Proof.
  assert (E : each (fun d => dget "$id" d = None \/ PDict d = node_schema) node_schema).
  { unfold node_schema at 2. each_tac ltac:(first [left; reflexivity|right; reflexivity]). }
  split.
  - intros d i I G. apply E in I as [N|[= ->]]; [congruence|]. injection G as <-. intros [r [=]].
  - intros d d' i i' I I' G G' _. apply E in I as [N|[= ->]]; [congruence|]. apply E in I' as [N'|[= ->]]; [congruence|]. reflexivity.
Qed.
Lemma node_accepts v : (exists o, v = PDict o) ->
  (forall o, v = PDict o -> (exists x, dget "n" o = Some x /\ has_type x "integer")
    /\ (forall x, dget "when" o = Some x -> has_type x "string")
    /\ (forall x, dget "tags" o = Some x -> exists l, x = PList l /\ forall y, In y l -> has_type y "string" \/ has_type y "null")
    /\ (forall x, dget "next" o = Some x -> accepts node_schema node_schema x)) -> accepts node_schema node_schema v.
Proof.
  intros [o ->] H. destruct (H o eq_refl) as ((n & Hn & Tn) & Hw & Ht & Hx). unfold node_schema at 2. keyword_tac.
  - apply kw_other. cbn. intuition discriminate.
  - apply kw_type. eapply ty_object. reflexivity.
  - apply kw_other. cbn. intuition discriminate.
  - apply kw_required. intros o' m [= <-] [[= <-]|[]]. congruence.
  - apply kw_properties. intros o' k s x [= <-] I G. cbn [In] in I.
    destruct I as [[= <- <-]|[[= <- <-]|[[= <- <-]|[[= <- <-]|[]]]]].
    + keyword_tac; [apply kw_type; congruence|apply kw_other; cbn; intuition discriminate].
    + keyword_tac; try (apply kw_other; cbn; intuition discriminate). apply kw_type. now apply Hw.
    + destruct (Ht _ G) as (l & -> & Hl). keyword_tac.
      * apply kw_type. eapply ty_array. reflexivity.
      * apply kw_items. intros l' y [= <-] I. keyword_tac. destruct (Hl _ I) as [T|T]; (eapply kw_types; [|exact T]); cbn; auto.
    + keyword_tac. eapply kw_ref; [now left| |now apply Hx].
      eapply target_id; [constructor|reflexivity|reflexivity].
Qed.
(** The hypotheses of [C102_values_partial]; 2.0 is a whole number. *)
Example C102_case : proper_ids node_schema /\ js_to strategy node_schema [] = ([node_id], Ok node_type)
  /\ accepts node_schema node_schema nodes /\ small nodes.
Proof.
  split; [exact node_ids|]. split; [exact C101_case|]. split.
  - apply node_accepts; [eexists; reflexivity|]. intros o [= <-]. split; [|split; [|split]].
    + eexists. split; [reflexivity|]. apply (ty_integer _ 1). reflexivity.
    + discriminate.
    + intros x [= <-]. eexists. split; [reflexivity|]. intros y [<-|[<-|[]]]; [left; eapply ty_string; reflexivity|right; now constructor].
    + intros x [= <-]. apply node_accepts; [eexists; reflexivity|]. intros o [= <-]. split; [|split; [|split]]; try discriminate.
      eexists. split; [reflexivity|]. apply (ty_integer _ 2). reflexivity.
  - intros x q I N.
    assert (X : q == 1 \/ q == 2).
    { unfold nodes in I.
      repeat match goal with
      | H : in_document _ (PInt _) |- _ => inversion H; clear H; subst
      | H : in_document _ (PFloat _) |- _ => inversion H; clear H; subst
      | H : in_document _ (PStr _) |- _ => inversion H; clear H; subst
      | H : in_document _ (PBool _) |- _ => inversion H; clear H; subst
      | H : in_document _ PNone |- _ => inversion H; clear H; subst
      | H : in_document _ (PList _) |- _ => inversion H; clear H; subst
      | H : in_document _ (PDict _) |- _ => inversion H; clear H; subst
      | H : In _ [] |- _ => destruct H
      | H : In _ (_ :: _) |- _ => destruct H as [<-|H]
      | H : dget ?k _ = Some _ |- _ => cbn [dget] in H
      | H : (if ?b then _ else _) = Some _ |- _ => destruct b; [injection H as <-|]
      | H : None = Some _ |- _ => discriminate H
      | H : number (PDict _) _ |- _ => destruct H
      | H : number (PList _) _ |- _ => destruct H
      | H : number (PStr _) _ |- _ => destruct H
      | H : number (PBool _) _ |- _ => destruct H
      | H : number PNone _ |- _ => destruct H
      end; cbn in N; [left|right]; symmetry; exact N. }
    split; [unfold float_range; destruct X as [-> | ->]; vm_compute; auto|].
    intros z E. assert (z = 1%Z \/ z = 2%Z) as [-> | ->].
    { destruct X as [X|X]; [left; apply inject_Z_injective; rewrite <- E; exact X|right; apply inject_Z_injective; rewrite <- E; exact X]. }
    + vm_compute; split; [discriminate|reflexivity].
    + vm_compute; split; [discriminate|reflexivity].
Qed.

(** ** C103: values of a type are accepted by the JSON schema that is written for it *)
(** Proved if references are to built-in types, aliases are names that a JSON pointer can spell and
    belong to one part each, and unions are optional fields or have members of different JSON types;
    [value false]: an optional field is left out and not null, a field with a default that is not an
    optional union is present. *)
Theorem C103_fits_partial : forall R t d v, keeps_builtins R -> expressible t -> js_from R t = Ok d ->
  value false builtin_names t v -> accepts (PDict d) (PDict d) v.
Proof. exact written_accepts. Qed.
Print Assumptions C103_fits_partial.

(** An optional field that is null is rejected. *)
Theorem C103_null_refuted : forall R,
  let t := TStruct c0 [TUnion (nmd "a" PNone PNone) [TNull c0; TBool c0]] in let v := PDict [("a", PNone)] in
  exists d, js_from R t = Ok d /\ value true builtin_names t v /\ rejects (PDict d) (PDict d) v.
Proof.
  intros R t v. eexists. split; [vm_compute; reflexivity|]. split.
  - apply v_struct.
    + intros f [<-|[]]. eexists. reflexivity.
    + intros f n x [<-|[]] [= <-] [= <-]. eapply v_union; [now left|constructor|discriminate].
    + intros f n [<-|[]] [= <-]. discriminate.
  - eapply (rej_object _ _ "properties"); [reflexivity|]. eapply (rf_properties _ _ _ _ "a"); [now left|reflexivity|].
    eapply (rej_object _ _ "type"); [reflexivity|]. apply rf_type. intros H. inversion H. discriminate.
Qed.
Print Assumptions C103_null_refuted.
(** A field with a default that is left out is rejected. *)
Theorem C103_default_refuted : forall R,
  let t := TStruct c0 [TBool (nmd "a" (PBool true) PNone)] in let v := PDict [] in
  exists d, js_from R t = Ok d /\ value true builtin_names t v /\ rejects (PDict d) (PDict d) v.
Proof.
  intros R t v. eexists. split; [vm_compute; reflexivity|]. split.
  - apply v_struct.
    + intros f [<-|[]]. eexists. reflexivity.
    + intros f n x [<-|[]] [= <-]. discriminate.
    + intros f n [<-|[]] [= <-] _. split; discriminate.
  - eapply (rej_object _ _ "required"); [reflexivity|]. eapply (rf_required _ _ _ _ "a"); [now left|reflexivity].
Qed.
Print Assumptions C103_default_refuted.
(** A value of two members of a union is rejected. *)
Theorem C103_union_refuted : forall R z, (- 2 ^ 31 <= z < 2 ^ 31)%Z ->
  let t := TStruct c0 [TUnion (mkC PNone PNone PNone [("name", PStr "a")]) [TInt c0 (PInt 32) (PBool true); TFloat c0 (PInt 64)]] in
  let v := PDict [("a", PInt z)] in
  exists d, js_from R t = Ok d /\ value false builtin_names t v /\ rejects (PDict d) (PDict d) v.
Proof.
  intros R z Z t v. eexists. split; [vm_compute; reflexivity|]. split.
  - apply v_struct.
    + intros f [<-|[]]. eexists. reflexivity.
    + intros f n x [<-|[]] [= <-] [= <-]. eapply v_union; [now left| |discriminate]. eapply v_int; [reflexivity|exact Z].
    + intros f n [<-|[]] [= <-]. discriminate.
  - eapply (rej_object _ _ "properties"); [reflexivity|]. eapply (rf_properties _ _ _ _ "a"); [now left|reflexivity|].
    eapply (rej_object _ _ "oneOf"); [reflexivity|].
    refine (rf_two _ _ [] _ [] _ [] _ _ _).
    + keyword_tac. apply kw_type. apply (ty_integer _ z). reflexivity.
    + keyword_tac. apply kw_type. apply (ty_number _ (inject_Z z)). reflexivity.
Qed.
Print Assumptions C103_union_refuted.

(** A part with an alias that is used twice, a built-in reference, a union and an optional field. *)
Definition nm (n : string) : common := mkC PNone PNone PNone [("name", PStr n)].
Definition point : rtype :=
  TStruct (mkC PNone (PStr "acme.Point") PNone []) [TInt (nm "x") (PInt 8) (PBool false)].
Definition shape : rtype :=
  TStruct c0
    [TProxy (mkC PNone (PStr "int64") PNone [("name", PStr "id")]) None;
     TList (nm "at") point PNone (PBool true);
     TUnion (nm "size") [point; TBool c0; TString c0 (PInt 9) (PBool true)];
     TMap (nm "m") (TString c0 PNone (PBool true)) (TEnum c0 (PList [PStr "a"; PStr "b"]));
     TUnion (nmd "note" PNone PNone) [TNull c0; TString c0 PNone (PBool true)]].
Definition shape_value : pyval :=
  PDict [("id", PInt 3); ("at", PList [PDict [("x", PInt 0)]; PDict [("x", PFloat 200)]]);
         ("size", PDict [("x", PInt 7)]); ("m", PDict [("k", PStr "b")])].
Example C103_case : keeps_builtins builtin_aliases /\ expressible shape /\ value false builtin_names shape shape_value
  /\ exists d, js_from builtin_aliases shape = Ok d.
Proof.
  assert (PV : forall v z, number v (inject_Z z) -> (0 <= z < 256)%Z -> value false builtin_names point (PDict [("x", v)])).
  { intros v z N Z. apply v_struct.
    - intros f [<-|[]]. eexists. reflexivity.
    - intros f n x [<-|[]] [= <-] [= <-]. eapply v_int; [exact N|exact Z].
    - intros f n [<-|[]] [= <-]. discriminate. }
  split; [intros a _; reflexivity|]. split; [|split].
  - assert (SH : forall s, shown s shape -> In s (shape :: shown_children shape ++ [point; TInt (nm "x") (PInt 8) (PBool false);
      TBool c0; TString c0 (PInt 9) (PBool true); TEnum c0 (PList [PStr "a"; PStr "b"]); TNull c0; TString c0 PNone (PBool true)])).
    { intros s H. unfold shape in H.
      repeat match goal with
      | H : In _ (shown_children _) |- _ => progress cbn [shown_children In point] in H
      | H : _ \/ _ |- _ => destruct H as [H|H]
      | H : False |- _ => destruct H
      | H : _ = ?c |- _ => subst c
      | H : shown _ _ |- _ => inversion H; clear H; subst; [solve [cbn; auto 20]|]
      end. }
    assert (AL : forall s a, shown s shape -> defines s a -> s = point /\ a = "acme.Point").
    { intros s a S [P A]. apply SH in S. cbn [shown_children shape In app] in S.
      repeat (destruct S as [<-|S]; [first [discriminate A|discriminate P|injection A as <-; split; reflexivity]|]). destruct S. }
    split.
    + intros s S P. apply SH in S. cbn [shown_children shape In app] in S.
      repeat (destruct S as [<-|S]; [try discriminate P|]); [|destruct S].
      eexists _, _. split; [reflexivity|]. split; [reflexivity|]. split; [vm_compute; tauto|]. cbn. intuition discriminate.
    + intros s a S D. destruct (AL _ _ S D) as [_ ->]. split.
      * split; [discriminate|]. intros I. vm_compute in I. intuition discriminate.
      * vm_compute. intuition discriminate.
    + intros s s' a S S' D D'. destruct (AL _ _ S D) as [-> _]. destruct (AL _ _ S' D') as [-> _]. reflexivity.
    + intros c ts S. apply SH in S. cbn [shown_children shape In app] in S.
      repeat (destruct S as [S|S]; [try discriminate S|]); [| |destruct S].
      * right. injection S as <- <-. split; [repeat constructor; discriminate|]. cbn. repeat constructor; cbn; intuition discriminate.
      * left. injection S as <- <-. eexists _, [TNull c0], _, []. split; [reflexivity|]. split; [discriminate|]. split; [discriminate|].
        split; [discriminate|]. repeat constructor.
  - apply v_struct.
    + intros f I. cbn [In] in I. repeat (destruct I as [<-|I]; [eexists; reflexivity|]). destruct I.
    + intros f n x I. cbn [In] in I. destruct I as [<-|[<-|[<-|[<-|[<-|[]]]]]]; intros [= <-] [= <-].
      * eapply v_reference; [reflexivity|reflexivity|]. apply (v_int _ _ _ _ _ 3); [reflexivity|]. cbn. lia.
      * apply v_list; [exact Logic.I|]. intros y [<-|[<-|[]]]; [apply (PV _ 0%Z)|apply (PV _ 200%Z)]; try reflexivity; lia.
      * eapply v_union; [now left|apply (PV _ 7%Z); [reflexivity|lia]|discriminate].
      * apply v_map; intros k x G; cbn [dget] in G; destruct (String.eqb k "k"); try discriminate G; injection G as <-.
        -- apply v_string. exact Logic.I.
        -- apply v_enum. cbn. auto.
    + intros f n I. cbn [In] in I. destruct I as [<-|[<-|[<-|[<-|[<-|[]]]]]]; intros [= <-]; try discriminate. intros _. split; [discriminate|].
      intros _. eexists _, [TNull c0], _, []. split; [reflexivity|]. split; [discriminate|]. split; [discriminate|].
        split; [discriminate|]. repeat constructor.
  - eexists. vm_compute. reflexivity.
Qed.
