(** C126: JSON schemas that are read and printed again. *)
From Coq Require Import String Ascii List NArith ZArith QArith Bool Lia.
From Verif Require Import PyVal RType Registry SpecTypes Url Commands JsonSchema SpecJson SpecInstances SpecJsonSchema SpecReprint
  JsonAccepts JsonValues JsonMeans JsonFits JsonAgain JsonReprint Properties_Instances.
Import ListNotations.
Open Scope nat_scope.
Open Scope string_scope.
Open Scope list_scope.

(** ** C126: a JSON schema that is read and printed as JSON Schema accepts the same documents *)
(** Proved for schemas of basic types, lists of them that exclude each other, arrays and objects in which
    every property that is not required has one type other than "null", every name that is required is
    a property, and there are no further keywords that can reject a document. *)
Theorem C126_same_partial : forall strategy j J' t, plain false j -> (forall i, has_id j i -> ~ fragment i) -> names_apart t ->
  js_to strategy j [] = (J', Ok t) ->
  exists d, schema_output FJson t = Ok (ODocument d) /\ forall v, accepts j j v <-> accepts d d v.
Proof. exact printed_again. Qed.
Print Assumptions C126_same_partial.

Definition obj (rq : list string) (ps : attrs) : pyval :=
  PDict [("type", PStr "object"); ("required", PList (map PStr rq)); ("properties", PDict ps)].
Definition tys (l : list string) : pyval := PDict [("type", PList (map PStr l))].

Ltac nm := let k := fresh "k" in let K := fresh "K" in let G := fresh "G" in
  intros k K G; cbn in K; repeat (destruct K as [<-|K]; [first [now (cbn; auto)|destruct G; reflexivity]|]); destruct K.
Ltac ok := let k := fresh "k" in let G := fresh "G" in intros k G; cbn [dget] in G;
  repeat (match type of G with (if String.eqb _ ?n then _ else _) <> _ =>
            let E := fresh "E" in destruct (String.eqb k n) eqn:E; [apply String.eqb_eq in E; subst k; cbn; tauto|clear E] end);
  destruct G; reflexivity.
Ltac rl := let w := fresh "w" in let W := fresh "W" in intros w W; first [discriminate W|injection W as <-; eexists; reflexivity].
(** Accepted by an object schema, once its properties and required names are looked at. *)
Ltac yes := eapply object_iff; [reflexivity|reflexivity|rl|nm|]; eexists; split; [reflexivity|]; split;
  [let k := fresh "k" in let s := fresh "s" in let x := fresh "x" in let I := fresh "I" in let G := fresh "G" in
   intros k s x I G; cbn in I; repeat (destruct I as [[= <- <-]|I]; [first [discriminate G|injection G as <-]|]); try destruct I
  |let n := fresh "n" in let l := fresh "l" in let E := fresh "E" in let I := fresh "I" in
   intros n (l & E & I); first [discriminate E|injection E as <-; cbn in I; repeat (destruct I as [[= <-]|I]; [discriminate|]); destruct I]].
(** Rejected by an object schema: what its properties and required names say about the document. *)
Ltac no P R := let A := fresh "A" in let o := fresh "o" in let E := fresh "E" in
  intros A; eapply object_iff in A; [|reflexivity|reflexivity|rl|nm]; destruct A as (o & E & P & R); injection E as <-.

(** Documents that the schema accepts and the printed one rejects: an absent or null property that is
    not required, a whole number that is described as a number or an integer, null for a property
    whose default is null. *)
Definition lost : list (pyval * pyval) :=
  [(obj [] [("x", tys ["null"; "string"])], PDict [("x", PNone)]);
   (obj [] [("x", tys ["integer"; "string"])], PDict []);
   (obj [] [("x", PDict [("type", PStr "null")])], PDict []);
   (obj ["x"] [("x", tys ["integer"; "number"])], PDict [("x", PInt 1)]);
   (obj ["x"] [("x", PDict [("type", PList [PStr "null"; PStr "string"]); ("default", PNone)])], PDict [("x", PNone)])].
(** Documents that the schema rejects and the printed one accepts: null for a property that is not
    required, a required property that is absent, and other values than those enumerated. *)
Definition gained : list (pyval * pyval) :=
  [(obj [] [("x", tys ["integer"; "string"])], PDict [("x", PNone)]);
   (obj ["x"] [("x", PDict [("type", PList [PStr "null"; PStr "string"]); ("default", PNone)])], PDict []);
   (obj ["y"] [("x", PDict [("type", PStr "boolean")])], PDict []);
   (obj ["x"] [("x", PDict [("type", PStr "string"); ("enum", PList [PStr "a"])])], PDict [("x", PStr "b")])].

Lemma typed_yes doc d s v : dget "type" d = Some (PStr s) -> no_more ["type"] d -> has_type v s -> accepts doc (PDict d) v.
Proof. intros T N. now apply type_iff. Qed.
Lemma typed_no doc d s v : accepts doc (PDict d) v -> dget "type" d = Some (PStr s) -> no_more ["type"] d -> has_type v s.
Proof. intros A T N. eapply type_iff; eauto. Qed.

Theorem C126_lost_refuted : forall strategy j v, In (j, v) lost -> accepts j j v /\
  exists J' t d, js_to strategy j [] = (J', Ok t) /\ schema_output FJson t = Ok (ODocument d) /\ ~ accepts d d v.
Proof.
  intros strategy j v I. unfold lost in I. cbn [In] in I.
  destruct I as [[= <- <-]|[[= <- <-]|[[= <- <-]|[[= <- <-]|[[= <- <-]|[]]]]]];
    (split; [|eexists _, _, _; split; [vm_compute; reflexivity|]; split; [vm_compute; reflexivity|]]).
  - unfold obj. yes. eapply (types_iff _ _ ["null"; "string"]); [reflexivity|nm|]. exists "null". split; [now left|constructor; reflexivity].
  - no P R. specialize (P "x" _ _ (or_introl eq_refl) eq_refl). eapply typed_no in P; [|reflexivity|nm]. inversion P; discriminate.
  - unfold obj. yes.
  - no P R. apply (R "x"); [|reflexivity]. eexists. split; [reflexivity|]. now left.
  - unfold obj. yes.
  - no P R. apply (R "x"); [|reflexivity]. eexists. split; [reflexivity|]. now left.
  - unfold obj. yes. eapply (types_iff _ _ ["integer"; "number"]); [reflexivity|nm|]. exists "number". split; [cbn; auto|]. econstructor. reflexivity.
  - no P R. specialize (P "x" _ _ (or_introl eq_refl) eq_refl). inversion P as [|d v K]; subst. specialize (K "oneOf" _ eq_refl).
    assert (BOTH : forall doc s, rejects doc s (PInt 1) -> s = PDict [("type", PStr "integer")] \/ s = PDict [("type", PStr "number")] -> False).
    { intros doc s RJ [-> | ->]; inversion RJ as [|? k ? ? G RF]; subst; cbn [dget] in G;
        (destruct (String.eqb_spec k "type") as [->|]; [injection G as <-|discriminate G]); inversion RF as [? ? ? N| | | | | | | | |? ? ? ? ? KR]; subst;
        try (destruct KR; discriminate); apply N; [apply (ty_integer _ 1)|apply (ty_number _ 1)]; reflexivity. }
    inversion K as [| | | | | | |? l1 s l2 ? A O| |? ? ? ? NK]; subst; [|destruct NK; cbn; auto 20].
    match goal with H : _ ++ _ = _ |- _ => rename H into LE end.
    destruct l1 as [|a l1]; cbn [app] in *.
    + injection LE as -> ->. eapply BOTH; [apply O; left; reflexivity|auto].
    + injection LE as -> LE. eapply BOTH; [apply O; left; reflexivity|auto].
  - unfold obj. yes. eapply (types_iff _ _ ["null"; "string"]); [reflexivity|nm|]. exists "null". split; [now left|constructor; reflexivity].
  - no P R. specialize (P "x" _ _ (or_introl eq_refl) eq_refl). eapply typed_no in P; [|reflexivity|nm]. inversion P; discriminate.
Qed.

Print Assumptions C126_lost_refuted.

Theorem C126_gained_refuted : forall strategy j v, In (j, v) gained -> ~ accepts j j v /\
  exists J' t d, js_to strategy j [] = (J', Ok t) /\ schema_output FJson t = Ok (ODocument d) /\ accepts d d v.
Proof.
  intros strategy j v I. unfold gained in I. cbn [In] in I.
  destruct I as [[= <- <-]|[[= <- <-]|[[= <- <-]|[[= <- <-]|[]]]]];
    (split; [unfold obj|eexists _, _, _; split; [vm_compute; reflexivity|]; split; [vm_compute; reflexivity|]]).
  - no P R. specialize (P "x" _ _ (or_introl eq_refl) eq_refl). eapply (types_iff _ _ ["integer"; "string"]) in P; [|reflexivity|nm].
    destruct P as (s & [<-|[<-|[]]] & H); inversion H as [| |? N|? N| | |]; first [discriminate|destruct N].
  - yes. keyword_tac.
    + apply kw_other. cbn. intuition discriminate.
    + apply (kw_one _ _ []); [eapply typed_yes; [reflexivity|nm|constructor; reflexivity]|].
      intros s' [<-|[<-|[]]]; (eapply rej_type; [|reflexivity]); intros H; inversion H as [| |? N|? N| | |]; first [discriminate|destruct N].
  - no P R. apply (R "x"); [|reflexivity]. eexists. split; [reflexivity|]. now left.
  - yes.
  - no P R. apply (R "y"); [|reflexivity]. eexists. split; [reflexivity|]. now left.
  - yes.
  - no P R. specialize (P "x" _ _ (or_introl eq_refl) eq_refl). inversion P as [|d v K]; subst. specialize (K "enum" _ eq_refl).
    inversion K as [| | | | | |? ? ? IN| |? ? ? ? ? KR|? ? ? ? NK]; subst; [destruct IN as [[=]|[]]|destruct NK; cbn; auto 20].
  - yes. eapply typed_yes; [reflexivity|nm|econstructor; reflexivity].
Qed.
Print Assumptions C126_gained_refuted.

(** A schema that refers to itself is printed as a definition that is a reference to itself. *)
Theorem C126_reference_refuted : accepts node_schema node_schema nodes /\
  exists J' t d, js_to strategy node_schema [] = (J', Ok t) /\ schema_output FJson t = Ok (ODocument d) /\ forall v, ~ accepts d d v.
Proof.
  split; [apply C102_case|]. eexists _, _, _. split; [exact C101_case|]. split; [vm_compute; reflexivity|].
  match goal with |- forall v, ~ accepts ?d _ v => set (doc := d) end.
  assert (E : each (fun d => dget "$id" d = None) doc) by (unfold doc; each_tac ltac:(reflexivity)).
  assert (ONE : forall s, target doc "#/$defs/com.acme.node" s -> s = PDict [("$ref", PStr "#/$defs/com.acme.node")]).
  { intros s T. inversion T as [d e a ? D G K A|d i ? IN G W]; subst.
    - injection D as <-. injection G as <-. now injection A as <-.
    - apply E in IN. congruence. }
  assert (NO : forall v, ~ accepts doc (PDict [("$ref", PStr "#/$defs/com.acme.node")]) v) by (eapply loop_rejects; [exact ONE|reflexivity]).
  intros v A. inversion A as [|d ? K]; subst. specialize (K "$ref" _ eq_refl).
  inversion K as [| | | | | | | |? ? ? ? ? KR T A'|? ? ? ? NK]; subst; [|destruct NK; cbn; auto 20].
  apply ONE in T. subst. exact (NO _ A').
Qed.
Print Assumptions C126_reference_refuted.

(** A schema with an id, objects, arrays and lists of types. *)
Definition contract_schema : pyval :=
  PDict [("$id", PStr node_id); ("type", PStr "object"); ("description", PStr "a contract"); ("required", PList [PStr "n"; PStr "party"]);
         ("properties", PDict
            [("n", PDict [("type", PList [PStr "integer"; PStr "string"; PStr "null"])]);
             ("party", PDict [("type", PStr "object"); ("required", PList []); ("properties", PDict
                [("email", PDict [("type", PStr "string"); ("format", PStr "date"); ("default", PStr "")])])]);
             ("tags", PDict [("type", PStr "array"); ("items", PDict [("type", PList [PStr "string"; PStr "null"])])])])].
Definition contract_type : rtype := match js_to strategy contract_schema [] with (_, Ok t) => t | _ => TNull c0 end.
Example C126_case : plain false contract_schema /\ (forall i, has_id contract_schema i -> ~ fragment i) /\ names_apart contract_type /\
  js_to strategy contract_schema [] = ([node_id], Ok contract_type).
Proof.
  split; [|split; [|split; [|vm_compute; reflexivity]]].
  - eapply plain_object; [reflexivity|reflexivity| | |rl| | | |ok].
    + repeat constructor; cbn; intuition discriminate.
    + cbn. intuition discriminate.
    + intros n (l & [= <-] & I). cbn in I |- *. intuition congruence.
    + intros n s I RN. cbn [In] in I. destruct I as [[= <- <-]|[[= <- <-]|[[= <- <-]|[]]]].
      * apply (plain_types _ ["integer"; "string"; "null"]); [reflexivity| | |left; reflexivity|ok].
        -- cbn. intuition.
        -- cbn. repeat constructor; cbn; intuition discriminate.
      * eapply plain_object; [reflexivity|reflexivity| | |rl| | | |ok].
        -- repeat constructor; cbn; intuition discriminate.
        -- cbn. intuition discriminate.
        -- intros n (l & [= <-] & []).
        -- intros n s I RN'. destruct RN' as (l & [= <-] & []).
        -- intros n s [[= <- <-]|[]] _. eapply plain_basic; [reflexivity|cbn; auto|discriminate|ok].
      * destruct RN as (l & [= <-] & I). cbn in I. intuition discriminate.
    + intros n s I RN. cbn [In] in I. destruct I as [[= <- <-]|[[= <- <-]|[[= <- <-]|[]]]].
      * destruct RN. eexists. split; [reflexivity|]. cbn. auto.
      * destruct RN. eexists. split; [reflexivity|]. cbn. auto.
      * eapply plain_array; [reflexivity|reflexivity| |ok]. apply (plain_types _ ["string"; "null"]); [reflexivity| | |left; reflexivity|ok].
        -- cbn. intuition.
        -- cbn. repeat constructor; cbn; intuition discriminate.
  - assert (E : each (fun d => dget "$id" d = None \/ PDict d = contract_schema) contract_schema).
    { unfold contract_schema at 2. each_tac ltac:(first [left; reflexivity|right; reflexivity]). }
    intros i (d & I & G). apply E in I as [N|[= ->]]; [congruence|]. injection G as <-. intros [r [=]].
  - assert (AL : forall s a, shown s contract_type -> defines s a -> s = contract_type /\ a = "com.acme.node").
    { intros s a S [P A]. inversion S as [|? c IN S']; subst; [split; [reflexivity|]; vm_compute in A; now injection A as <-|].
      exfalso. clear S. vm_compute in IN.
      repeat match goal with
      | H : In _ (shown_children _) |- _ => progress cbn [shown_children In] in H
      | H : _ \/ _ |- _ => destruct H as [H|H]
      | H : False |- _ => destruct H
      | H : _ = ?c |- _ => subst c
      | H : shown _ _ |- _ => inversion H; clear H; subst; [discriminate A|]
      end. }
    split.
    + intros s a S D. destruct (AL _ _ S D) as [_ ->]. split; [split; [discriminate|vm_compute; intuition discriminate]|vm_compute; intuition discriminate].
    + intros s s' a S S' D D'. destruct (AL _ _ S D) as [-> _]. destruct (AL _ _ S' D') as [-> _]. reflexivity.
Qed.
(** What is printed refers to a definition. *)
Example C126_case_printed : exists d, schema_output FJson contract_type = Ok (ODocument (PDict d)) /\ dget "$ref" d <> None /\ dget "$defs" d <> None.
Proof. eexists. split; [vm_compute; reflexivity|]. split; discriminate. Qed.
