(** Properties of the compact and aliased documents written by to_dict (C12-C15). *)
From Coq Require Import String Ascii List ZArith QArith Bool Lia.
From Verif Require Import PyVal RType Registry FromDict ToDict SpecTypes SpecCompact RoundTrip CompactDocs CompactMain CompactWrite CompactAgain.
Import ListNotations.
Open Scope nat_scope.
Open Scope string_scope.
Open Scope list_scope.

(** ** C12
    Missing: unions with a default value and a bare null among their members that the
    "optional" notation cannot express, see [compact_ok]. *)
Theorem C12_compact_partial : forall j R R' t,
  pwf j -> from_dict j R = (R', Ok t) -> all_nodes compact_ok t ->
  exists d R2 t', to_dict true false t = Ok d /\ from_dict d R = (R2, Ok t') /\ rt_eq t t' = true /\ dkeys R2 = dkeys R'.
Proof. exact compact_roundtrip. Qed.
Print Assumptions C12_compact_partial.

(** The document written for a parsed document, read again in the same registry. *)
Definition rewritten (clean alias : bool) (j : pyval) : res (rtype * pyval * rtype) :=
  (t <- snd (from_dict j builtin_aliases) ;; d <- to_dict clean alias t ;;
   u <- snd (from_dict d builtin_aliases) ;; Ok (t, d, u))%res.
Definition union_doc (l : list pyval) (e : list (string * pyval)) : pyval :=
  PDict ([("type", PStr "union"); ("types", PList l)] ++ e).

(** A struct with defaulted optional fields, one of them anonymous, one with several members. *)
Definition compact_sample : pyval :=
  PDict [("type", PStr "struct"); ("doc", PStr "d"); ("fields", PList [
    PDict [("type", PStr "int"); ("bits", PInt 32); ("name", PStr "a"); ("optional", PBool true)];
    union_doc [PStr "null"; PStr "string64"; PDict [("type", PStr "list"); ("values", PStr "bool"); ("length", PInt 3); ("variable", PBool false)]]
      [("default", PStr "x"); ("name", PStr "b"); ("alias", PStr "com.b")];
    PDict [("type", PStr "map"); ("keys", PStr "string"); ("values", union_doc [PStr "bool"; PStr "null"] []); ("name", PStr "c")]])].
Example C12_case : match rewritten true false compact_sample with
  | Ok (t, d, u) => rt_eq t u = true /\ d <> compact_sample /\
      d = PDict [("type", PStr "struct"); ("doc", PStr "d"); ("fields", PList [
            PDict [("type", PStr "int"); ("bits", PInt 32); ("name", PStr "a"); ("optional", PBool true)];
            PDict [("type", PStr "union"); ("types", PList [PStr "string64";
                     PDict [("type", PStr "list"); ("values", PStr "bool"); ("length", PInt 3); ("variable", PBool false)]]);
                   ("alias", PStr "com.b"); ("default", PStr "x"); ("name", PStr "b"); ("optional", PBool true)];
            PDict [("type", PStr "map"); ("name", PStr "c"); ("keys", PStr "string"); ("values", PList [PStr "bool"; PStr "null"])]])]
  | Err _ => False
  end.
Proof. vm_compute. split; [reflexivity|split; [discriminate|reflexivity]]. Qed.
Lemma compact_sample_ok : forall t R', from_dict compact_sample builtin_aliases = (R', Ok t) -> all_nodes compact_ok t.
Proof.
  vm_compute. intros t R' [= _ <-]. apply all_nodes_nodes. cbn. repeat split; intros; auto; try contradiction.
  all: try (eexists; split; [reflexivity|]); repeat split; cbn in *; try (intuition congruence); intros; try congruence;
    match goal with H : _ :: _ = [_] |- _ => injection H as <- end; cbn; repeat split; intuition congruence.
Qed.
(** The document of a union of null and a union cannot be written at all. *)
Theorem C12_compact_refuted : exists j R' t, pwf j /\ from_dict j builtin_aliases = (R', Ok t) /\
  to_dict true false t = Err AssertionError.
Proof.
  exists (union_doc [PStr "null"; PList [PStr "string"; PStr "bool"]] [("default", PNone)]). do 2 eexists.
  split; [repeat constructor; cbn; intuition discriminate|]. split; [vm_compute; reflexivity|vm_compute; reflexivity].
Qed.
Print Assumptions C12_compact_refuted.
(** The documentation of an optional union ends on its member; null moves to the front; an
    attribute makes the default disappear; a member's name becomes the union's. *)
Theorem C12_equal_refuted : Forall (fun j => exists R' t d R2 t', pwf j /\ from_dict j builtin_aliases = (R', Ok t) /\
  to_dict true false t = Ok d /\ from_dict d builtin_aliases = (R2, Ok t') /\ rt_eq t t' = false)
  [ union_doc [PStr "null"; PStr "string"] [("default", PNone); ("doc", PStr "x")];
    union_doc [PStr "string"; PStr "null"] [("default", PNone)];
    union_doc [PStr "null"; PStr "string"] [("default", PInt 1); ("k", PInt 2)];
    union_doc [PStr "null"; PDict [("type", PStr "string"); ("name", PStr "f")]] [("default", PNone)] ].
Proof.
  repeat (apply Forall_cons || apply Forall_nil); do 5 eexists;
    (split; [repeat constructor; cbn; intuition discriminate|]); (split; [vm_compute; reflexivity|]);
    (split; [vm_compute; reflexivity|]); (split; [vm_compute; reflexivity|]); vm_compute; reflexivity.
Qed.
Print Assumptions C12_equal_refuted.

(** ** C13
    Missing: attributes under the keys of children ("values", "keys", "fields", "types") that
    hold documents; they are rewritten, or end in an AssertionError, like children. *)
Theorem C13_builtin_partial : forall j R R' t,
  pwf j -> from_dict j R = (R', Ok t) -> defined_aliases t = [] -> all_nodes plain_attributes t ->
  exists d R2 t', to_dict false true t = Ok d /\ from_dict d R = (R2, Ok t') /\ same_meaning builtin_ref t t' /\ dkeys R2 = dkeys R'.
Proof. exact builtin_roundtrip. Qed.
Print Assumptions C13_builtin_partial.

Definition builtin_sample : pyval :=
  PDict [("type", PStr "struct"); ("fields", PList [
    PDict [("type", PStr "int"); ("bits", PInt 32); ("name", PStr "id")];
    PDict [("type", PStr "list"); ("values", PDict [("type", PStr "int"); ("bits", PInt 32); ("signed", PBool false)]); ("keys", PStr "k")];
    union_doc [PStr "null"; PDict [("type", PStr "float"); ("bits", PInt 64)]] []])].
Example C13_case : match rewritten false true builtin_sample with
  | Ok (t, d, u) => rt_eq t u = false /\ defined_aliases t = [] /\
      u = TStruct c0 [TInt (mkC PNone PNone PNone [("name", PStr "id")]) (PInt 32) (PBool true);
                      TList (mkC PNone PNone PNone [("keys", PStr "k")]) (reference "uint32") PNone (PBool true);
                      TUnion c0 [TNull c0; reference "float64"]]
  | Err _ => False
  end.
Proof. vm_compute. split; [reflexivity|split; reflexivity]. Qed.
Lemma builtin_sample_ok : forall t R', from_dict builtin_sample builtin_aliases = (R', Ok t) -> all_nodes plain_attributes t.
Proof.
  vm_compute from_dict. intros t R' [= _ <-]. apply all_nodes_nodes. cbn. repeat split; intros k v I _; cbn in I; intuition (injection H as <- <-; exact I0 || exact I).
Qed.
Theorem C13_builtin_refuted : exists j R' t, pwf j /\ from_dict j builtin_aliases = (R', Ok t) /\ defined_aliases t = [] /\
  to_dict false true t = Err AssertionError.
Proof.
  exists (PDict [("type", PStr "int"); ("bits", PInt 7); ("values", PDict [])]). do 2 eexists.
  split; [repeat constructor; cbn; intuition discriminate|]. split; [vm_compute; reflexivity|]. split; vm_compute; reflexivity.
Qed.
Print Assumptions C13_builtin_refuted.
(** Where it does not raise, an attribute may be changed at a type that is no reference. *)
Theorem C13_attribute_refuted : exists j R' t d R2 t', pwf j /\ from_dict j builtin_aliases = (R', Ok t) /\ defined_aliases t = [] /\
  to_dict false true t = Ok d /\ from_dict d builtin_aliases = (R2, Ok t') /\ is_proxy t' = false /\
  ~ common_same (get_c t) (get_c t').
Proof.
  exists (PDict [("type", PStr "int"); ("bits", PInt 7); ("values", PDict [("type", PStr "int"); ("bits", PInt 32); ("signed", PBool true)])]).
  do 5 eexists. split; [repeat constructor; cbn; intuition discriminate|]. split; [vm_compute; reflexivity|]. split; [vm_compute; reflexivity|].
  split; [vm_compute; reflexivity|]. split; [vm_compute; reflexivity|]. split; [reflexivity|].
  intros (_ & _ & _ & X). inversion X as [|? ? ? ? A| | |? ? _ K]; subst; [inversion A|]. specialize (K "values" _ _ eq_refl eq_refl).
  inversion K as [|? ? ? ? A| | |? ? K1 _]; subst; [inversion A|]. assert (I : In "bits" (dkeys [("type", PStr "int32")])) by (apply K1; cbn; auto).
  cbn in I. intuition discriminate.
Qed.
Print Assumptions C13_attribute_refuted.

(** ** C14
    Missing: unions that the "optional" notation cannot express ([compact_ok]), attributes that
    look like children, and aliases defined two or more levels below a type without alias
    ([alias_ok]).  The document also reads back with the same meaning. *)
Theorem C14_writes_partial : forall j R R' t,
  pwf j -> from_dict j R = (R', Ok t) -> all_nodes (alias_ok true) t -> all_nodes compact_ok t ->
  exists d R2 t', to_dict true true t = Ok d /\ from_dict d R = (R2, Ok t') /\ same_meaning (names_in t) t t' /\ dkeys R2 = dkeys R'.
Proof. exact (fun j R R' t W P AO CO => alias_roundtrip true j R R' t W P AO (fun _ => CO)). Qed.
Print Assumptions C14_writes_partial.
(** The other two ways to write with names. *)
Theorem C14_full_partial : forall j R R' t,
  pwf j -> from_dict j R = (R', Ok t) -> all_nodes (alias_ok false) t ->
  exists d R2 t', to_dict false true t = Ok d /\ from_dict d R = (R2, Ok t') /\ same_meaning (names_in t) t t' /\ dkeys R2 = dkeys R'.
Proof. exact (fun j R R' t W P AO => alias_roundtrip false j R R' t W P AO (fun E => False_ind _ (diff_false_true E))). Qed.
Print Assumptions C14_full_partial.

Definition alias_sample : pyval :=
  PDict [("type", PStr "struct"); ("fields", PList [
    PDict [("type", PStr "struct"); ("alias", PStr "com.Node"); ("name", PStr "n"); ("fields", PList [
      PDict [("type", PStr "int"); ("bits", PInt 7); ("name", PStr "v")];
      PDict [("type", PStr "com.Node"); ("name", PStr "next"); ("optional", PBool true)]])];
    PDict [("type", PStr "int"); ("bits", PInt 32); ("alias", PStr "com.Id")];
    PDict [("type", PStr "int"); ("bits", PInt 32); ("signed", PBool false)];
    PDict [("type", PStr "list"); ("values", PDict [("type", PStr "int"); ("bits", PInt 9)]); ("alias", PStr "com.L")];
    PDict [("type", PStr "list"); ("values", PDict [("type", PStr "int"); ("bits", PInt 9)])]])].
Example C14_case : match rewritten true true alias_sample with
  | Ok (t, d, u) => rt_eq t u = false /\
      d = PDict [("type", PStr "struct"); ("fields", PList [
            PDict [("type", PStr "struct"); ("alias", PStr "com.Node"); ("name", PStr "n"); ("fields", PList [
              PDict [("type", PStr "int"); ("name", PStr "v"); ("bits", PInt 7)];
              PDict [("type", PStr "com.Node"); ("name", PStr "next"); ("optional", PBool true)]])];
            PDict [("type", PStr "int"); ("alias", PStr "com.Id"); ("bits", PInt 32)];
            PStr "uint32";
            PDict [("type", PStr "list"); ("alias", PStr "com.L"); ("values", PDict [("type", PStr "int"); ("bits", PInt 9)])];
            PStr "com.L"])]
  | Err _ => False
  end.
Proof. vm_compute. split; reflexivity. Qed.
Lemma alias_sample_ok : forall t R', from_dict alias_sample builtin_aliases = (R', Ok t) -> all_nodes (alias_ok true) t /\ all_nodes compact_ok t.
Proof.
  vm_compute from_dict. intros t R' [= _ <-]. split; apply all_nodes_nodes; cbn [nodes].
  - repeat match goal with
    | |- alias_ok _ _ =>
        intros D; (discriminate D || (split;
          [intros k v I _; cbn in I; repeat (destruct I as [I|I]; [inversion I; subst; exact Logic.I|]); destruct I
          |intros x I; cbn in I; repeat (destruct I as [<-|I]; [cbn; (left; discriminate) || (right; left; reflexivity)|]); destruct I]))
    | |- _ /\ _ => split
    | |- True => exact I
    end.
  - repeat match goal with
    | |- compact_ok (TUnion _ _) => intros _ _
    | |- compact_ok _ => exact I
    | |- _ /\ _ => split
    | |- True => exact I
    end.
    eexists. split; [reflexivity|]. split; [intros [H|[]]; discriminate|]. split; [cbn; intuition|]. split; [discriminate|].
    intros x [= <-] _ _. cbn. repeat split; auto.
Qed.
(** The default of to_dict fails on accepted documents: an alias two levels down is defined
    twice; an optional union of a union is an assertion error. *)
Definition list_of (j : pyval) : pyval := PDict [("type", PStr "list"); ("values", j)].
Theorem C14_writes_refuted : exists j R' t, pwf j /\ from_dict j builtin_aliases = (R', Ok t) /\
  to_dict true true t = Err ValueError /\ to_dict false true t = Err ValueError.
Proof.
  exists (list_of (list_of (PDict [("type", PStr "int"); ("bits", PInt 7); ("alias", PStr "com.x.I")]))). do 2 eexists.
  split; [repeat constructor; cbn; intuition discriminate|]. split; [vm_compute; reflexivity|]. split; vm_compute; reflexivity.
Qed.
Print Assumptions C14_writes_refuted.
Theorem C14_optional_refuted : exists j R' t, pwf j /\ from_dict j builtin_aliases = (R', Ok t) /\
  defined_aliases t = [] /\ to_dict true true t = Err AssertionError.
Proof.
  exists (union_doc [PStr "null"; PList [PStr "string"; PStr "bool"]] [("default", PNone)]). do 2 eexists.
  split; [repeat constructor; cbn; intuition discriminate|]. split; [vm_compute; reflexivity|]. split; vm_compute; reflexivity.
Qed.
Print Assumptions C14_optional_refuted.
