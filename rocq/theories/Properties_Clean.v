(** Cleaning a document twice (C15). *)
From Coq Require Import String Ascii List ZArith QArith Bool Lia.
From Verif Require Import PyVal ToDict SpecTidy CleanTwice.
Import ListNotations.
Open Scope nat_scope.
Open Scope string_scope.
Open Scope list_scope.

(** ** C15
    Missing: documents whose "type" is itself a dictionary, and defaulted unions with several
    bare nulls or with null and one nullable union, see [tidy]. *)
Theorem C15_clean_twice_partial : forall j j',
  tidy j -> clean_dict j = Ok j' -> clean_dict j' = Ok j'.
Proof. exact clean_again. Qed.
Print Assumptions C15_clean_twice_partial.

Definition clean_sample : pyval :=
  PDict [("type", PStr "struct"); ("doc", PNone); ("alias", PNone); ("fields", PList [
    PDict [("type", PStr "int"); ("bits", PInt 32); ("signed", PBool true); ("name", PStr "a"); ("logical", PNone)];
    PDict [("type", PStr "union"); ("default", PStr "x"); ("name", PStr "b"); ("types", PList [
      PDict [("type", PStr "null"); ("doc", PNone)];
      PDict [("type", PStr "list"); ("values", PDict [("type", PStr "bool"); ("doc", PNone)]); ("length", PNone); ("variable", PBool true)]])];
    PList [PStr "null"; PDict [("type", PStr "null"); ("alias", PNone)]; PStr "com.X"];
    PDict [("type", PStr "union"); ("default", PNone); ("types", PList [PStr "null"; PStr "null"; PStr "bool"])]])].
Example C15_case : match clean_dict clean_sample with
  | Ok d => d <> clean_sample /\ clean_dict d = Ok d /\
      d = PDict [("type", PStr "struct"); ("fields", PList [
            PDict [("type", PStr "int"); ("bits", PInt 32); ("name", PStr "a")];
            PDict [("type", PStr "list"); ("values", PStr "bool"); ("default", PStr "x"); ("name", PStr "b"); ("optional", PBool true)];
            PList [PStr "null"; PStr "null"; PStr "com.X"];
            PDict [("type", PStr "union"); ("types", PList [PStr "null"; PStr "bool"]); ("optional", PBool true)]])]
  | Err _ => False
  end.
Proof. vm_compute. split; [discriminate|]. split; reflexivity. Qed.
Lemma leaf_tidy d nm : dget "type" d = Some (PStr nm) -> ~ In nm ["list"; "map"; "struct"; "union"] -> tidy (PDict d).
Proof.
  intros T N. cbn in N. apply tidy_dict with nm; auto; [|intros ->; exfalso; tauto].
  intros x [K G|K G|l K G I|l K G I]; exfalso; [destruct K| | |]; subst; tauto.
Qed.
Ltac leaf := (apply tidy_name || (eapply leaf_tidy; [reflexivity|cbn; intuition discriminate])).
Ltac not_null := let A := fresh in let B := fresh in let d0 := fresh in
  intros [A|(d0 & A & B & _)]; [discriminate A|]; injection A as <-; discriminate B.
Lemma clean_sample_ok : tidy clean_sample.
Proof.
  apply tidy_dict with "struct"; [reflexivity| |discriminate].
  intros x [[|] G|K G|l K G I|l K G I]; try discriminate.
  cbn in G. destruct G as [G|[G|[G|[G|[]]]]]; try discriminate. injection G as <-.
  destruct I as [<-|[<-|[<-|[<-|[]]]]].
  - leaf.
  - apply tidy_dict with "union"; [reflexivity| |].
    + intros x [[|] G|K2 G|l K2 G I|l K2 G I]; try discriminate. injection G as <-. destruct I as [<-|[<-|[]]]; [leaf|].
      apply tidy_dict with "list"; [reflexivity| |discriminate].
      intros x [_ G|K3 G|l K3 G I|l K3 G I]; try discriminate. injection G as <-. leaf.
    + intros _. eexists. split; [reflexivity|]. intros v _ _. split.
      * intros l1 x l2 y E _ I. destruct l1 as [|? [|? [|]]]; cbn in E; injection E as; subst; try (destruct I as [<-|[]]); try contradiction; try discriminate. not_null.
      * intros x y [E|E]; injection E as <- <-.
        -- intros _ (d & l & z & E & T & _). injection E as <-. discriminate T.
        -- intros N. exfalso. revert N. not_null.
  - apply tidy_list. repeat constructor. leaf.
  - apply tidy_dict with "union"; [reflexivity| |].
    + intros x [[|] G|K2 G|l K2 G I|l K2 G I]; try discriminate. injection G as <-. destruct I as [<-|[<-|[<-|[]]]]; leaf.
    + intros _. eexists. split; [reflexivity|]. intros v [= <-] N. contradiction.
Qed.

(** Each restriction is needed: cleaning again loses the default of the first, the default of
    the second (which moved to the inner union), and the "doc" of the third. *)
Definition untidy : list pyval :=
  [ PDict [("type", PStr "union"); ("types", PList [PStr "null"; PStr "null"; PStr "bool"]); ("default", PStr "a"); ("alias", PStr "b.c")];
    PDict [("type", PStr "union"); ("default", PInt 1); ("types", PList [PStr "null";
      PDict [("type", PStr "union"); ("types", PList [PStr "null"; PStr "string"]); ("alias", PStr "b.c")]])];
    PDict [("type", PDict [("type", PStr "int"); ("bits", PInt 7); ("doc", PNone)])] ].
Theorem C15_clean_twice_refuted : forall j, In j untidy ->
  exists j' j'', clean_dict j = Ok j' /\ clean_dict j' = Ok j'' /\ j'' <> j'.
Proof.
  intros j I. repeat destruct I as [<-|I]; try contradiction;
    (do 2 eexists; split; [vm_compute; reflexivity|]; split; [vm_compute; reflexivity|discriminate]).
Qed.
Print Assumptions C15_clean_twice_refuted.
