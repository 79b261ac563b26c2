(** Proofs for C129. *)
From Coq Require Import String Ascii List NArith ZArith QArith Bool.
From Verif Require Import PyVal RType Registry FromDict ToDict Url Settings Clients Avro JsonSchema Proto Commands Cli.
Import ListNotations.
Open Scope nat_scope.
Open Scope string_scope.
Open Scope list_scope.

Lemma rbind_Ok {A B} (x : res A) (f : A -> res B) b : rbind x f = Ok b -> exists a, x = Ok a /\ f a = Ok b.
Proof. destruct x; cbn; intros H; [eauto|discriminate]. Qed.

(** ** Strictness *)
Lemma loop_lax ip urls inp p url u : unsafe_loop ip urls inp p url true = Ok u -> unsafe_loop ip urls inp p url false = Ok u.
Proof.
  induction urls as [|c cs IH]; cbn [unsafe_loop]; [discriminate|]. intros H.
  apply rbind_Ok in H as (conf & -> & H). cbn. apply rbind_Ok in H as (m & -> & H). cbn. destruct m; auto.
Qed.
Lemma loop_strict ip urls inp p url u : unsafe_loop ip urls inp p url false = Ok u ->
  unsafe_loop ip urls inp p url true = Ok u \/ unsafe_loop ip urls inp p url true = Err ValueError.
Proof.
  induction urls as [|c cs IH]; cbn [unsafe_loop]; [auto|]. intros H.
  apply rbind_Ok in H as (conf & -> & H). cbn. apply rbind_Ok in H as (m & -> & H). cbn. destruct m; auto.
Qed.
Lemma request_lax ip margs urls m url r : request ip margs urls m url true = Ok r -> request ip margs urls m url false = Ok r.
Proof.
  unfold request, parse_url, unsafe_url. intros H. apply rbind_Ok in H as (ua & H & K). rewrite <- K. clear K.
  apply rbind_Ok in H as (d & -> & H). cbn [rbind]. apply rbind_Ok in H as (c & -> & H). cbn [rbind].
  apply rbind_Ok in H as (pa & -> & H). cbn [rbind]. apply rbind_Ok in H as (u & H & K). injection K as <-.
  apply rbind_Ok in H as (inp & -> & H). cbn [rbind]. rewrite (loop_lax _ _ _ _ _ _ H). reflexivity.
Qed.
Lemma request_strict ip margs urls m url r : request ip margs urls m url false = Ok r ->
  request ip margs urls m url true = Ok r \/ request ip margs urls m url true = Err ValueError.
Proof.
  unfold request, parse_url, unsafe_url. intros H. apply rbind_Ok in H as (ua & H & K). rewrite <- K. clear K.
  apply rbind_Ok in H as (d & -> & H). cbn [rbind]. apply rbind_Ok in H as (c & -> & H). cbn [rbind].
  apply rbind_Ok in H as (pa & -> & H). cbn [rbind]. apply rbind_Ok in H as (u & H & K). injection K as <-.
  apply rbind_Ok in H as (inp & -> & H). cbn [rbind]. destruct (loop_strict _ _ _ _ _ _ H) as [E|E]; rewrite E; auto.
Qed.

(** ** Documents *)
Lemma short_shape d : (exists s, avro_short d = PStr s) \/ exists e, avro_short d = PDict e.
Proof. unfold avro_short. destruct (Nat.eqb _ _); eauto. destruct (dget "type" d) as [[]|]; eauto. Qed.
Lemma output_shape f t o : schema_output f t = Ok o ->
  match f with FProtobuf => exists l, o = OProto l | _ => exists d, o = ODocument (PDict d) end.
Proof.
  destruct f; cbn [schema_output]; intros H; apply rbind_Ok in H as (v & H & K).
  - injection K as <-. unfold avro_from in H. apply rbind_Ok in H as (w & H & K). injection K as <-.
    assert (S : (exists s, w = PStr s) \/ exists e, w = PDict e).
    { cbn [avro_from_f] in H. destruct t; cbn [avro_tree] in H; apply rbind_Ok in H as (d & _ & H).
      all: destruct (c_logical _); repeat first
        [ discriminate H
        | match type of H with Ok (avro_short _) = Ok _ => injection H as <-; apply short_shape end
        | match type of H with rbind _ _ = Ok _ => apply rbind_Ok in H as (? & _ & H) end
        | match type of H with context [match ?x with _ => _ end] => destruct x end ]. }
    destruct S as [[s ->]|[e ->]]; eauto.
  - injection K as <-. eauto.
  - injection K as <-. eauto.
  - destruct v; try discriminate K. injection K as <-. eauto.
Qed.
