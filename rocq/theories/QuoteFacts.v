(** Facts about quoting (proofs only). *)
From Coq Require Import String Ascii List NArith Bool.
From Verif Require Import Quote.
Import ListNotations.
Open Scope string_scope.

Lemma unquote_char c r : unquote (plus_to_space (quote_char c r)) = String c (unquote (plus_to_space r)).
Proof.
  destruct c as [[] [] [] [] [] [] [] []]; reflexivity.
Qed.

Theorem unquote_quote s : unquote_plus (quote_plus s) = s.
Proof.
  unfold unquote_plus. induction s as [|c s IH]; [reflexivity|].
  cbn [quote_plus]. now rewrite unquote_char, IH.
Qed.

Theorem quote_inj a b : quote_plus a = quote_plus b -> a = b.
Proof. intros H. rewrite <- (unquote_quote a), <- (unquote_quote b). now rewrite H. Qed.

Fixpoint has_char (c : ascii) (s : string) : Prop :=
  match s with EmptyString => False | String d r => c = d \/ has_char c r end.

Theorem quote_no_slash s : ~ has_char "/" (quote_plus s).
Proof.
  induction s as [|c s IH]; [exact (fun H => H)|].
  cbn [quote_plus]. destruct c as [[] [] [] [] [] [] [] []];
    cbn -[quote_plus has_char]; cbn [has_char]; intros H;
    repeat (destruct H as [H|H]; [discriminate H|]); exact (IH H).
Qed.

(** The quoted name is one ordinary path component, unless the name is "", "." or "..". *)
Theorem quote_component s : s <> "" -> s <> "." -> s <> ".." ->
  quote_plus s <> "" /\ quote_plus s <> "." /\ quote_plus s <> "..".
Proof.
  intros H1 H2 H3. repeat split; intros E.
  - apply H1. apply quote_inj. now rewrite E.
  - apply H2. apply quote_inj. now rewrite E.
  - apply H3. apply quote_inj. now rewrite E.
Qed.
