(** A small regular-expression matcher used for ALIAS_REGEX, recap/types.py:8.
    Python's re module is not modelled; [re_match] decides membership in the
    language of the expression by Brzozowski derivatives, which is what
    re.fullmatch decides for an expression without look-around.  The anchors
    [^] and [$] of the source pattern are vacuous under fullmatch. *)
From Coq Require Import String Ascii List Bool NArith.
Import ListNotations.
Open Scope string_scope.

Inductive regex :=
| REmpty
| REps
| RClass (f : ascii -> bool)
| RSeq (a b : regex)
| RAlt (a b : regex)
| RStar (a : regex).

Fixpoint nullable (r : regex) : bool :=
  match r with
  | REmpty => false
  | REps => true
  | RClass _ => false
  | RSeq a b => nullable a && nullable b
  | RAlt a b => nullable a || nullable b
  | RStar _ => true
  end.

Fixpoint deriv (c : ascii) (r : regex) : regex :=
  match r with
  | REmpty => REmpty
  | REps => REmpty
  | RClass f => if f c then REps else REmpty
  | RSeq a b =>
      if nullable a then RAlt (RSeq (deriv c a) b) (deriv c b)
      else RSeq (deriv c a) b
  | RAlt a b => RAlt (deriv c a) (deriv c b)
  | RStar a => RSeq (deriv c a) (RStar a)
  end.

Fixpoint re_match (r : regex) (s : string) : bool :=
  match s with
  | EmptyString => nullable r
  | String c s' => re_match (deriv c r) s'
  end.

Definition RPlus (a : regex) : regex := RSeq a (RStar a).
Definition RChar (c : ascii) : regex := RClass (Ascii.eqb c).

Definition in_range (lo hi : ascii) (c : ascii) : bool :=
  N.leb (N_of_ascii lo) (N_of_ascii c) && N.leb (N_of_ascii c) (N_of_ascii hi).

(** [a-zA-Z_] *)
Definition cls_start (c : ascii) : bool :=
  in_range "a" "z" c || in_range "A" "Z" c || Ascii.eqb c "_".
(** [a-zA-Z0-9_] *)
Definition cls_cont (c : ascii) : bool :=
  in_range "a" "z" c || in_range "A" "Z" c || in_range "0" "9" c || Ascii.eqb c "_".

(** ALIAS_REGEX, recap/types.py:8: one identifier followed by one or more groups of
    a dot and an identifier; an identifier is one start character followed by any
    number of continuation characters. *)
Definition alias_regex : regex :=
  RSeq (RClass cls_start)
    (RSeq (RStar (RClass cls_cont))
       (RPlus (RSeq (RChar ".")
                 (RSeq (RClass cls_start) (RStar (RClass cls_cont)))))).
