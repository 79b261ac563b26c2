(** urllib.parse.quote_plus / unquote_plus as used by recap/storage/registry.py:3, 18, 28, 50, 66,
    on UTF-8 byte strings (Python 3.11 urllib/parse.py quote_plus, quote_from_bytes,
    unquote_plus, unquote_to_bytes).  The final UTF-8 decoding is the identity on the
    byte strings of Python text. *)
From Coq Require Import String Ascii List NArith Bool.
Import ListNotations.
Open Scope string_scope.

(** _ALWAYS_SAFE: letters, digits and "_.-~" (urllib/parse.py). *)
Definition in_range (lo hi : N) (c : ascii) : bool :=
  let n := N_of_ascii c in N.leb lo n && N.leb n hi.
Definition always_safe (c : ascii) : bool :=
  in_range 65 90 c || in_range 97 122 c || in_range 48 57 c
  || Ascii.eqb c "_" || Ascii.eqb c "." || Ascii.eqb c "-" || Ascii.eqb c "~".

Definition hex_digit (n : N) : ascii :=
  if N.ltb n 10 then ascii_of_N (48 + n) else ascii_of_N (55 + n).

(** quote_plus of one byte: space becomes '+', unsafe bytes become %XX. *)
Definition quote_char (c : ascii) (rest : string) : string :=
  if Ascii.eqb c " " then String "+" rest
  else if always_safe c then String c rest
  else String "%" (String (hex_digit (N.div (N_of_ascii c) 16))
                     (String (hex_digit (N.modulo (N_of_ascii c) 16)) rest)).

(** quote_plus(name). *)
Fixpoint quote_plus (s : string) : string :=
  match s with
  | EmptyString => EmptyString
  | String c r => quote_char c (quote_plus r)
  end.

Definition hex_value (c : ascii) : option N :=
  let n := N_of_ascii c in
  if in_range 48 57 c then Some (n - 48)%N
  else if in_range 65 70 c then Some (n - 55)%N
  else if in_range 97 102 c then Some (n - 87)%N
  else None.

(** unquote: %XX becomes a byte, other percent signs stay. *)
Fixpoint unquote (s : string) : string :=
  match s with
  | EmptyString => EmptyString
  | String c r =>
      if Ascii.eqb c "%" then
        match r with
        | String a (String b r') =>
            match hex_value a, hex_value b with
            | Some x, Some y => String (ascii_of_N (16 * x + y)) (unquote r')
            | _, _ => String c (unquote r)
            end
        | _ => String c (unquote r)
        end
      else String c (unquote r)
  end.

(** string.replace('+', ' '). *)
Fixpoint plus_to_space (s : string) : string :=
  match s with
  | EmptyString => EmptyString
  | String c r => String (if Ascii.eqb c "+" then " "%char else c) (plus_to_space r)
  end.

(** unquote_plus(name). *)
Definition unquote_plus (s : string) : string := unquote (plus_to_space s).
