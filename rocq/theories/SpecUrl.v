(** Vocabulary of the URL properties, independent of recap/settings.py and recap/clients:
    what a URL text without surprises is, which query parameters are able to redirect a
    connection, and what a relational path should be turned into. *)
From Coq Require Import String Ascii List NArith ZArith Bool.
From Verif Require Import PyVal Url.
Import ListNotations.
Open Scope nat_scope.
Open Scope string_scope.
Open Scope list_scope.

(** No tab, newline or carriage return. *)
Definition clean (s : string) : bool := all_chars (fun c => negb (unsafe_byte c)) s.
(** No character that ends a network location. *)
Definition no_end (s : string) : bool := all_chars (fun c => negb (netloc_end c)) s.
(** Empty, or starting with a character that ends a network location. *)
Definition at_end (s : string) : bool :=
  match s with EmptyString => true | String c _ => netloc_end c end.

(** A user name and password text, as it appears before the '@' of a URL. *)
Definition secret_ok (a : string) : Prop :=
  no_end a = true /\ has "[" a = false /\ has "]" a = false /\ clean a = true /\ is_ascii a = true.

(** Query parameters that share a name with a part of the URL dictionary, or that tell a database
    driver where to connect. *)
Definition steering : list string :=
  ["scheme"; "netloc"; "path"; "params"; "query"; "fragment"; "username"; "hostname"; "port";
   "dialect"; "driver"; "host"; "paths"; "url"; "method"; "_"; "hostaddr"; "service";
   "unix_socket"; "dsn"; "account"].
Definition plain_query (q : string) : Prop :=
  forall k, In k steering -> ~ In k (map fst (parse_qsl q)).

(** Path segments: the non-empty texts between slashes. *)
Definition segs (path : string) : list string := filter nonempty (split "/" path).

(** A list of arguments padded with None. *)
Definition pad (n : nat) (l : list string) : list pyval :=
  firstn n (map PStr l ++ repeat PNone n).
