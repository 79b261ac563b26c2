(** The parts of Python 3.11's urllib.parse and pathlib that recap/settings.py:2-4 and
    recap/clients/__init__.py:6 call.  Strings are byte strings (UTF-8).

    Simplifications: a network location with a non-ASCII byte gives [Err Unmodelled] (the
    NFKC check of _checknetloc); the test that a bracketed host is an IP address is the
    parameter [ip_ok]; percent escapes are assumed to decode to valid UTF-8. *)
From Coq Require Import String Ascii List NArith ZArith Bool.
From Verif Require Import PyVal Regex Quote.
Import ListNotations.
Open Scope nat_scope.
Open Scope string_scope.
Open Scope list_scope.

(** ** String methods *)

(** [c in s] for a one-character string c. *)
Fixpoint has (c : ascii) (s : string) : bool :=
  match s with
  | EmptyString => false
  | String d r => Ascii.eqb d c || has c r
  end.

Definition nonempty (s : string) : bool :=
  match s with EmptyString => false | _ => true end.

(** str.partition(c): text before the first c, whether c occurs, text after it. *)
Fixpoint partition (c : ascii) (s : string) : string * bool * string :=
  match s with
  | EmptyString => (EmptyString, false, EmptyString)
  | String d r =>
      if Ascii.eqb d c then (EmptyString, true, r)
      else let '(b, f, a) := partition c r in (String d b, f, a)
  end.

(** str.rpartition(c): ("", "", s) when c does not occur. *)
Fixpoint rpartition (c : ascii) (s : string) : string * bool * string :=
  match s with
  | EmptyString => (EmptyString, false, EmptyString)
  | String d r =>
      let '(b, f, a) := rpartition c r in
      if f then (String d b, true, a)
      else if Ascii.eqb d c then (EmptyString, true, r)
      else (EmptyString, false, s)
  end.

(** str.split(c): always at least one element. *)
Fixpoint split (c : ascii) (s : string) : list string :=
  match s with
  | EmptyString => [EmptyString]
  | String d r =>
      if Ascii.eqb d c then EmptyString :: split c r
      else match split c r with
           | x :: xs => String d x :: xs
           | [] => [String d EmptyString]
           end
  end.

(** sep.join(l) *)
Fixpoint join (sep : string) (l : list string) : string :=
  match l with
  | [] => EmptyString
  | [x] => x
  | x :: xs => x ++ sep ++ join sep xs
  end.

(** str.rstrip("/") *)
Fixpoint rstrip_slash (s : string) : string :=
  match s with
  | EmptyString => EmptyString
  | String c r =>
      match rstrip_slash r with
      | EmptyString => if Ascii.eqb c "/" then EmptyString else String c EmptyString
      | r' => String c r'
      end
  end.

(** str.replace(":", new, 1) *)
Fixpoint replace_colon (new s : string) : string :=
  match s with
  | EmptyString => EmptyString
  | String c r => if Ascii.eqb c ":" then new ++ r else String c (replace_colon new r)
  end.

(** str.lower() on ASCII letters (other bytes unchanged). *)
Definition lower_char (c : ascii) : ascii :=
  if in_range 65 90 c then ascii_of_N (N_of_ascii c + 32) else c.
Fixpoint lower (s : string) : string :=
  match s with
  | EmptyString => EmptyString
  | String c r => String (lower_char c) (lower r)
  end.

Fixpoint all_chars (p : ascii -> bool) (s : string) : bool :=
  match s with
  | EmptyString => true
  | String c r => p c && all_chars p r
  end.

(** ** urllib.parse *)

(** url.lstrip(_WHATWG_C0_CONTROL_OR_SPACE). *)
Fixpoint lstrip_controls (s : string) : string :=
  match s with
  | EmptyString => EmptyString
  | String c r => if N.leb (N_of_ascii c) 32 then lstrip_controls r else s
  end.

(** url.replace(b, "") for the tab, carriage return and newline bytes. *)
Definition unsafe_byte (c : ascii) : bool :=
  let n := N_of_ascii c in N.eqb n 9 || N.eqb n 10 || N.eqb n 13.
Fixpoint drop_unsafe (s : string) : string :=
  match s with
  | EmptyString => EmptyString
  | String c r => if unsafe_byte c then drop_unsafe r else String c (drop_unsafe r)
  end.

Definition is_alpha (c : ascii) : bool := in_range 65 90 c || in_range 97 122 c.
Definition is_digit (c : ascii) : bool := in_range 48 57 c.

(** scheme_chars: letters, digits, "+-." *)
Definition scheme_char (c : ascii) : bool :=
  is_alpha c || is_digit c || Ascii.eqb c "+" || Ascii.eqb c "-" || Ascii.eqb c ".".

Definition scheme_ok (s : string) : bool :=
  match s with
  | EmptyString => false
  | String c _ => is_alpha c && all_chars scheme_char s
  end.

(** _splitnetloc(url, 2), on the text after the two slashes. *)
Definition netloc_end (c : ascii) : bool :=
  Ascii.eqb c "/" || Ascii.eqb c "?" || Ascii.eqb c "#".
Fixpoint split_netloc (s : string) : string * string :=
  match s with
  | EmptyString => (EmptyString, EmptyString)
  | String c r =>
      if netloc_end c then (EmptyString, s)
      else let '(n, u) := split_netloc r in (String c n, u)
  end.

Record split_url := mkSplit {
  u_scheme : string; u_netloc : string; u_path : string; u_query : string; u_fragment : string
}.

Definition is_ascii (s : string) : bool := all_chars (fun c => N.ltb (N_of_ascii c) 128) s.

(** The text inside the first pair of brackets of a network location. *)
Definition bracketed (netloc : string) : string :=
  let '(_, _, a) := partition "[" netloc in let '(h, _, _) := partition "]" a in h.

Section Ip.
  (** _check_bracketed_host, which needs the ipaddress module. *)
  Variable ip_ok : string -> bool.

  Definition check_brackets (netloc : string) : res unit :=
    if (has "[" netloc && negb (has "]" netloc)) || (has "]" netloc && negb (has "[" netloc))
    then Err ValueError
    else if has "[" netloc && has "]" netloc
    then (if ip_ok (bracketed netloc) then Ok tt else Err ValueError)
    else Ok tt.

  (** urlsplit(url). *)
  Definition urlsplit (url : string) : res split_url :=
    let url := drop_unsafe (lstrip_controls url) in
    let '(scheme, url) :=
      let '(b, f, a) := partition ":" url in
      if f && scheme_ok b then (lower b, a) else (EmptyString, url) in
    rbind (match url with
           | String "/" (String "/" r) =>
               let '(n, u) := split_netloc r in
               rbind (check_brackets n) (fun _ => Ok (n, u))
           | _ => Ok (EmptyString, url)
           end)
      (fun nu =>
         let '(netloc, url) := nu in
         let '(url, _, fragment) := partition "#" url in
         let '(path, _, query) := partition "?" url in
         if is_ascii netloc then Ok (mkSplit scheme netloc path query fragment)
         else Err Unmodelled).
End Ip.

(** _userinfo: user name and password. *)
Definition userinfo (netloc : string) : option string * option string :=
  let '(ui, have, _) := rpartition "@" netloc in
  if have then
    let '(u, have_p, p) := partition ":" ui in
    (Some u, if have_p then Some p else None)
  else (None, None).

Definition hostpart (netloc : string) : string := let '(_, _, h) := rpartition "@" netloc in h.

(** _hostinfo: host text and port text. *)
Definition hostinfo (netloc : string) : string * option string :=
  let hi := hostpart netloc in
  let '(_, open, br) := partition "[" hi in
  let '(h, p) :=
    if open then
      let '(h, _, r) := partition "]" br in
      let '(_, _, p) := partition ":" r in (h, p)
    else let '(h, _, p) := partition ":" hi in (h, p) in
  (h, if nonempty p then Some p else None).

Definition opt_text (o : option string) : string := match o with Some s => s | None => "" end.

Definition username (netloc : string) : option string := fst (userinfo netloc).
Definition password (netloc : string) : option string := snd (userinfo netloc).

(** The hostname property: None when empty; lower case up to a '%'. *)
Definition lower_host (h : string) : string :=
  let '(b, f, z) := partition "%" h in
  (lower b ++ (if f then "%" else "") ++ z)%string.
Definition hostname (netloc : string) : option string :=
  let '(h, _) := hostinfo netloc in
  if nonempty h then Some (lower_host h) else None.

(** The decimal value of a digit string. *)
Fixpoint digits_value (acc : N) (s : string) : N :=
  match s with
  | EmptyString => acc
  | String c r => digits_value (10 * acc + (N_of_ascii c - 48)) r
  end.

(** The port property. *)
Definition port (netloc : string) : res (option N) :=
  let '(_, p) := hostinfo netloc in
  match p with
  | None => Ok None
  | Some t =>
      if all_chars is_digit t then
        let n := digits_value 0 t in
        if N.leb n 65535 then Ok (Some n) else Err ValueError
      else Err ValueError
  end.

(** str(n) for a natural number. *)
Definition digit_char (n : N) : ascii := ascii_of_N (48 + n).
Fixpoint dec_fuel (fuel : nat) (n : N) (acc : string) : string :=
  match fuel with
  | O => acc
  | S f =>
      let acc := String (digit_char (N.modulo n 10)) acc in
      if N.ltb n 10 then acc else dec_fuel f (N.div n 10) acc
  end.
Definition dec_N (n : N) : string := dec_fuel (S (N.to_nat (N.log2 n))) n EmptyString.

(** uses_netloc (urllib/parse.py:58-62). *)
Definition uses_netloc : list string :=
  [""; "ftp"; "http"; "gopher"; "nntp"; "telnet"; "imap"; "wais"; "file"; "mms"; "https";
   "shttp"; "snews"; "prospero"; "rtsp"; "rtsps"; "rtspu"; "rsync"; "svn"; "svn+ssh"; "sftp";
   "nfs"; "git"; "git+ssh"; "ws"; "wss"].
Definition uses_params : list string :=
  [""; "ftp"; "hdl"; "prospero"; "http"; "imap"; "https"; "shttp"; "rtsp"; "rtsps"; "rtspu";
   "sip"; "sips"; "mms"; "sftp"; "tel"].

Definition starts_slash (s : string) : bool :=
  match s with String "/" _ => true | _ => false end.
Definition starts_slashes (s : string) : bool :=
  match s with String "/" (String "/" _) => true | _ => false end.

(** urlunsplit((scheme, netloc, url, query, fragment)). *)
Definition urlunsplit (u : split_url) : string :=
  let url := u_path u in
  let url :=
    if nonempty (u_netloc u) || (nonempty (u_scheme u) && str_in (u_scheme u) uses_netloc)
       || starts_slashes url
    then
      let url := if nonempty url && negb (starts_slash url) then ("/" ++ url)%string else url in
      ("//" ++ u_netloc u ++ url)%string
    else url in
  let url := if nonempty (u_scheme u) then (u_scheme u ++ ":" ++ url)%string else url in
  let url := if nonempty (u_query u) then (url ++ "?" ++ u_query u)%string else url in
  if nonempty (u_fragment u) then (url ++ "#" ++ u_fragment u)%string else url.

(** _splitparams(url): cut at the first ';' after the last '/'. *)
Definition split_params (url : string) : string * string :=
  let '(b, f, a) := rpartition "/" url in
  let '(p, g, q) := partition ";" (if f then a else url) in
  if f then (if g then ((b ++ "/" ++ p)%string, q) else (url, EmptyString)) else (p, q).

(** parse_qsl with the default arguments. *)
Definition parse_pair (t : string) : list (string * string) :=
  let '(k, _, v) := partition "=" t in
  if nonempty v then [(unquote_plus k, unquote_plus v)] else [].
Definition parse_qsl (qs : string) : list (string * string) := flat_map parse_pair (split "&" qs).

(** parse_qs: the values of one key in order. *)
Definition qs_add (d : list (string * list string)) (kv : string * string) :=
  match dget (fst kv) d with
  | Some vs => dset (fst kv) (vs ++ [snd kv]) d
  | None => d ++ [(fst kv, [snd kv])]
  end.
Definition parse_qs (qs : string) : list (string * list string) :=
  fold_left qs_add (parse_qsl qs) [].

(** urlencode(d, doseq=True) where every value is a list of strings. *)
Definition urlencode (d : list (string * list string)) : string :=
  join "&" (flat_map (fun kv => map (fun v => (quote_plus (fst kv) ++ "=" ++ quote_plus v)%string)
                                    (snd kv)) d).

(** ** pathlib.PurePosixPath(p).as_posix() (pathlib.py _parse_args, _format_parsed_parts) *)
Definition path_part (s : string) : bool := nonempty s && negb (String.eqb s ".").
Definition path_root (s : string) : string :=
  match s with
  | String "/" (String "/" (String "/" _)) => "/"
  | String "/" (String "/" _) => "//"
  | String "/" _ => "/"
  | _ => ""
  end.
Definition path_parts (s : string) : list string := filter path_part (split "/" s).
Definition as_posix (s : string) : string :=
  let t := (path_root s ++ join "/" (path_parts s))%string in
  if nonempty t then t else ".".
