(** recap/settings.py: RecapSettings.safe_urls and RecapSettings.unsafe_url, over the list of
    configured URL strings (str(url) of each pydantic AnyUrl; pydantic itself is not modelled). *)
From Coq Require Import String Ascii List NArith ZArith Bool.
From Verif Require Import PyVal Quote Url.
Import ListNotations.
Open Scope nat_scope.
Open Scope string_scope.
Open Scope list_scope.

Section Settings.
  Variable ip_ok : string -> bool.

  (** settings.py:50: split_url.username or split_url.password is truthy. *)
  Definition has_credentials (netloc : string) : bool :=
    nonempty (opt_text (username netloc)) || nonempty (opt_text (password netloc)).

  (** settings.py:48-55 *)
  Definition safe_netloc (netloc : string) : res string :=
    if has_credentials netloc then
      let base := match hostname netloc with Some h => h | None => netloc end in
      rbind (port netloc) (fun p =>
        Ok (match p with Some n => (base ++ ":" ++ dec_N n)%string | None => base end))
    else Ok netloc.

  (** settings.py:70-71 and 125-126 *)
  Definition fix_slashes (netloc url : string) : string :=
    if nonempty netloc then url else replace_colon "://" url.

  (** settings.py:47-73, one iteration of safe_urls *)
  Definition safe_url (url : string) : res string :=
    rbind (urlsplit ip_ok url) (fun s =>
    rbind (safe_netloc (u_netloc s)) (fun netloc =>
      Ok (fix_slashes netloc
            (urlunsplit (mkSplit (u_scheme s) netloc (rstrip_slash (u_path s))
                           (u_query s) (u_fragment s)))))).

  (** settings.py:39-75 *)
  Definition safe_urls (urls : list string) : res (list string) := rmap safe_url urls.

  Definition opt_eqb {A} (eqb : A -> A -> bool) (x y : option A) : bool :=
    match x, y with
    | Some a, Some b => eqb a b
    | None, None => true
    | _, _ => false
    end.

  (** settings.py:96-101: the conjuncts are tested in order; reading a port may raise. *)
  Definition url_matches (conf inp : split_url) (url_path : string) : res bool :=
    if negb (String.eqb (u_scheme conf) (u_scheme inp)) then Ok false
    else if negb (opt_eqb String.eqb (hostname (u_netloc conf)) (hostname (u_netloc inp)))
    then Ok false
    else
      rbind (port (u_netloc conf)) (fun p =>
      rbind (port (u_netloc inp)) (fun q =>
        Ok (opt_eqb N.eqb p q && String.prefix (as_posix (u_path conf)) url_path))).

  (** settings.py:102-128 *)
  Definition merge_urls (conf inp : split_url) (url_path : string) : string :=
    let netloc := u_netloc conf in
    let query := urlencode (dupd (parse_qs (u_query conf)) (parse_qs (u_query inp))) in
    fix_slashes netloc
      (urlunsplit (mkSplit (u_scheme inp) netloc (rstrip_slash url_path) query
                     (if nonempty (u_fragment inp) then u_fragment inp else u_fragment conf))).

  (** settings.py:93-133, the loop over the configured URLs *)
  Fixpoint unsafe_loop (urls : list string) (inp : split_url) (url_path url : string)
      (strict : bool) : res string :=
    match urls with
    | [] => if strict then Err ValueError else Ok url
    | c :: cs =>
        rbind (urlsplit ip_ok c) (fun conf =>
        rbind (url_matches conf inp url_path) (fun m =>
          if m then Ok (merge_urls conf inp url_path)
          else unsafe_loop cs inp url_path url strict))
    end.

  (** settings.py:77-133 *)
  Definition unsafe_url (urls : list string) (url : string) (strict : bool) : res string :=
    rbind (urlsplit ip_ok url) (fun inp =>
      let url_path := as_posix (if nonempty (u_path inp) then u_path inp else "/") in
      unsafe_loop urls inp url_path url strict).
End Settings.
