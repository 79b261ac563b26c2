(** JSONSchemaConverter: recap/converters/json_schema.py (whole file, 1-310).

    Schemas are JSON values ([pyval]); json.loads is not modelled.  The packages
    `referencing` and `httpx` are external: the JSON registry of the converter is the list
    of the ids that were added to it, and a reference to any other URN, which would be
    fetched from the network (json_schema.py:126-134), gives [Err Unmodelled]. *)
From Coq Require Import String Ascii List NArith ZArith QArith Bool Lia.
From Verif Require Import PyVal RType Registry FromDict Nullable Url.
Import ListNotations.
Open Scope nat_scope.
Open Scope string_scope.
Open Scope list_scope.

(** ** Aliases for ids *)

(** re.sub(r"[^a-zA-Z0-9]", ".", path).lower(), json_schema.py:297-298. *)
Definition alnum (c : ascii) : bool := is_alpha c || is_digit c.
Fixpoint dotted (s : string) : string :=
  match s with
  | EmptyString => EmptyString
  | String c r => String (if alnum c then lower_char c else "."%char) (dotted r)
  end.
(** str.strip("."). *)
Fixpoint lstrip_dots (s : string) : string :=
  match s with
  | String "." r => lstrip_dots r
  | _ => s
  end.
Fixpoint rstrip_char (x : ascii) (s : string) : string :=
  match s with
  | EmptyString => EmptyString
  | String c r =>
      match rstrip_char x r with
      | EmptyString => if Ascii.eqb c x then EmptyString else String c EmptyString
      | r' => String c r'
      end
  end.
Definition strip_dots (s : string) : string := rstrip_char "." (lstrip_dots s).

(** urlparse(url).path: the parameters are cut off for the schemes that have them. *)
Definition parsed_path (u : split_url) : string :=
  if str_in (u_scheme u) uses_params && has ";" (u_path u) then fst (split_params (u_path u)) else u_path u.

Section Alias.
  Variable ip_ok : string -> bool.
  (** urn_to_alias, json_schema.py:270-305.  A non-ASCII path would need Unicode. *)
  Definition urn_to_alias (urn : string) : res string :=
    (u <- urlsplit ip_ok urn ;;
     let domain := join "." (rev (split "." (u_netloc u))) in
     let raw := (parsed_path u ++ u_fragment u)%string in
     if is_ascii raw then
       let path := dotted raw in
       Ok (if nonempty path && negb (String.eqb path ".")
           then (domain ++ "." ++ strip_dots path)%string else domain)
     else Err Unmodelled)%res.
End Alias.

(** ** Reading *)

(** The state is self.json_registry: the ids added so far. *)
Definition JM (A : Type) : Type := list string -> list string * res A.
Definition jret {A} (a : A) : JM A := fun J => (J, Ok a).
Definition jfail {A} (e : exn) : JM A := fun J => (J, Err e).
Definition jlift {A} (r : res A) : JM A := fun J => (J, r).
Definition jbind {A B} (m : JM A) (f : A -> JM B) : JM B :=
  fun J => match m J with (J', Ok a) => f a J' | (J', Err e) => (J', Err e) end.
Declare Scope jm_scope.
Delimit Scope jm_scope with jm.
Notation "x <- m ;; f" := (jbind m (fun x => f)) (at level 61, m at next level, right associativity) : jm_scope.
Fixpoint jmap {A B} (f : A -> JM B) (l : list A) : JM (list B) :=
  match l with
  | [] => jret []
  | x :: r => (y <- f x ;; ys <- jmap f r ;; jret (y :: ys))%jm
  end.

Definition draft2020 : string := "https://json-schema.org/draft/2020-12/schema".

Section Read.
  (** alias_strategy: urn_to_alias or the caller's function. *)
  Variable strategy : string -> res string.

  (** The alias of a schema with "$id", json_schema.py:65-70: resource.id() is the id
      without a trailing "#".  Other dialects name the key differently. *)
  Definition js_id (d : list (string * pyval)) : JM (list (string * pyval)) :=
    match dget "$id" d with
    | None => jret []
    | Some v =>
        if match dget "$schema" d with Some s => negb (py_eq s (PStr draft2020)) | None => false end
        then jfail Unmodelled
        else
          match v with
          | PNone => jfail AssertionError
          | PStr s =>
              let id := rstrip_char "#" s in
              fun J => (if str_in id J then J else id :: J,
                        (a <- strategy id ;; Ok [("alias", PStr a)])%res)
          | _ => jfail AttributeError
          end
    end.
  (** json_schema.py:56-70. *)
  Definition js_head (d : list (string * pyval)) : JM (list (string * pyval)) :=
    (a <- js_id d ;;
     jret ((match dget "description" d with Some v => [("doc", v)] | None => [] end) ++
           (match dget "default" d with Some v => [("default", v)] | None => [] end) ++ a))%jm.
  (** Type( ** extra_attrs). *)
  Definition js_common (lo : pyval) (x : list (string * pyval)) : common :=
    mkC lo (kwarg "alias" PNone x) (kwarg "doc" PNone x) (ddel "alias" (ddel "doc" x)).

  (** A field of an object, json_schema.py:79-93. *)
  Definition set_extra_key (k : string) (v : pyval) (t : rtype) : rtype :=
    let c := get_c t in set_c t (mkC (c_logical c) (c_alias c) (c_doc c) (dset k v (c_extra c))).
  Definition js_property (d : list (string * pyval)) (name : string) (f : rtype) : res rtype :=
    (req <- py_str_in name (kwarg "required" (PList []) d) ;;
     f <- (if req : bool then Ok f
           else (g <- (if is_nullable f then Ok f else snd (make_nullable f)) ;;
                 Ok (if dmem "default" (c_extra (get_c g)) then g else set_extra_key "default" PNone g))) ;;
     Ok (set_extra_key "name" (PStr name) f))%res.

  (** The match statement, json_schema.py:72-136. *)
  Definition js_body (rec : pyval -> JM rtype) (d x : list (string * pyval)) : JM rtype :=
    let c := js_common PNone x in
    let unsupported := jfail ValueError in
    let ref :=
      match dget "$ref" d, dget "$dynamicRef" d with
      | Some (PStr urn), _ | _, Some (PStr urn) =>
          fun J =>
            let id := rstrip_char "#" urn in
            if str_in id J then
              (a <- jlift (strategy id) ;;
               if dmem "alias" x then jfail TypeError
               else jret (TProxy (mkC PNone (PStr a) (kwarg "doc" PNone x) (ddel "doc" x)) None))%jm J
            else (J, Err Unmodelled)
      | _, _ => unsupported
      end in
    match dget "type" d with
    | Some (PList l) => (ts <- jmap rec l ;; jret (TUnion c ts))%jm
    | Some (PStr ty) =>
        if String.eqb ty "object" && dmem "properties" d then
          match kwarg "properties" PNone d with
          | PDict ps =>
              (fs <- jmap (fun p => (f <- rec (snd p) ;; jlift (js_property d (fst p) f))%jm) ps ;;
               jret (TStruct c fs))%jm
          | _ => jfail AttributeError
          end
        else if String.eqb ty "array" && dmem "items" d then
          (v <- rec (kwarg "items" PNone d) ;; jret (TList c v PNone (PBool true)))%jm
        else if String.eqb ty "string" then
          match dget "format" d with
          | Some (PStr f) =>
              if String.eqb f "bytes" then jret (TBytes c PNone (PBool true))
              else
                let lo := if String.eqb f "date" then PStr "org.iso.8601.Date"
                          else if String.eqb f "date-time" then PStr "org.iso.8601.DateTime"
                          else if String.eqb f "time" then PStr "org.iso.8601.Time" else PNone in
                jret (TString (js_common lo x) PNone (PBool true))
          | _ => jret (TString c PNone (PBool true))
          end
        else if String.eqb ty "number" then jret (TFloat c (PInt 64))
        else if String.eqb ty "integer" then jret (TInt c (PInt 32) (PBool true))
        else if String.eqb ty "boolean" then jret (TBool c)
        else if String.eqb ty "null" then jret (TNull c)
        else ref
    | _ => ref
    end.

  (** _parse, json_schema.py:51-136. *)
  Fixpoint js_parse_f (n : nat) (j : pyval) : JM rtype :=
    match n with
    | O => jfail OutOfFuel
    | S n' =>
        let dict d := (x <- js_head d ;; js_body (js_parse_f n') d x)%jm in
        match j with
        | PStr s => dict [("type", PStr s)]
        | PDict d => dict d
        | PList l =>
            (* "description" in l, then l["description"]; Resource.id of a list *)
            let mem k := existsb (fun x => py_eq x (PStr k)) l in
            if mem "description" || mem "default" then jfail TypeError
            else if mem "$id" then jfail AttributeError else jfail ValueError
        | _ => jfail TypeError
        end
    end.
  Definition js_parse (j : pyval) : JM rtype := js_parse_f (psize j) j.

  (** to_recap, json_schema.py:39-49, after json.loads. *)
  Definition js_to (j : pyval) : JM rtype :=
    (t <- js_parse j ;;
     match t with TStruct _ _ => jret t | _ => jfail ValueError end)%jm.
End Read.

(** ** Writing *)

Definition dict := list (string * pyval).
Definition js_ref (a : string) : pyval := PStr ("#/$defs/" ++ a)%string.

(** json_schema.py:198-203. *)
Definition js_labels (t : rtype) : dict :=
  let c := get_c t in
  dupd (match dget "default" (c_extra c) with Some v => [("default", v)] | None => [] end)
       (if truthy (c_doc c) then [("description", c_doc c)] else []).

(** One field of a struct, json_schema.py:224-231: the object so far and the required
    names.  A name that is not a string would become a key of another type. *)
Definition js_name (t : rtype) : res string :=
  match kwarg "name" PNone (c_extra (get_c t)) with
  | PStr s => if nonempty s then Ok s else Err ValueError
  | v => if truthy v then match v with PList _ | PDict _ => Err TypeError | _ => Err Unmodelled end
         else Err ValueError
  end.
Definition js_required (t : rtype) : bool :=
  match t with TUnion c ts => negb (is_optional c ts) | _ => true end.

(** _convert_field, json_schema.py:185-267.  [prox] converts the result of resolving a proxy. *)
Fixpoint js_tree (prox : rtype -> res dict) (R : registry) (use_refs : bool) (t : rtype) : res dict :=
  let base := js_labels t in
  let done d := Ok (dupd base d) in
  let go := js_tree prox R true in
  if use_refs && negb (is_proxy t) && match c_alias (get_c t) with PStr _ => true | _ => false end
  then match c_alias (get_c t) with PStr a => Ok [("$ref", js_ref a)] | _ => Err Unmodelled end
  else
    (match t with
     | TUnion c ts =>
         if is_optional c ts then
           (* exactly one member that is not a NullType, json_schema.py:216-219 *)
           let fix only (l : list rtype) : res dict :=
             match l with
             | [] => Err AssertionError
             | x :: r => if is_null x then only r
                         else if existsb (fun y => negb (is_null y)) r then Err AssertionError
                         else go x
             end in
           (d <- only ts ;; done d)
         else
           (l <- (fix all (l : list rtype) : res (list pyval) :=
                    match l with
                    | [] => Ok []
                    | x :: r => (d <- go x ;; ds <- all r ;; Ok (PDict d :: ds))
                    end) ts ;;
            done [("oneOf", PList l)])
     | TStruct c fs =>
         (pr <- (fix all (l : list rtype) (ps : dict) (req : list pyval) : res (dict * list pyval) :=
                   match l with
                   | [] => Ok (ps, req)
                   | x :: r =>
                       (n <- js_name x ;;
                        d <- go x ;;
                        all r (dset n (PDict d) ps) (if js_required x then req ++ [PStr n] else req))
                   end) fs [] [] ;;
          done (("type", PStr "object") :: ("properties", PDict (fst pr)) ::
                match snd pr with [] => [] | l => [("required", PList l)] end))
     | TList _ v _ _ => (d <- go v ;; done [("type", PStr "array"); ("items", PDict d)])
     | TMap _ _ v => (d <- go v ;; done [("type", PStr "object"); ("additionalProperties", PDict d)])
     | TEnum _ s => done [("type", PStr "string"); ("enum", s)]
     | TBool _ => done [("type", PStr "boolean")]
     | TInt _ _ _ => done [("type", PStr "integer")]
     | TFloat _ _ => done [("type", PStr "number")]
     | TString _ _ _ => done [("type", PStr "string")]
     | TBytes _ _ _ => done [("type", PStr "string"); ("format", PStr "byte")]
     | TNull _ => done [("type", PStr "null")]
     | TProxy c _ =>
         match c_alias c with
         | PStr a =>
             if dmem a builtin_aliases || negb (Nat.eqb (length (c_extra c)) 0)
             then (t' <- resolve R t ;; prox t')
             else done [("$ref", js_ref a)]
         | PList _ | PDict _ => Err TypeError
         | _ => Err Unmodelled
         end
     end)%res.

(** Nesting depth of the private registries of a type. *)
Fixpoint rdepth (t : rtype) : nat :=
  match t with
  | TList _ v _ _ => rdepth v
  | TMap _ k v => Nat.max (rdepth k) (rdepth v)
  | TStruct _ l | TUnion _ l => fold_right (fun x m => Nat.max (rdepth x) m) 0 l
  | TProxy _ (Some R) =>
      S ((fix go (R : list (string * rtype)) : nat :=
            match R with [] => 0 | (_, x) :: r => Nat.max (rdepth x) (go r) end) R)
  | _ => 0
  end.
Definition reg_depth (R : registry) : nat := fold_right (fun p m => Nat.max (rdepth (snd p)) m) 0 R.

(** Recursion through resolved proxies, with fuel. *)
Fixpoint js_field_f (n : nat) (R : registry) (use_refs : bool) (t : rtype) : res dict :=
  js_tree (fun t' => match n with O => Err OutOfFuel | S n' => js_field_f n' R true t' end) R use_refs t.
Definition js_field (R : registry) (use_refs : bool) (t : rtype) : res dict :=
  js_field_f (S (Nat.max (rdepth t) (reg_depth R))) R use_refs t.

(** _generate_alias_defs, json_schema.py:155-183. *)
Fixpoint js_defs (conv : rtype -> res dict) (t : rtype) : res dict :=
  (own <- (match c_alias (get_c t) with
           | PStr a => if nonempty a && negb (dmem a builtin_aliases)
                       then (d <- conv t ;; Ok [(a, PDict d)]) else Ok []
           | v => if truthy v then match v with PList _ | PDict _ => Err TypeError | _ => Err Unmodelled end
                  else Ok []
           end) ;;
   match t with
   | TStruct _ l | TUnion _ l =>
       (fix all (l : list rtype) (acc : dict) : res dict :=
          match l with
          | [] => Ok acc
          | x :: r => (d <- js_defs conv x ;; all r (dupd acc d))
          end) l own
   | TList _ v _ _ | TMap _ _ v => (d <- js_defs conv v ;; Ok (dupd own d))
   | _ => Ok own
   end)%res.

(** from_recap, json_schema.py:138-153. *)
Definition js_from (R : registry) (t : rtype) : res dict :=
  (d <- js_field R true t ;;
   defs <- js_defs (js_field R false) t ;;
   Ok (match defs with [] => d | _ => dset "$defs" (PDict defs) d end))%res.
