(** ProtobufConverter: recap/converters/protobuf.py (whole file, 1-489).

    The package proto_schema_parser is external: a proto file is a term of the types below,
    which follow proto_schema_parser.ast.  Elements that the converter skips (options,
    imports, services, reserved ranges, ...) are [EOther] and [FOther]. *)
From Coq Require Import String Ascii List NArith ZArith QArith Bool Lia DecimalString.
From Verif Require Import PyVal RType Registry FromDict Url Avro JsonSchema.
Import ListNotations.
Open Scope nat_scope.
Open Scope string_scope.
Open Scope list_scope.

(** FieldCardinality; a field without a label has None. *)
Inductive card := Required | Optional | Repeated.
Inductive element :=
| EField (name : pyval) (number : nat) (type : string) (c : option card)
| EMapField (name : pyval) (number : nat) (key value : string)
| EOneOf (name : pyval) (els : list element)
| EMessage (name : string) (els : list element)
| EEnum (name : string) (values : list (pyval * Z))
| EOther.
Inductive felement :=
| FPackage (name : string)
| FElement (e : element)
| FOther.

(** ** Reading *)

(** The tests of field.cardinality, protobuf.py:154 and 157. *)
Definition repeated (c : option card) : bool := match c with Some Repeated => true | _ => false end.
Definition required (c : option card) : bool := match c with Some Required => true | _ => false end.

(** _protobuf_type_to_recap_type, protobuf.py:186-253; [top] is self.namespaces[-1]. *)
Definition pr_scalar (s : string) : option rtype :=
  let is x := String.eqb s x in
  let int b sg := Some (TInt c0 (PInt b) (PBool sg)) in
  if is "string" then Some (TString c0 (PInt 2147483648) (PBool true))
  else if is "bool" then Some (TBool c0)
  else if is "bytes" then Some (TBytes c0 (PInt 2147483648) (PBool true))
  else if is "int32" then int 32%Z true
  else if is "int64" then int 64%Z true
  else if is "uint32" then int 32%Z false
  else if is "uint64" then int 64%Z false
  else if is "sint32" then int 32%Z true
  else if is "sint64" then int 64%Z true
  else if is "float" then Some (TFloat c0 (PInt 32))
  else if is "double" then Some (TFloat c0 (PInt 64))
  else if is "fixed32" then int 32%Z false
  else if is "fixed64" then int 64%Z false
  else if is "sfixed32" then int 32%Z true
  else if is "sfixed64" then int 64%Z true
  else if is "google.protobuf.Timestamp" then
    Some (TInt (lge "build.recap.Timestamp" [("unit", PStr "nanosecond"); ("timezone", PStr "UTC")]) (PInt 64) (PBool true))
  else if is "google.protobuf.Duration" then
    Some (TInt (lge "build.recap.Duration" [("unit", PStr "nanosecond")]) (PInt 64) (PBool true))
  else if is "google.protobuf.NullValue" then Some (TNull c0)
  else None.
(** f"{self.namespaces[-1]}.{name}", protobuf.py:144, 251, 277. *)
Definition qualify (top : option string) (s : string) : res string :=
  match top with Some ns => Ok (ns ++ "." ++ s)%string | None => Err IndexError end.
Definition pr_type (top : option string) (s : string) : res rtype :=
  match pr_scalar s with
  | Some t => Ok t
  | None =>
      (a <- (if substr_in "." s then Ok s else qualify top s) ;;
       Ok (TProxy (mkC PNone (PStr a) PNone []) None))%res
  end.

(** _parse_field, protobuf.py:151-164. *)
Definition pr_field (top : option string) (name : pyval) (ty : string) (c : option card) : res rtype :=
  (t <- pr_type top ty ;;
   let t := if repeated c then TList c0 t PNone (PBool true) else t in
   let t := if required c then t
            else set_extra_key "default" PNone
                   (if is_null t then t else TUnion (mkC PNone PNone PNone [("default", PNone)]) [TNull c0; t]) in
   Ok (set_extra_key "name" name t))%res.

(** _parse_map_field, protobuf.py:166-184. *)
Definition pr_map (top : option string) (name : pyval) (k v : string) : res rtype :=
  (tk <- pr_type top k ;;
   if match tk with TInt _ _ _ | TString _ _ _ => true | _ => false end then
     (tv <- pr_type top v ;;
      Ok (TUnion (mkC PNone PNone PNone (("default", PNone) :: if is_none name then [] else [("name", name)]))
            [TNull c0; TMap c0 tk tv]))
   else Err AssertionError)%res.

(** _parse_oneof, protobuf.py:255-268. *)
Definition pr_oneof (top : option string) (name : pyval) (els : list element) : res rtype :=
  (ts <- (fix go (l : list element) : res (list rtype) :=
            match l with
            | [] => Ok []
            | EField n _ ty _ :: r => (t <- pr_field top n ty (Some Required) ;; ts <- go r ;; Ok (t :: ts))
            | _ :: r => go r
            end) els ;;
   Ok (TUnion (mkC PNone PNone PNone [("name", name); ("default", PNone)]) (TNull c0 :: ts)))%res.

(** _parse_enum, protobuf.py:270-280. *)
Definition pr_enum (top : option string) (name : string) (vs : list (pyval * Z)) : M rtype :=
  (a <- lift (qualify top name) ;;
   let t := TEnum (mkC PNone (PStr a) PNone []) (PList (map fst vs)) in
   _ <- register_alias t ;; ret t)%mon.

(** _parse_message, protobuf.py:124-149. *)
Fixpoint pr_message (top : option string) (e : element) : M rtype :=
  match e with
  | EMessage name els =>
      (fs <- (fix go (l : list element) : M (list rtype) :=
                match l with
                | [] => ret []
                | x :: r =>
                    (f <- match x with
                          | EField n _ ty c => (t <- lift (pr_field top n ty c) ;; ret [t])%mon
                          | EMapField n _ k v => (t <- lift (pr_map top n k v) ;; ret [t])%mon
                          | EOneOf n l => (t <- lift (pr_oneof top n l) ;; ret [t])%mon
                          | EMessage _ _ => (_ <- pr_message top x ;; ret [])%mon
                          | EEnum n vs => (_ <- pr_enum top n vs ;; ret [])%mon
                          | EOther => ret []
                          end ;;
                     fs <- go r ;;
                     ret (f ++ fs))%mon
                end) els ;;
       a <- lift (qualify top name) ;;
       let t := TStruct (mkC PNone (PStr a) PNone []) fs in
       _ <- register_alias t ;;
       ret t)%mon
  | _ => fail AttributeError
  end.

(** The loop of _parse over the elements of the file, protobuf.py:109-115: the first message. *)
Fixpoint pr_elements (top : option string) (l : list felement) (root : option rtype) : M (option rtype) :=
  match l with
  | [] => ret root
  | FElement (EMessage n els) :: r =>
      (t <- pr_message top (EMessage n els) ;;
       pr_elements top r (match root with Some t0 => Some t0 | None => Some t end))%mon
  | FElement (EEnum n vs) :: r => (_ <- pr_enum top n vs ;; pr_elements top r root)%mon
  | _ :: r => pr_elements top r root
  end.

(** The converter: self.namespaces and self.registry. *)
Record conv := mkConv { spaces : list string; reg : registry }.
(** protobuf.py:104-107. *)
Definition first_package (l : list felement) : option string :=
  match flat_map (fun e => match e with FPackage n => [n] | _ => [] end) l with n :: _ => Some n | [] => None end.
(** self.namespaces[-1]. *)
Definition top_of (ns : list string) : option string :=
  match ns with [] => None | _ => Some (last ns "") end.

(** _parse, protobuf.py:100-122.  On an error the namespace stays on the stack. *)
Definition pr_parse (l : list felement) (s : conv) : conv * res rtype :=
  let ns := match first_package l with Some p => spaces s ++ [p] | None => spaces s end in
  match pr_elements (top_of ns) l None (reg s) with
  | (R, Err e) => (mkConv ns R, Err e)
  | (R, Ok None) => (mkConv ns R, Err ValueError)
  | (R, Ok (Some t)) =>
      match ns with
      | [] => (mkConv ns R, Err IndexError)
      | _ => (mkConv (removelast ns) R, Ok t)
      end
  end.

(** ** Resolving references: _resolve_proxies, protobuf.py:57-98 *)

(** The sets `resolved` and `seen`. *)
Definition marks := (list string * list string)%type.
(** `resolved = resolved or set()`: an empty set is replaced by a new one, so that what a
    callee adds to it is lost for the caller. *)
Definition after (s s' : marks) : marks :=
  (match fst s with [] => [] | _ => fst s' end, match snd s with [] => [] | _ => snd s' end).
(** seen.add, protobuf.py:66-68. *)
Definition see (t : rtype) (s : marks) : res marks :=
  match c_alias (get_c t) with
  | PNone => Ok s
  | PStr a => Ok (fst s, a :: snd s)
  | _ => Err Unmodelled
  end.
(** One call, protobuf.py:63-82: a reference is replaced, then its parts are visited. *)
Definition px_enter (kids prox : marks -> rtype -> res (rtype * marks)) (R : registry) (s : marks) (t : rtype) : res (rtype * marks) :=
  (r <- match t with
        | TProxy c _ =>
            match c_alias c with
            | PStr a =>
                if str_in a (fst s) || str_in a (snd s) then Ok (t, s)
                else
                  (t0 <- resolve R t ;;
                   let k := get_c t0 in
                   prox (a :: fst s, snd s) (set_c t0 (mkC (c_logical k) (PStr a) (c_doc k) (dupd (c_extra k) (c_extra c)))))
            | _ => Err Unmodelled
            end
        | _ => (s' <- see t s ;; kids s' t)
        end ;;
   Ok (fst r, after s (snd r)))%res.
(** [prox] goes on with the parts of the type that a reference stands for. *)
Fixpoint px_kids (prox : marks -> rtype -> res (rtype * marks)) (R : registry) (s : marks) (t : rtype) : res (rtype * marks) :=
  let enter := px_enter (px_kids prox R) prox R in
  let all := fix all (l : list rtype) (s : marks) : res (list rtype * marks) :=
    match l with
    | [] => Ok ([], s)
    | x :: r => (p <- enter s x ;; q <- all r (snd p) ;; Ok (fst p :: fst q, snd q))%res
    end in
  (match t with
   | TList c v l va => (p <- enter s v ;; Ok (TList c (fst p) l va, snd p))
   | TMap c k v => (p <- enter s k ;; q <- enter (snd p) v ;; Ok (TMap c (fst p) (fst q), snd q))
   | TUnion c l => (p <- all l s ;; Ok (TUnion c (fst p), snd p))
   | TStruct c l => (p <- all l s ;; Ok (TStruct c (fst p), snd p))
   | _ => Ok (t, s)
   end)%res.
Fixpoint px_f (n : nat) (R : registry) (s : marks) (t : rtype) : res (rtype * marks) :=
  px_kids (match n with O => fun _ _ => Err OutOfFuel | S n' => px_f n' R end) R s t.
Definition pr_resolve (R : registry) (t : rtype) : res rtype :=
  let n := S (Nat.max (rdepth t) (reg_depth R)) in
  (r <- px_enter (px_f n R) (px_f n R) R ([], []) t ;; Ok (fst r))%res.

(** to_recap, protobuf.py:44-55, after the parser. *)
Definition pr_to (l : list felement) (s : conv) : conv * res rtype :=
  match pr_parse l s with
  | (s', Ok t) =>
      (s', (t' <- pr_resolve (reg s') t ;;
            match t' with TStruct _ _ => Ok t' | _ => Err ValueError end)%res)
  | (s', Err e) => (s', Err e)
  end.
(** ProtobufConverter(namespace), protobuf.py:40-42. *)
Definition converter (namespace : string) : conv := mkConv [namespace] builtin_aliases.

(** ** Writing *)

Definition dec (n : nat) : string := NilEmpty.string_of_uint (Nat.to_uint n).
(** protobuf.py:398. *)
Definition field_name (t : rtype) (n : nat) : pyval := kwarg "name" (PStr ("field_" ++ dec n)) (c_extra (get_c t)).
Definition is_field (e : element) : bool := match e with EField _ _ _ _ => true | _ => false end.
Definition set_card (c : card) (e : element) : element :=
  match e with EField n i ty _ => EField n i ty (Some c) | _ => e end.
Definition type_of (e : element) : string := match e with EField _ _ ty _ => ty | _ => "" end.
(** isinstance(v, int): booleans too. *)
Definition int_of (v : pyval) : option Z :=
  match v with PInt z => Some z | PBool b => Some (if b then 1 else 0)%Z | _ => None end.

(** _recap_to_field, protobuf.py:382-489. *)
Fixpoint pr_write (t : rtype) (n : nat) : res element :=
  let field ty := Ok (EField (field_name t n) n ty None) in
  (match t with
   | TNull _ => field "google.protobuf.NullValue"
   | TBool _ => field "bool"
   | TInt _ b s =>
       match s, int_of b with
       | PBool true, Some b =>
           if Z.leb b 32 then field "int32" else if Z.leb b 64 then field "int64" else Err ValueError
       | PBool false, Some b =>
           if Z.leb b 32 then field "uint32" else if Z.leb b 64 then field "uint64" else Err ValueError
       | _, _ => Err ValueError
       end
   | TFloat _ b =>
       match int_of b with
       | Some b => if Z.leb b 32 then field "float" else if Z.leb b 64 then field "double" else Err ValueError
       | None => Err ValueError
       end
   | TString _ b _ =>
       match int_of b with
       | Some b => if Z.leb b 2147483647 then field "string" else Err ValueError
       | None => Err ValueError
       end
   | TBytes _ b _ =>
       match int_of b with
       | Some b => if Z.leb b 2147483647 then field "bytes" else Err ValueError
       | None => Err ValueError
       end
   | TList _ v _ _ =>
       (f <- pr_write v n ;;
        if is_field f then Ok (set_card Repeated f) else Err AssertionError)
   | TMap _ k v =>
       (fk <- pr_write k 0 ;;
        fv <- pr_write v 0 ;;
        if is_field fk && is_field fv then Ok (EMapField (field_name t n) n (type_of fk) (type_of fv))
        else Err AssertionError)
   | TUnion _ ts =>
       let one := Nat.eqb (length (filter (fun x => negb (is_null x)) ts)) 1 in
       (fs <- (fix go (l : list rtype) (i : nat) : res (list element) :=
                 match l with
                 | [] => Ok []
                 | x :: r =>
                     if is_null x then go r i
                     else (f <- pr_write x i ;; fs <- go r (S i) ;; Ok (f :: fs))
                 end) ts n ;;
        if one then
          match fs with
          | [f] => if is_field f then Ok (set_card Optional f) else Err AssertionError
          | _ => Err AssertionError
          end
        else Ok (EOneOf (field_name t n) fs))
   | TStruct c _ | TEnum c _ | TProxy c _ =>
       match c_alias c with
       | PNone => Err AssertionError
       | PStr a => field ("." ++ a)%string
       | _ => Err TypeError
       end
   end)%res.

(** _from_recap_gather_types, protobuf.py:300-354: the declarations with their packages, in the
    order in which they are added. *)
Definition declared := list (string * element).
Fixpoint pr_gather (t : rtype) : res declared :=
  let all := fix all (l : list rtype) : res declared :=
    match l with
    | [] => Ok []
    | x :: r => (d <- pr_gather x ;; e <- all r ;; Ok (d ++ e))%res
    end in
  (match t with
   | TStruct c fs =>
       match c_alias c with
       | PNone => Err AssertionError
       | PStr a =>
           if substr_in "." a then
             let (package, name) := rsplit_dot a in
             (ed <- (fix go (l : list rtype) (i : nat) : res (list element * declared) :=
                       match l with
                       | [] => Ok ([], [])
                       | x :: r => (e <- pr_write x i ;; d <- pr_gather x ;; ed <- go r (S i) ;;
                                    Ok (e :: fst ed, d ++ snd ed))
                       end) fs 1 ;;
              Ok (snd ed ++ [(package, EMessage name (fst ed))]))
           else Err AssertionError
       | PList _ | PDict _ => Err Unmodelled
       | _ => Err TypeError
       end
   | TUnion _ ts => all ts
   | TMap _ k v => (d <- pr_gather k ;; e <- pr_gather v ;; Ok (d ++ e))
   | TList _ v _ _ => pr_gather v
   | TEnum c s =>
       match c_alias c with
       | PNone => Err AssertionError
       | PStr a =>
           if substr_in "." a then
             let (package, name) := rsplit_dot a in
             match s with
             | PList l => Ok [(package, EEnum name (combine l (map Z.of_nat (seq 0 (length l)))))]
             | PStr _ | PDict _ => Err Unmodelled
             | _ => Err TypeError
             end
           else Err ValueError
       | _ => Err AttributeError
       end
   | _ => Ok []
   end)%res.

(** package_to_types.get(package, []). *)
Definition in_package (D : declared) (package : string) : list element :=
  map snd (filter (fun d => String.eqb (fst d) package) D).
(** isinstance(package_type, Message), protobuf.py:374. *)
Definition is_message (name : string) (e : element) : bool :=
  match e with EMessage n _ => String.eqb n name | _ => false end.
(** _from_recap_construct_elements, protobuf.py:356-380.  Each call for a package extends its
    messages, which are shared objects: [k] is the number of calls for this package. *)
Fixpoint pr_construct (fuel : nat) (D : declared) (k : nat) (package : string) : list element :=
  match fuel with
  | O => []
  | S fuel' =>
      let own := in_package D package in
      map (fun e =>
             match e with
             | EMessage n els =>
                 let k' := k * length (filter (is_message n) own) in
                 EMessage n (els ++ concat (repeat (pr_construct fuel' D k' (package ++ "." ++ n)%string) k))
             | _ => e
             end) own
  end.
(** Every package name is shorter than this. *)
Definition name_bound (D : declared) : nat := S (fold_right (fun d m => Nat.max (String.length (fst d)) m) 0 D).

Definition str_leb (a b : string) : bool := match String.compare a b with Gt => false | _ => true end.
(** sorted(keys)[0], protobuf.py:288; str_leb compares code points. *)
Definition str_min (l : list string) : option string :=
  match l with
  | [] => None
  | x :: r => Some (fold_left (fun m y => if str_leb m y then m else y) r x)
  end.

(** from_recap, protobuf.py:282-298. *)
Definition pr_from (t : rtype) : res (list felement) :=
  (D <- (match c_alias (get_c t) with PNone => Err AssertionError | _ => pr_gather t end) ;;
   match str_min (map fst D) with
   | None => Err IndexError
   | Some package =>
       if forallb (fun d => String.prefix package (fst d)) D
       then Ok (FPackage package :: map FElement (pr_construct (name_bound D) D 1 package))
       else Err AssertionError
   end)%res.
