(** AvroConverter: recap/converters/avro.py (whole file, 1-434).

    Schemas are JSON values ([pyval]); json.loads is not modelled. *)
From Coq Require Import String Ascii List ZArith QArith Bool Lia.
From Verif Require Import PyVal RType Registry FromDict.
Import ListNotations.
Open Scope nat_scope.
Open Scope string_scope.
Open Scope list_scope.

(** The class pattern [int(x)]: bool is a subclass of int. *)
Definition as_int (v : pyval) : option Z :=
  match v with
  | PInt z => Some z
  | PBool b => Some (if b then 1 else 0)%Z
  | _ => None
  end.

(** 9_223_372_036_854_775_807 *)
Definition max_len : Z := 9223372036854775807%Z.

(** Number of decimal digits, [len(str(z))] for positive [z]. *)
Fixpoint digits_f (n : nat) (z : Z) : Z :=
  match n with
  | O => 0
  | S n' => if Z.ltb z 10 then 1 else 1 + digits_f n' (z / 10)
  end%Z.
Definition digits (z : Z) : Z := digits_f (S (Z.to_nat (Z.log2 z))) z.

(** avro.py:83.  str() of an int with more than 4300 digits raises ValueError
    (the default limit of CPython since 3.10.7). *)
Definition max_str_digits : Z := 4300%Z.
Definition int_precision (bits : Z) (signed : bool) : res Z :=
  let n := digits (2 ^ (bits - if signed then 1 else 0)) in
  if Z.ltb max_str_digits n then Err ValueError else Ok (n - 1)%Z.

(** _from_recap_logical, avro.py:158-239. *)
Definition avro_logical (t : rtype) : res (list (string * pyval)) :=
  let x := c_extra (get_c t) in
  let unit_is u := py_eq (kwarg "unit" PNone x) (PStr u) in
  let unsupported := Err ValueError in
  match t with
  | TBytes (mkC (PStr lo) _ _ _) by_ va =>
      match as_int by_, va with
      | Some n, PBool v =>
          if Z.leb n max_len && String.eqb lo "build.recap.Decimal"
             && match dget "precision" x with Some (PInt _) | Some (PBool _) => true | _ => false end
          then Ok [("type", PStr "bytes"); ("logicalType", PStr "decimal");
                   ("precision", kwarg "precision" PNone x); ("scale", kwarg "scale" (PInt 0) x)]
          else if py_eq by_ (PInt 12) && negb v && String.eqb lo "build.recap.Interval"
                  && unit_is "millisecond"
          then Ok [("type", PStr "fixed"); ("logicalType", PStr "duration"); ("size", PInt 12)]
          else unsupported
      | None, PBool false =>
          (* bytes_ may be a float equal to 12 *)
          if py_eq by_ (PInt 12) && String.eqb lo "build.recap.Interval" && unit_is "millisecond"
          then Ok [("type", PStr "fixed"); ("logicalType", PStr "duration"); ("size", PInt 12)]
          else unsupported
      | _, _ => unsupported
      end
  | TInt (mkC (PStr lo) _ _ _) bits (PBool true) =>
      match as_int bits with
      | Some n =>
          if Z.leb n 32 && String.eqb lo "build.recap.Date"
          then Ok [("type", PStr "int"); ("logicalType", PStr "date")]
          else if Z.leb n 32 && String.eqb lo "build.recap.Time" && unit_is "millisecond"
          then Ok [("type", PStr "int"); ("logicalType", PStr "time-millis")]
          else if Z.leb n 64 && String.eqb lo "build.recap.Time" && unit_is "microsecond"
          then Ok [("type", PStr "long"); ("logicalType", PStr "time-micros")]
          else if Z.leb n 64 && String.eqb lo "build.recap.Timestamp" && unit_is "millisecond"
          then Ok [("type", PStr "long"); ("logicalType", PStr "timestamp-millis")]
          else if Z.leb n 64 && String.eqb lo "build.recap.Timestamp" && unit_is "microsecond"
          then Ok [("type", PStr "long"); ("logicalType", PStr "timestamp-micros")]
          else unsupported
      | None => unsupported
      end
  | TString (mkC (PStr lo) _ _ _) by_ _ =>
      match as_int by_ with
      | Some n =>
          if Z.leb n max_len && String.eqb lo "build.recap.UUID"
          then Ok [("type", PStr "string"); ("logicalType", PStr "uuid")]
          else unsupported
      | None => unsupported
      end
  | _ => unsupported
  end.

(** avro.py:51-67. *)
Definition avro_head (c : common) : res (list (string * pyval)) :=
  let d := if truthy (c_doc c) then [("doc", c_doc c)] else [] in
  let name := kwarg "name" PNone (c_extra c) in
  let d := if truthy name then dset "name" name d else d in
  let d := match dget "default" (c_extra c) with Some v => dset "default" v d | None => d end in
  if truthy (c_alias c) then
    (dotted <- py_str_in "." (c_alias c) ;;
     Ok (if dotted : bool then dset "aliases" (PList [c_alias c]) d else d))%res
  else Ok d.

(** avro.py:152-156. *)
Definition avro_short (d : list (string * pyval)) : pyval :=
  if Nat.eqb (length d) 1 then
    match dget "type" d with Some (PStr s) => PStr s | _ => PDict d end
  else PDict d.

(** A record field, avro.py:110-118; converted types are dicts or strings. *)
Definition avro_field (v : pyval) : res pyval :=
  match v with
  | PDict d => Ok (PDict d)
  | PStr s => Ok (PDict [("type", PStr s)])
  | _ => Err ValueError
  end.

(** _from_recap, avro.py:39-156.  [prox] converts the result of resolving a proxy. *)
Fixpoint avro_tree (prox : rtype -> res pyval) (R : registry) (t : rtype) : res pyval :=
  (d <- avro_head (get_c t) ;;
   let done d' := Ok (avro_short d') in
   let prim s := done (dset "type" (PStr s) d) in
   match c_logical (get_c t) with
   | PStr _ => (l <- avro_logical t ;; done (dupd d l))
   | _ =>
     match t with
     | TNull _ => prim "null"
     | TBool _ => prim "boolean"
     | TInt _ bits sg =>
         match as_int bits, sg with
         | Some n, PBool s =>
             if s && Z.leb n 32 then prim "int"
             else if (Z.leb n 32 && negb s) || (Z.leb n 64 && s) then prim "long"
             else (p <- int_precision n s ;;
                   done (dupd d [("type", PStr "bytes"); ("logicalType", PStr "decimal");
                                 ("precision", PInt p)]))
         | _, _ => Err ValueError
         end
     | TFloat _ bits =>
         match as_int bits with
         | Some n => if Z.leb n 32 then prim "float" else if Z.leb n 64 then prim "double" else Err ValueError
         | None => Err ValueError
         end
     | TString _ by_ _ =>
         match as_int by_ with
         | Some n => if Z.leb n max_len then prim "string" else Err ValueError
         | None => Err ValueError
         end
     | TBytes _ by_ va =>
         match as_int by_, va with
         | Some n, PBool true => if Z.leb n max_len then prim "bytes" else Err ValueError
         | Some n, PBool false =>
             if Z.leb n max_len then done (dset "size" by_ (dset "type" (PStr "fixed") d)) else Err ValueError
         | _, _ => Err ValueError
         end
     | TStruct _ fs =>
         (l <- (fix go (l : list rtype) : res (list pyval) :=
                  match l with
                  | [] => Ok []
                  | x :: xs => (y <- avro_tree prox R x ;; y <- avro_field y ;; ys <- go xs ;; Ok (y :: ys))
                  end) fs ;;
          done (dset "fields" (PList l) (dset "type" (PStr "record") d)))
     | TEnum _ s =>
         match s with
         | PList _ => done (dset "symbols" s (dset "type" (PStr "enum") d))
         | _ => Err ValueError
         end
     | TList _ v _ _ =>
         (i <- avro_tree prox R v ;; done (dset "items" i (dset "type" (PStr "array") d)))
     | TMap _ k v =>
         match k with
         | TString _ _ _ =>
             (i <- avro_tree prox R v ;; done (dset "values" i (dset "type" (PStr "map") d)))
         | _ => Err ValueError
         end
     | TUnion _ ts =>
         (l <- (fix go (l : list rtype) : res (list pyval) :=
                  match l with
                  | [] => Ok []
                  | x :: xs => (y <- avro_tree prox R x ;; ys <- go xs ;; Ok (y :: ys))
                  end) ts ;;
          done (dset "type" (PList l) d))
     | TProxy c _ =>
         match c_alias c with
         | PStr a =>
             if negb (substr_in "." a) then
               (* avro.py:135-141 *)
               (t' <- resolve R t ;;
                v <- prox t' ;;
                match v with
                | PDict e => done (ddel "aliases" (dupd d e))
                | _ => done (ddel "aliases" (dset "type" (PStr a) d))
                end)
             else done (ddel "aliases" (dset "type" (PStr a) d))
         | _ => Err ValueError
         end
     end
   end)%res.

(** Recursion through resolved proxies, with fuel. *)
Fixpoint avro_from_f (n : nat) (R : registry) (t : rtype) : res pyval :=
  avro_tree (fun t' => match n with O => Err OutOfFuel | S n' => avro_from_f n' R t' end) R t.

(** from_recap, avro.py:26-37.  Naked aliases stand for built-in types, which contain
    no proxies, so one round of fuel is enough (AvroFacts.v). *)
Definition avro_from (R : registry) (t : rtype) : res pyval :=
  (v <- avro_from_f 1 R t ;;
   Ok match v with PStr s => PDict [("type", PStr s)] | _ => v end)%res.

(** ** Reading *)

(** f"{namespace}": the values that a namespace has in practice. *)
Definition ns_text (ns : pyval) : res string :=
  match ns with
  | PStr s => Ok s
  | PNone => Ok "None"
  | PBool b => Ok (if b then "True" else "False")
  | _ => Err Unmodelled
  end.

(** s.rsplit(".", 1) of a string with a dot: before and after the last dot. *)
Fixpoint rsplit_dot (s : string) : string * string :=
  match s with
  | EmptyString => ("", "")
  | String c r =>
      if substr_in "." r then let (a, b) := rsplit_dot r in (String c a, b)
      else if Ascii.eqb c "." then ("", r)
      else (String c "", r)
  end.

(** avro.py:261-276: the namespace for children, the alias and the extra attributes. *)
Record ahead := mkHead { a_ns : pyval; a_alias : pyval; a_attrs : list (string * pyval) }.
Definition avro_parse_head (d : list (string * pyval)) (ns : pyval) : res ahead :=
  let attrs := match dget "doc" d with Some v => [("doc", v)] | None => [] end in
  let ns := match dget "namespace" d with Some v => v | None => ns end in
  let dflt := match dget "default" d with Some v => [("default", v)] | None => [] end in
  match dget "name" d with
  | None => Ok (mkHead ns PNone (attrs ++ dflt))
  | Some (PStr nm) =>
      let '(ns, name) := if substr_in "." nm then let (a, b) := rsplit_dot nm in (PStr a, b)
                         else (ns, nm) in
      let ns := if truthy ns then ns else PStr "_root" in
      (p <- ns_text ns ;;
       Ok (mkHead ns (PStr (p ++ "." ++ name)%string) (attrs ++ [("name", PStr name)] ++ dflt)))%res
  | Some (PList l) =>
      (* rsplit on a list, or a list printed into the alias *)
      if existsb (fun x => py_eq x (PStr ".")) l then Err AttributeError else Err Unmodelled
  | Some (PDict e) => if dmem "." e then Err AttributeError else Err Unmodelled
  | Some _ => Err TypeError
  end.

(** Type(alias=alias, **extra_attrs): [doc] is a constructor parameter. *)
Definition avro_common (lo alias : pyval) (x attrs : list (string * pyval)) : common :=
  mkC lo alias (kwarg "doc" PNone attrs) (x ++ ddel "doc" attrs).

(** _parse_logical, avro.py:362-434.  No alias is set. *)
Definition avro_parse_logical (lo : pyval) (d attrs : list (string * pyval)) : res rtype :=
  let c l x := avro_common (PStr l) PNone x attrs in
  match lo with
  | PStr s =>
      if String.eqb s "decimal" then
        match dget "type" d, dget "precision" d with
        | Some ty, Some p =>
            Ok (TBytes (c "build.recap.Decimal" [("precision", p); ("scale", kwarg "scale" (PInt 0) d)])
                  (kwarg "size" (PInt max_len) d) (PBool (py_eq ty (PStr "fixed"))))
        | _, _ => Err KeyError
        end
      else if String.eqb s "uuid" then Ok (TString (c "build.recap.UUID" []) (PInt 36) (PBool false))
      else if String.eqb s "date" then
        Ok (TInt (c "build.recap.Date" [("unit", PStr "day")]) (PInt 32) (PBool true))
      else if String.eqb s "time-millis" then
        Ok (TInt (c "build.recap.Time" [("unit", PStr "millisecond")]) (PInt 32) (PBool true))
      else if String.eqb s "time-micros" then
        Ok (TInt (c "build.recap.Time" [("unit", PStr "microsecond")]) (PInt 64) (PBool true))
      else if String.eqb s "timestamp-millis" then
        Ok (TInt (c "build.recap.Timestamp" [("unit", PStr "millisecond")]) (PInt 64) (PBool true))
      else if String.eqb s "timestamp-micros" then
        Ok (TInt (c "build.recap.Timestamp" [("unit", PStr "microsecond")]) (PInt 64) (PBool true))
      else if String.eqb s "duration" then
        Ok (TBytes (c "build.recap.Interval" [("signed", PBool true); ("unit", PStr "millisecond")])
              (PInt 12) (PBool true))
      else Err ValueError
  | _ => Err ValueError
  end.

(** avro.py:357-360. *)
Definition avro_register (t : rtype) : M rtype :=
  if is_none (c_alias (get_c t)) then ret t else (_ <- register_alias t ;; ret t)%mon.

(** The match statement of _parse, avro.py:280-355. *)
Definition avro_body (rec : pyval -> pyval -> M rtype) (d : list (string * pyval)) (h : ahead) : M rtype :=
  let c := avro_common PNone (a_alias h) [] (a_attrs h) in
  let union l := (ts <- mmap (fun t => rec t (a_ns h)) l ;; avro_register (TUnion c ts))%mon in
  let proxy s :=
    (p <- (if substr_in "." s then ret s else (n <- lift (ns_text (a_ns h)) ;; ret (n ++ "." ++ s)%string)) ;;
     ret (TProxy (mkC PNone (PStr p) (kwarg "doc" PNone (a_attrs h)) (ddel "doc" (a_attrs h))) None))%mon in
  match dget "type" d with
  | Some (PStr ty) =>
      if String.eqb ty "null" then avro_register (TNull c)
      else if String.eqb ty "boolean" then avro_register (TBool c)
      else if String.eqb ty "int" then avro_register (TInt c (PInt 32) (PBool true))
      else if String.eqb ty "long" then avro_register (TInt c (PInt 64) (PBool true))
      else if String.eqb ty "float" then avro_register (TFloat c (PInt 32))
      else if String.eqb ty "double" then avro_register (TFloat c (PInt 64))
      else if String.eqb ty "bytes" then avro_register (TBytes c (PInt max_len) (PBool true))
      else if String.eqb ty "fixed" then
        match dget "size" d with
        | Some n =>
            match as_int n with
            | Some z => if Z.leb z max_len then avro_register (TBytes c n (PBool true)) else proxy ty
            | None => proxy ty
            end
        | None => proxy ty
        end
      else if String.eqb ty "string" then avro_register (TString c (PInt max_len) (PBool true))
      else if String.eqb ty "record" then
        match dget "fields" d with
        | Some v => (l <- lift (py_iter v) ;; fs <- mmap (fun t => rec t (a_ns h)) l ;;
                     avro_register (TStruct c fs))%mon
        | None => proxy ty
        end
      else if String.eqb ty "enum" then
        match dget "symbols" d with
        | Some s => avro_register (TEnum c s)
        | None => proxy ty
        end
      else if String.eqb ty "array" then
        match dget "items" d with
        | Some v => (t <- rec v (a_ns h) ;; avro_register (TList c t PNone (PBool true)))%mon
        | None => proxy ty
        end
      else if String.eqb ty "map" then
        match dget "values" d with
        | Some v => (t <- rec v (a_ns h) ;;
                     avro_register (TMap c (TString c0 (PInt max_len) (PBool true)) t))%mon
        | None => proxy ty
        end
      else if String.eqb ty "union" then
        match dget "types" d with
        | Some v => (l <- lift (py_iter v) ;; union l)%mon
        | None => proxy ty
        end
      else proxy ty
  | Some (PList l) => union l
  | Some (PDict e) =>
      (* return_type.extra_attrs |= extra_attrs *)
      (t <- rec (PDict e) (a_ns h) ;;
       let k := get_c t in
       ret (set_c t (mkC (c_logical k) (c_alias k) (c_doc k) (dupd (c_extra k) (a_attrs h)))))%mon
  | _ => fail ValueError
  end.

(** _parse, avro.py:252-360, with recursion fuel. *)
Fixpoint avro_parse_f (n : nat) (j ns : pyval) : M rtype :=
  match n with
  | O => fail OutOfFuel
  | S n' =>
      let dict d :=
        (h <- lift (avro_parse_head d ns) ;;
         let lo := kwarg "logicalType" PNone d in
         if truthy lo then lift (avro_parse_logical lo d (a_attrs h))
         else avro_body (avro_parse_f n') d h)%mon in
      match j with
      | PStr s => dict [("type", PStr s)]
      | PDict d => dict d
      | PList l =>
          (* "doc" in l, then l["doc"]; otherwise l.get *)
          if existsb (fun k => existsb (fun x => py_eq x (PStr k)) l) ["doc"; "namespace"; "name"; "default"]
          then fail TypeError else fail AttributeError
      | _ => fail TypeError
      end
  end.
Definition avro_parse (j ns : pyval) : M rtype := avro_parse_f (psize j) j ns.

(** to_recap, avro.py:241-250, after json.loads. *)
Definition avro_to (j ns : pyval) : M rtype :=
  (t <- avro_parse j ns ;;
   match t with TStruct _ _ => ret t | _ => fail ValueError end)%mon.
