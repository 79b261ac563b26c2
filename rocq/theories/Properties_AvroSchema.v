(** C95-C97: Avro schemas and the types that they describe. *)
From Coq Require Import String Ascii List NArith ZArith QArith Bool Lia.
From Verif Require Import PyVal RType Registry RegexFacts SpecTypes SpecAvro SpecAvroSchema Avro AvroSchema.
Import ListNotations.
Open Scope nat_scope.
Open Scope string_scope.
Open Scope list_scope.

(** ** C95: a schema is read as the type that it describes *)
(** [reads] leaves open whether fixed types, decimals and durations have variable length (C36), gives
    a field whose type is an object the documentation of the object, and gives a full name to every
    schema with a name but a logical one. *)
Theorem C95_reads_partial : forall j start ns R R' t, namespaced j ->
  start = PStr ns \/ (start = PNone /\ ns = "" /\ exists d nm, j = PDict d /\ dget "name" d = Some (PStr nm)) ->
  avro_to j start R = (R', Ok t) -> reads ns j t /\ exists c fs, t = TStruct c fs.
Proof. exact to_reads. Qed.
Print Assumptions C95_reads_partial.

(** Every record is read if its full names are well-formed, distinct and new. *)
Theorem C95_accepts_partial : forall j start ns R c fs l, namespaced j ->
  start = PStr ns \/ (start = PNone /\ ns = "" /\ exists d nm, j = PDict d /\ dget "name" d = Some (PStr nm)) ->
  reads ns j (TStruct c fs) -> gives (TStruct c fs) l -> NoDup (dkeys R ++ l) -> Forall dotted_name l ->
  exists R' t, avro_to j start R = (R', Ok t).
Proof. exact to_accepts. Qed.
Print Assumptions C95_accepts_partial.

(** The documentation of a field whose type is an object of its own is an extra attribute and not
    the documentation of the type. *)
Theorem C95_reads_refuted : forall R s, exists t,
  snd (avro_to (PDict [("type", PStr "record");
    ("fields", PList [PDict [("name", PStr "f"); ("doc", PStr s); ("type", PDict [("type", PStr "int")])]])]) PNone R)
    = Ok (TStruct c0 [t]) /\ c_doc (get_c t) = PNone /\ dget "doc" (c_extra (get_c t)) = Some (PStr s).
Proof. intros R s. eexists. split; [reflexivity|]. split; reflexivity. Qed.
Print Assumptions C95_reads_refuted.

(** A fixed type with a logical type loses its full name, so a reference to it leads nowhere. *)
Theorem C95_names_refuted : forall k p, exists R' c t r,
  avro_to (PDict [("type", PStr "record"); ("name", PStr "acme.Order"); ("fields", PList
    [PDict [("name", PStr "price"); ("type", PDict [("type", PStr "fixed"); ("name", PStr "Price"); ("size", PInt k);
       ("logicalType", PStr "decimal"); ("precision", PInt p)])];
     PDict [("name", PStr "tax"); ("type", PStr "Price")]])]) PNone []
    = (R', Ok (TStruct c [t; TProxy r None])) /\ c_alias (get_c t) = PNone
  /\ c_alias r = PStr "acme.Price" /\ dget "acme.Price" R' = None.
Proof. intros k p. eexists _, _, _, _. split; [cbv; reflexivity|]. split; [reflexivity|]. split; reflexivity. Qed.
Print Assumptions C95_names_refuted.

Ltac namespaced_tac :=
  repeat first
    [ apply nsp_other; exact I
    | apply nsp_list; repeat (apply Forall_cons || apply Forall_nil)
    | apply nsp_dict; [exact I|let k := fresh in let v := fresh in intros k v; cbn [dget];
        repeat (destruct (String.eqb _ _); [intros [= <-]|]); try discriminate] ].
Definition order : pyval := PDict [("type", PStr "record"); ("name", PStr "acme.shop.Order"); ("fields", PList
    [PDict [("name", PStr "id"); ("type", PStr "long"); ("doc", PStr "key")];
     PDict [("name", PStr "kind"); ("type", PDict [("type", PStr "enum"); ("name", PStr "Kind"); ("symbols", PList [PStr "A"; PStr "B"])])];
     PDict [("name", PStr "total"); ("type", PDict [("type", PStr "bytes"); ("logicalType", PStr "decimal"); ("precision", PInt 9); ("scale", PInt 2)])];
     PDict [("name", PStr "next"); ("type", PList [PStr "null"; PStr "Order"]); ("default", PNone)]])].
Definition named (c : common) (f n : string) : Prop := c_alias c = PStr f /\ dget "name" (c_extra c) = Some (PStr n).
Example C95_case : namespaced order /\
  match avro_to order PNone [] with
  | (R', Ok (TStruct c [TInt c1 _ _; TEnum c2 s; TBytes c3 _ _; TUnion c4 [TNull _; TProxy c5 None]])) =>
      named c "acme.shop.Order" "Order" /\ named c1 "acme.shop.id" "id" /\ named c2 "acme.shop.Kind" "kind"
      /\ c_logical c3 = PStr "build.recap.Decimal" /\ c_alias c5 = PStr "acme.shop.Order"
      /\ dkeys R' = ["acme.shop.id"; "acme.shop.Kind"; "acme.shop.next"; "acme.shop.Order"]
  | _ => False
  end.
Proof. split; [unfold order; namespaced_tac|]. vm_compute. repeat split. Qed.
(** The hypotheses of [C95_accepts_partial] for the same schema. *)
Example C95_accepts_case : exists c fs l, reads "" order (TStruct c fs) /\ gives (TStruct c fs) l
  /\ NoDup l /\ Forall dotted_name l /\ length l = 4.
Proof.
  destruct C95_case as [N _]. destruct (avro_to order PNone []) as [R' [t|]] eqn:E; [|vm_compute in E; discriminate].
  destruct (C95_reads_partial order PNone "" [] R' t N) as [RD (c & fs & ->)]; auto.
  { right. split; [reflexivity|]. split; [reflexivity|]. eexists _, _. split; reflexivity. }
  destruct (to_registers _ _ _ _ _ E) as (l & G & K & D & ND). cbn in K. exists c, fs, l. rewrite <- K.
  split; auto. split; [now rewrite K|]. split; [apply ND; constructor|]. rewrite K. split; auto. rewrite <- K.
  vm_compute in E. injection E as <- _. reflexivity.
Qed.

(** ** C97: the full names of what is read are registered, each once *)
Theorem C97_registered : forall j start R R' t, avro_to j start R = (R', Ok t) ->
  exists l, gives t l /\ dkeys R' = dkeys R ++ l /\ Forall dotted_name l /\ (NoDup (dkeys R) -> NoDup (dkeys R')).
Proof. exact to_registers. Qed.
Print Assumptions C97_registered.
Example C97_case : exists R' t, avro_to order PNone (fst (avro_to (PDict [("type", PStr "record"); ("name", PStr "acme.A"); ("fields", PList [])]) PNone []))
  = (R', Ok t) /\ dkeys R' = ["acme.A"; "acme.shop.id"; "acme.shop.Kind"; "acme.shop.next"; "acme.shop.Order"].
Proof. eexists _, _. split; [vm_compute; reflexivity|]. vm_compute. reflexivity. Qed.
(** Nothing is registered twice: a second record of the same name is refused. *)
Example C97_again : snd (avro_to order PNone (fst (avro_to order PNone []))) = Err ValueError.
Proof. vm_compute. reflexivity. Qed.

(** ** C96: a type is written as the schema that describes it *)
Theorem C96_written_partial : forall R t, proper t ->
  (forall v, avro_from R t = Ok v -> exists d, v = PDict d /\ writes t v)
  /\ ((exists j, writes t j) -> exists v, avro_from R t = Ok v).
Proof. intros R t P. split; [intros v; now apply from_writes|]. intros [j W]. now apply (writes_from R t j). Qed.
Print Assumptions C96_written_partial.

(** A reference to a built-in type among the items of a list is written as a name that Avro does not
    know (C72). *)
Theorem C96_written_refuted : forall E,
  avro_from (builtin_aliases ++ E) (TList c0 (TProxy (mkC PNone (PStr "int8") PNone []) None) PNone (PBool true))
    = Ok (PDict [("type", PStr "array"); ("items", PStr "int8")])
  /\ ~ In "int8" avro_prims /\ dget "int8" builtin_aliases = Some (TInt c0 (PInt 8) (PBool true)).
Proof. intros E. split; [vm_compute; reflexivity|]. split; [cbn; intuition discriminate|reflexivity]. Qed.
Print Assumptions C96_written_refuted.

Definition order_type : rtype := TStruct (mkC PNone (PStr "acme.Order") (PStr "an order") [])
  [TInt (mkC PNone PNone PNone [("name", PStr "id")]) (PInt 64) (PBool true);
   TInt (mkC (PStr "build.recap.Timestamp") PNone PNone [("name", PStr "at"); ("unit", PStr "microsecond")]) (PInt 64) (PBool true);
   TUnion (mkC PNone PNone PNone [("name", PStr "next"); ("default", PNone)]) [TNull c0; TProxy (mkC PNone (PStr "acme.Order") PNone []) None];
   TMap (mkC PNone PNone PNone [("name", PStr "tags")]) (TString c0 (PInt 10) (PBool true)) (TList c0 (TFloat c0 (PInt 32)) PNone (PBool true))].
Example C96_case : proper order_type /\ avro_from [] order_type = Ok (PDict
  [("doc", PStr "an order"); ("aliases", PList [PStr "acme.Order"]); ("type", PStr "record"); ("fields", PList
    [PDict [("name", PStr "id"); ("type", PStr "long")];
     PDict [("name", PStr "at"); ("type", PStr "long"); ("logicalType", PStr "timestamp-micros")];
     PDict [("name", PStr "next"); ("default", PNone); ("type", PList [PStr "null"; PStr "acme.Order"])];
     PDict [("name", PStr "tags"); ("type", PStr "map"); ("values", PDict [("type", PStr "array"); ("items", PStr "float")])]])]).
Proof.
  split; [|vm_compute; reflexivity].
  assert (S0 : sized_alias c0) by (left; reflexivity).
  unfold order_type. repeat (apply proper_intro; cbn [get_c children];
    [first [left; reflexivity | right; eexists; reflexivity]|try exact I; try (eexists; split; reflexivity)|repeat (apply Forall_cons || apply Forall_nil)]).
Qed.
(** A 64-bit date has no Avro schema. *)
Example C96_none : forall j, ~ writes (TInt (mkC (PStr "build.recap.Date") PNone PNone []) (PInt 64) (PBool true)) j.
Proof.
  intros j W. set (t := TInt _ _ _) in *. assert (P : proper t) by (constructor; [left; reflexivity|exact I|constructor]).
  destruct (writes_from [] t j P W) as [v V]. vm_compute in V. discriminate.
Qed.
