(** C116-C118: the data of Avro schemas and the values of the types read from and written to them. *)
From Coq Require Import String Ascii List NArith ZArith QArith Bool Lia.
From Verif Require Import PyVal RType Registry Avro SpecTypes SpecAvro SpecAvroSchema SpecDb SpecInstances SpecRows SpecAvroData
  AvroSchema AvroData AvroDataBack AvroDataWritten.
Import ListNotations.
Open Scope nat_scope.
Open Scope string_scope.
Open Scope list_scope.

(** An alias stands for the type that is registered under it when everything has been read. *)
(** ** C116: every datum of an Avro schema is a value of the type that is read *)
Theorem C116_kept_partial : forall j start ns R R' t v, namespaced j ->
  start = PStr ns \/ (start = PNone /\ ns = "" /\ exists d nm, j = PDict d /\ dget "name" d = Some (PStr nm)) ->
  avro_to j start R = (R', Ok t) -> tidy ns j -> plain_references ns j ->
  data ns j ns j v -> holds (fun a u => dget a R' = Some u) t v.
Proof. exact data_kept. Qed.
Print Assumptions C116_kept_partial.

(** ** C117: every value of the type that is read is a datum of the Avro schema *)
Theorem C117_exact_partial : forall j start ns R R' t v, namespaced j ->
  start = PStr ns \/ (start = PNone /\ ns = "" /\ exists d nm, j = PDict d /\ dget "name" d = Some (PStr nm)) ->
  avro_to j start R = (R', Ok t) -> tidy ns j -> plain_references ns j -> well_formed ns j -> precise ns j ->
  holds (fun a u => dget a R' = Some u) t v -> data ns j ns j v.
Proof. exact data_back. Qed.
Print Assumptions C117_exact_partial.

Definition field (n : string) (j : pyval) : pyval := PDict [("name", PStr n); ("type", j)].
Definition decimal_body : attrs := [("type", PStr "bytes"); ("logicalType", PStr "decimal"); ("precision", PInt 9); ("scale", PInt 2)].
Definition kind_body : attrs := [("type", PStr "enum"); ("name", PStr "Kind"); ("symbols", PList [PStr "A"; PStr "B"])].
Definition items_body : attrs := [("type", PStr "array"); ("items", PStr "double")].
Definition tags_body : attrs := [("type", PStr "map"); ("values", PDict items_body)].
Definition order_fields : list pyval :=
  [field "id" (PStr "long"); field "total" (PDict decimal_body); field "kind" (PDict kind_body); field "before" (PStr "Kind");
   field "tags" (PDict tags_body); field "next" (PList [PStr "null"; PStr "acme.Order"])].
Definition order_body : attrs := [("type", PStr "record"); ("name", PStr "acme.Order"); ("fields", PList order_fields)].
Definition order : pyval := PDict order_body.

Lemma order_named ns : named_as ns order_body "acme" (Some ("acme.Order", "Order")).
Proof. apply (named_full ns order_body "acme" "Order"); reflexivity. Qed.
Lemma kind_named : named_as "acme" kind_body "acme" (Some ("acme.Kind", "Kind")).
Proof. apply (named_simple "acme" kind_body "Kind"); reflexivity. Qed.
Definition order_parts : list (string * pyval) :=
  [("", PDict order_body); ("acme", PStr "long"); ("acme", PDict decimal_body); ("acme", PStr "bytes"); ("acme", PDict kind_body); ("acme", PStr "Kind");
   ("acme", PDict tags_body); ("acme", PDict items_body); ("acme", PStr "double");
   ("acme", PList [PStr "null"; PStr "acme.Order"]); ("acme", PStr "null"); ("acme", PStr "acme.Order")].
Ltac in_tac := repeat (first [left; reflexivity | right]).
Ltac each H := cbn [order_parts In] in H; repeat (destruct H as [H|H]); try contradiction; try discriminate H;
  match type of H with ?x = ?y => injection H; clear H; intros; subst end.
Lemma order_part ns j : part "" order ns j -> In (ns, j) order_parts.
Proof.
  induction 1 as [|ns d ns' nm l o j PA IH E NA F I EJ|ns d j PA IH E F|ns d j PA IH E F|ns l j PA IH I|ns d j PA IH E NN].
  - in_tac.
  - each IH; cbn in E; try discriminate E. cbn in F. injection F as <-.
    destruct (named_fun _ _ _ _ _ _ NA (order_named "")) as [-> _]. cbn in I. each I; cbn in EJ; injection EJ as <-; in_tac.
  - each IH; cbn in E; try discriminate E. cbn in F. injection F as <-. in_tac.
  - each IH; cbn in E; try discriminate E. cbn in F. injection F as <-. in_tac.
  - each IH. cbn in I. destruct I as [<-|[<-|[]]]; in_tac.
  - each IH; cbn in E; injection E as <-; try in_tac; exfalso; apply (NN _ eq_refl); cbn; tauto.
Qed.
Lemma order_tidy : tidy "" order.
Proof.
  split.
  - intros ns d PA. apply order_part in PA. each PA.
    + split; [exact I|]. intros H. elim (H "record"); cbn; auto.
    + split; [|intros _; split; reflexivity]. split; [|right; reflexivity]. apply (meant_bytes _ 9 2); [reflexivity|].
      split; [reflexivity|]. split; [lia|]. split; [lia|]. left. reflexivity.
    + split; [exact I|]. intros H. elim (H "enum"); cbn; auto.
    + split; [exact I|]. intros _. split; reflexivity.
    + split; [exact I|]. intros _. split; reflexivity.
  - intros ns d l o PA E F IO. apply order_part in PA. each PA; cbn in E; try discriminate E. cbn in F. injection F as <-.
    cbn in IO. each IO; (split; [eexists; split; reflexivity|split; reflexivity]).
Qed.
Lemma order_definition : defined "" order "acme.Order" "" order_body.
Proof.
  split; [constructor|]. split; [|exists "acme", "Order"; apply order_named]. exists "record".
  split; [reflexivity|]. split; [cbn; auto|]. exists "fields", (PList order_fields). split; [cbn; auto|]. split; [reflexivity|discriminate].
Qed.
Lemma kind_definition : defined "" order "acme.Kind" "acme" kind_body.
Proof.
  split; [|split; [|exists "acme", "Kind"; apply kind_named]].
  - apply (part_field "" order "" order_body "acme" ("acme.Order", "Order") order_fields [("name", PStr "kind"); ("type", PDict kind_body)]);
      [constructor|reflexivity|apply order_named|reflexivity|cbn; auto|reflexivity].
  - exists "enum". split; [reflexivity|]. split; [cbn; tauto|]. eexists "symbols", _. split; [cbn; tauto|]. split; [reflexivity|discriminate].
Qed.
Lemma order_plain : plain_references "" order.
Proof.
  intros ns s ns' d PS RF (PA & (s' & E & DS & _) & _). apply order_part in PA. each PA; try reflexivity.
  cbn in E. injection E as <-. cbn in DS. intuition discriminate.
Qed.
Lemma order_well : well_formed "" order.
Proof.
  intros ns j PA. apply order_part in PA. each PA; try exact I; try (left; cbn; tauto).
  - split; [|intros _; exists (PStr "acme.Order"), (map (fun j => match j with PDict o => o | _ => [] end) order_fields); split; reflexivity].
    intros s [= <-] _. split; [discriminate|]. eexists "fields", _. split; [cbn; tauto|]. split; [reflexivity|discriminate].
  - split; [intros s [= <-] X; cbn in X; intuition discriminate|discriminate].
  - split; [|discriminate]. intros s [= <-] _. split; [discriminate|]. eexists "symbols", _. split; [cbn; tauto|]. split; [reflexivity|discriminate].
  - right. split; [split; cbn; intuition discriminate|]. exists "acme", kind_body. exact kind_definition.
  - split; [|discriminate]. intros s [= <-] _. split; [discriminate|]. eexists "values", _. split; [cbn; tauto|]. split; [reflexivity|discriminate].
  - split; [|discriminate]. intros s [= <-] _. split; [discriminate|]. eexists "items", _. split; [cbn; tauto|]. split; [reflexivity|discriminate].
  - right. split; [split; cbn; intuition discriminate|]. exists "", order_body. exact order_definition.
Qed.
Lemma order_precise : precise "" order.
Proof. intros ns d PA. apply order_part in PA. each PA; (split; [discriminate|]; intros l I; cbn in I; destruct I as [<-|[<-|[<-|[]]]]; discriminate). Qed.

Ltac namespaced_tac :=
  repeat first
    [ apply nsp_other; exact I
    | apply nsp_list; repeat (apply Forall_cons || apply Forall_nil)
    | apply nsp_dict; [exact I|let k := fresh in let v := fresh in intros k v; cbn [dget];
        repeat (destruct (String.eqb _ _); [intros [= <-]|]); try discriminate] ].
Definition order_value (z n : Z) (next : datum) : datum :=
  DRow [("id", DInt z); ("total", DNumber n 2); ("kind", DText "A"); ("before", DText "B");
        ("tags", DMap [(DText "a", DList [DFloat 1; DFloat (1 # 2)])]); ("next", next)].
Lemma wider_range b b' z : (1 <= b <= b')%Z -> int_range b true z -> int_range b' true z.
Proof.
  intros L H. unfold int_range in *. assert (X : (2 ^ (b - 1) <= 2 ^ (b' - 1))%Z) by (apply Z.pow_le_mono_r; lia). lia.
Qed.
Lemma order_data z n v : int_range 64 true z -> (Z.abs n < 10 ^ 9)%Z -> v = DNull \/ data "" order "" order v ->
  data "" order "" order (order_value z n v).
Proof.
  intros IZ IN IV. unfold order_value. apply (data_record "" order "" order_body "acme" ("acme.Order", "Order") order_fields);
    [exact I|reflexivity|apply order_named|reflexivity|].
  eapply fields_cons; [reflexivity|reflexivity|apply data_primitive; now constructor|].
  eapply fields_cons; [reflexivity|reflexivity| |].
  { apply (data_logical _ _ _ _ "decimal"); [reflexivity| |].
    - apply (meant_bytes _ 9 2); [reflexivity|]. split; [reflexivity|]. split; [lia|]. split; [lia|]. left. reflexivity.
    - clear IZ. apply (ld_decimal _ 9 2 longest n);
        [split; [reflexivity|]; split; [lia|]; split; [lia|]; left; reflexivity|left; split; reflexivity|reflexivity|exact IN|].
      apply (wider_range 64); [unfold longest; lia|]. unfold int_range. lia. }
  eapply fields_cons; [reflexivity|reflexivity| |].
  { eapply data_enum; [exact I|reflexivity|reflexivity|cbn; auto]. }
  eapply fields_cons; [reflexivity|reflexivity| |].
  { eapply data_reference; [split; cbn; intuition discriminate|exact kind_definition|].
    eapply data_enum; [exact I|reflexivity|reflexivity|cbn; auto]. }
  eapply fields_cons; [reflexivity|reflexivity| |].
  { eapply data_map; [exact I|reflexivity|reflexivity| |].
    - intros k w [[= <- <-]|[]]. constructor. vm_compute. discriminate.
    - intros k w [[= <- <-]|[]]. eapply data_array; [exact I|reflexivity|reflexivity|].
      intros w [<-|[<-|[]]]; apply data_primitive; constructor.
      + exists 1%Z, 0%Z. split; [reflexivity|]. split; [lia|reflexivity].
      + exists 1%Z, (-1)%Z. split; [reflexivity|]. split; [lia|reflexivity]. }
  eapply fields_cons; [reflexivity|reflexivity| |constructor].
  destruct IV as [-> | D].
  - apply (data_union _ _ _ _ (PStr "null")); [cbn; auto|]. apply data_primitive. constructor.
  - apply (data_union _ _ _ _ (PStr "acme.Order")); [cbn; auto|].
    eapply data_reference; [split; cbn; intuition discriminate|exact order_definition|exact D].
Qed.
(** Lists of orders of every length are data of the schema and values of what is read. *)
Example C116_case : namespaced order /\ tidy "" order /\ plain_references "" order /\ (exists R' t, avro_to order PNone [] = (R', Ok t))
  /\ data "" order "" order (order_value 7 1250 (order_value (-8) (-999999999) DNull)).
Proof.
  split; [unfold order, order_body, order_fields, field, decimal_body, kind_body, tags_body, items_body; namespaced_tac|]. split; [apply order_tidy|]. split; [apply order_plain|].
  split; [eexists _, _; vm_compute; reflexivity|].
  apply order_data; [unfold int_range; lia|lia|]. right. apply order_data; [unfold int_range; lia|lia|]. now left.
Qed.
Example C117_case : well_formed "" order /\ precise "" order.
Proof. split; [apply order_well|apply order_precise]. Qed.

(** *** Data that are lost *)
Definition record_body (fs : list pyval) : attrs := [("type", PStr "record"); ("name", PStr "A"); ("fields", PList fs)].
Definition record (fs : list pyval) : pyval := PDict (record_body fs).
Lemma record_named fs : named_as "" (record_body fs) "_root" (Some ("_root.A", "A")).
Proof. apply (named_simple "" (record_body fs) "A"); reflexivity. Qed.
Lemma record_data fs r : fields "" (record fs) "_root" fs r -> data "" (record fs) "" (record fs) (DRow r).
Proof. intros F. eapply (data_record _ _ "" (record_body fs)); [exact I|reflexivity|apply record_named|reflexivity|exact F]. Qed.
Lemma record_fields fs v : data "" (record fs) "" (record fs) v -> exists r, v = DRow r /\ fields "" (record fs) "_root" fs r.
Proof.
  intros D. unfold record at 2 in D. inversion D; subst; try discriminate.
  - match goal with H : dget "type" _ = _ |- _ => cbn in H; injection H as <- end.
    match goal with H : data _ _ _ (PStr "record") _ |- _ => apply named_data in H; elim H; cbn; tauto end.
  - match goal with H : named_as _ _ _ _ |- _ => destruct (named_fun _ _ _ _ _ _ H (record_named fs)) as [-> _] end.
    match goal with H : dget "fields" _ = _ |- _ => cbn in H; injection H as <- end. eauto.
Qed.
Lemma row_inv env c f n v : holds env (TStruct c [f]) (DRow [(n, v)]) -> holds env f v.
Proof. intros H. inversion H; subst. eapply (H5 0); reflexivity. Qed.

(** A logical type next to the type of a field has no meaning in Avro, but is taken for that of the field. *)
Theorem C116_field_refuted : forall z, int_range 32 true z ->
  let doc := record [PDict [("name", PStr "d"); ("type", PStr "int"); ("logicalType", PStr "date")]] in
  exists R' t, avro_to doc PNone [] = (R', Ok t) /\ data "" doc "" doc (DRow [("d", DInt z)])
    /\ ~ holds (fun a u => dget a R' = Some u) t (DRow [("d", DInt z)]).
Proof.
  intros z IZ doc. eexists _, _. split; [vm_compute; reflexivity|]. split.
  - apply record_data. eapply fields_cons; [reflexivity|reflexivity|apply data_primitive; now constructor|constructor].
  - intros H. apply row_inv in H. inversion H; subst. discriminate.
Qed.
Print Assumptions C116_field_refuted.
(** A logical type that does not fit its type must be ignored, but takes the place of the type. *)
Theorem C116_ignored_refuted : forall s, (Z.of_nat (String.length s) <= longest)%Z ->
  let doc := record [field "d" (PDict [("type", PStr "string"); ("logicalType", PStr "date")])] in
  exists R' t, avro_to doc PNone [] = (R', Ok t) /\ data "" doc "" doc (DRow [("d", DText s)])
    /\ ~ holds (fun a u => dget a R' = Some u) t (DRow [("d", DText s)]).
Proof.
  intros s LE doc. eexists _, _. split; [vm_compute; reflexivity|]. split.
  - apply record_data. eapply fields_cons; [reflexivity|reflexivity| |constructor].
    apply (data_object _ _ _ _ (PStr "string")); [|reflexivity|apply data_primitive; now constructor].
    unfold ignored. cbn [dget]. intros M. inversion M as [| |s' l E II|]; subst. cbn in E. injection E as <-. unfold annotated in II. pairs_tac.
  - intros H. apply row_inv in H. inversion H.
Qed.
Print Assumptions C116_ignored_refuted.
(** A reference to a fixed type with a logical type leads nowhere (C95). *)
Definition price_body : attrs := [("type", PStr "fixed"); ("name", PStr "Price"); ("size", PInt 8);
  ("logicalType", PStr "decimal"); ("precision", PInt 9)].
Theorem C116_reference_refuted : forall u v, (Z.abs u < 10 ^ 9)%Z -> (Z.abs v < 10 ^ 9)%Z ->
  let doc := record [field "price" (PDict price_body); field "tax" (PStr "Price")] in
  exists R' t, avro_to doc PNone [] = (R', Ok t) /\ data "" doc "" doc (DRow [("price", DNumber u 0); ("tax", DNumber v 0)])
    /\ ~ holds (fun a u => dget a R' = Some u) t (DRow [("price", DNumber u 0); ("tax", DNumber v 0)]).
Proof.
  intros u v LU LV doc. eexists _, _. split; [vm_compute; reflexivity|]. split.
  - assert (N : forall w ns, (Z.abs w < 10 ^ 9)%Z -> data "" doc ns (PDict price_body) (DNumber w 0)).
    { intros w ns L. assert (G : digits_of price_body 9 0) by (split; [reflexivity|]; split; [lia|]; split; [lia|]; right; split; reflexivity).
      apply (data_logical _ _ _ _ "decimal"); [reflexivity|apply (meant_fixed _ 9 0 8); auto; vm_compute; discriminate|].
      apply (ld_decimal _ 9 0 8 w); auto; [reflexivity|unfold int_range; lia]. }
    apply record_data. eapply fields_cons; [reflexivity|reflexivity|now apply N|].
    eapply fields_cons; [reflexivity|reflexivity| |constructor].
    apply (data_reference _ _ "_root" "Price" "_root" price_body); [split; cbn; intuition discriminate| |now apply N].
    split; [|split].
    + eapply (part_field _ _ "" (record_body _)); [constructor|reflexivity|apply record_named|reflexivity|left; reflexivity|reflexivity].
    + exists "fixed". split; [reflexivity|]. split; [cbn; tauto|]. exists "size", (PInt 8). split; [cbn; tauto|]. split; [reflexivity|].
      intros _. exists 8%Z. split; [now left|unfold longest; lia].
    + exists "_root", "Price". apply (named_simple "_root" price_body "Price"); reflexivity.
  - intros H. inversion H; subst. specialize (H5 1 _ _ _ eq_refl eq_refl). inversion H5; subst. cbn in *.
    match goal with H : PStr _ = PStr _ |- _ => injection H as <- end. discriminate.
Qed.
Print Assumptions C116_reference_refuted.

(** *** Values that are no data *)
Lemma one_field_inv j n v : ~ data "" (record [field n j]) "_root" j v ->
  ~ data "" (record [field n j]) "" (record [field n j]) (DRow [(n, v)]).
Proof.
  intros N D. apply record_fields in D as (r & [= <-] & F). inversion F; subst.
  repeat match goal with H : dget _ _ = _ |- _ => cbn in H; injection H as <- end. contradiction.
Qed.
Lemma one_field_holds env c f n v : extra "name" f = Some (PStr n) -> holds env f v -> holds env (TStruct c [f]) (DRow [(n, v)]).
Proof.
  intros E H. apply h_struct; [reflexivity| |]; intros [|[|i]] f' n' d; cbn; try discriminate; intros [= <-] [= <- <-]; auto.
Qed.
(** Shorter bytes than those of a fixed type are values of what is read (C36). *)
Theorem C117_fixed_refuted : forall n s, (0 < n <= longest)%Z -> (Z.of_nat (String.length s) < n)%Z ->
  let doc := record [field "x" (PDict [("type", PStr "fixed"); ("name", PStr "F"); ("size", PInt n)])] in
  exists R' t, avro_to doc PNone [] = (R', Ok t) /\ holds (fun a u => dget a R' = Some u) t (DRow [("x", DBytes s)])
    /\ ~ data "" doc "" doc (DRow [("x", DBytes s)]).
Proof.
  intros n s LN LS doc. assert (X : (n <=? 9223372036854775807)%Z = true) by (apply Z.leb_le; unfold longest in LN; lia).
  assert (E : exists R' c f, avro_to doc PNone [] = (R', Ok (TStruct c [TBytes f (PInt n) (PBool true)]))
    /\ dget "name" (c_extra f) = Some (PStr "x") /\ c_logical f = PNone).
  { eexists _, _, _. split; [unfold doc; lazy -[Z.leb]; rewrite X; lazy; reflexivity|]. split; reflexivity. }
  destruct E as (R' & c & f & E & EN & EL). exists R'. eexists. split; [exact E|]. split.
  - apply one_field_holds; [exact EN|]. constructor; [exact EL|]. cbn. lia.
  - apply one_field_inv. intros D. inversion D; subst; try discriminate.
    + match goal with H : dget "type" _ = _ |- _ => cbn in H; injection H as <- end.
      match goal with H : data _ _ _ (PStr "fixed") _ |- _ => apply named_data in H; elim H; cbn; tauto end.
    + match goal with H : dget "size" _ = _ |- _ => cbn in H; injection H as -> end. lia.
Qed.
Print Assumptions C117_fixed_refuted.
(** Every number of milliseconds of 32 bits is a value of what is read from a time of day, and every text of 36
    bytes of what is read from a UUID. *)
Theorem C117_range_refuted :
  (forall z, (- 2 ^ 31 <= z < 0)%Z -> 
   let doc := record [field "x" (PDict [("type", PStr "int"); ("logicalType", PStr "time-millis")])] in
   exists R' t, avro_to doc PNone [] = (R', Ok t) /\ holds (fun a u => dget a R' = Some u) t (DRow [("x", DClock z 3)])
     /\ ~ data "" doc "" doc (DRow [("x", DClock z 3)]))
  /\ (forall s, String.length s = 36 -> String.get 8 s <> Some "-"%char ->
   let doc := record [field "x" (PDict [("type", PStr "string"); ("logicalType", PStr "uuid")])] in
   exists R' t, avro_to doc PNone [] = (R', Ok t) /\ holds (fun a u => dget a R' = Some u) t (DRow [("x", DText s)])
     /\ ~ data "" doc "" doc (DRow [("x", DText s)])).
Proof.
  split.
  - intros z LZ doc. eexists _, _. split; [vm_compute; reflexivity|]. split.
    + apply one_field_holds; [reflexivity|]. apply (h_clock _ _ 32 true "millisecond" 3 z 3 z); try reflexivity; [constructor|unfold int_range; lia].
    + apply one_field_inv. intros D. inversion D as [| |? d j v IG E DJ|? d l v E M LD| | | | | |]; subst; try discriminate.
      * cbn in E. injection E as <-. inversion DJ as [? ? ? PD|? ? ? ? ? [RF _]| | | | | | | |]; subst; [inversion PD|]. elim RF. cbn; tauto.
      * inversion LD; subst. pairs_tac; unfold same_number in *; lia.
  - intros s LS NG doc. eexists _, _. split; [vm_compute; reflexivity|]. split.
    + apply one_field_holds; [reflexivity|]. constructor. cbn. lia.
    + apply one_field_inv. intros D. inversion D as [| |? d j v IG E DJ|? d l v E M LD| | | | | |]; subst; try discriminate.
      * unfold ignored in IG. cbn [dget] in IG. apply IG. apply (meant_other _ "string"); [reflexivity|cbn; tauto].
      * inversion LD as [|? [_ U]| | |]; subst.
        assert (Y : exists c, String.get 8 s = Some c).
        { clear -LS. do 9 (destruct s as [|? s]; [discriminate|]). eexists. reflexivity. }
        destruct Y as [c Y]. specialize (U 8 c Y). cbn in U. congruence.
Qed.
Print Assumptions C117_range_refuted.

(** ** C118: every value of a type is a datum of the Avro schema written for it *)
Theorem C118_values_partial : forall env R t j v, proper t -> fit false t -> avro_from R t = Ok j ->
  holds env t v -> data "" j "" j v.
Proof. exact data_written. Qed.
Print Assumptions C118_values_partial.

Definition plain : common := mkC PNone PNone PNone [].
Definition with_name (n : string) : common := mkC PNone PNone PNone [("name", PStr n)].
Definition payment : rtype :=
  TStruct (with_name "acme.Payment")
    [TInt (with_name "id") (PInt 64) (PBool true);
     TUnion (with_name "total") [TNull plain;
       TBytes (mkC (PStr "build.recap.Decimal") PNone PNone [("precision", PInt 9); ("scale", PInt 2)]) (PInt 16) (PBool false)];
     TUnion (with_name "tags") [TMap plain (TString plain (PInt 100) (PBool true)) (TList plain (TFloat plain (PInt 64)) PNone (PBool true))]].
Definition payment_value : datum :=
  DRow [("id", DInt 7); ("total", DNumber 1995 2); ("tags", DMap [(DText "a", DList [])])].
Ltac proper_tac := repeat (apply proper_intro; cbn [get_c children plain with_name]; [left; reflexivity|exact Logic.I|repeat apply Forall_cons; try apply Forall_nil]).
Example C118_case : proper payment /\ fit false payment /\ holds (fun _ _ => False) payment payment_value
  /\ exists j, avro_from [] payment = Ok j /\ data "" j "" j payment_value.
Proof.
  assert (P : proper payment) by (unfold payment; proper_tac).
  assert (F : fit false payment).
  { apply fit_struct; [reflexivity|eexists; split; [reflexivity|discriminate]|].
    intros f IF. cbn in IF. destruct IF as [<-|[<-|[<-|[]]]]; (split; [|eexists; split; [reflexivity|discriminate]]).
    - constructor; [reflexivity|lia].
    - constructor; [reflexivity|]. intros t [<-|[<-|[]]]; [now constructor|].
      apply (fit_decimal _ _ _ 9 2); try reflexivity; lia.
    - constructor; [reflexivity|]. intros t [<-|[]]. constructor; [reflexivity|unfold longest; lia|]. constructor; [reflexivity|]. now constructor. }
  assert (H : holds (fun _ _ => False) payment payment_value).
  { apply h_struct; [reflexivity| |]; intros [|[|[|i]]] f n d; cbn; try (destruct i; discriminate); intros [= <-] [= <- <-]; try reflexivity.
    - constructor; [reflexivity|unfold int_range; lia].
    - eapply h_union; [right; left; reflexivity|]. apply (h_decimal _ _ 16 (PBool false) 9 2 1995 2 1995); try reflexivity; try lia. unfold int_range. lia.
    - eapply h_union; [left; reflexivity|]. constructor; intros a b [[= <- <-]|[]].
      + constructor. cbn. lia.
      + constructor; [exact Logic.I|intros x []]. }
  split; [exact P|]. split; [exact F|]. split; [exact H|].
  eexists. split; [vm_compute; reflexivity|].
  eapply (C118_values_partial _ [] payment); [exact P|exact F|vm_compute; reflexivity|exact H].
Qed.

(** *** Fields that are not written as Avro fields *)
(** The type of a field that is a list, a map, a struct or an enum is written into the field itself
    ({"name": "xs", "type": "array", "items": ...}), so "array" stands where Avro reads a name.  Nothing is a
    datum of that. *)
Theorem C118_field_refuted : forall R f v, In (f, v)
    [(TList (with_name "x") (TBool plain) PNone (PBool true), DList [DBool true]);
     (TMap (with_name "x") (TString plain (PInt 10) (PBool true)) (TBool plain), DMap [(DText "a", DBool true)]);
     (TStruct (with_name "x") [TBool (with_name "y")], DRow [("y", DBool true)]);
     (TEnum (with_name "x") (PList [PStr "A"]), DText "A")] ->
  let t := TStruct (with_name "Row") [f] in
  proper t /\ holds (fun _ _ => False) t (DRow [("x", v)]) /\
  exists j, avro_from R t = Ok j /\ forall w, ~ data "" j "" j w.
Proof.
  intros R f v IF. cbn in IF. repeat (destruct IF as [IF|IF]); try contradiction; injection IF as <- <-; cbv zeta.
  all: split; [proper_tac|].
  all: split.
  1, 3, 5, 7: apply one_field_holds; [reflexivity|].
  1: constructor; [exact Logic.I|]; intros x [<-|[]]; constructor.
  1: constructor; intros a b [[= <- <-]|[]]; constructor; try reflexivity; cbn; lia.
  1: apply one_field_holds; [reflexivity|constructor].
  1: constructor; cbn; tauto.
  all: eexists; split; [reflexivity|]; intros w D.
  all: inversion D as [| |? d j v' IG E DJ| | | | | |? d ns' nm l r IG E NA FL DF|]; subst; try discriminate.
  all: try (cbn in E; injection E as <-; apply named_data in DJ; elim DJ; cbn; tauto).
  all: cbn in FL; injection FL as <-; inversion DF; subst;
    match goal with Ty : dget "type" _ = Some _ |- _ => cbn in Ty; injection Ty as <- end;
    match goal with DJ : data _ _ _ (PStr _) _ |- _ => apply named_data in DJ; elim DJ; cbn; tauto end.
Qed.
Print Assumptions C118_field_refuted.
(** The logical type of a field that is a timestamp is written into the field as well, where Avro ignores it:
    the data are numbers, not instants. *)
Theorem C118_logical_refuted : forall R z, (- 2 ^ 63 <= z < 2 ^ 63)%Z ->
  let t := TStruct (with_name "Row")
    [TInt (mkC (PStr "build.recap.Timestamp") PNone PNone [("name", PStr "at"); ("unit", PStr "millisecond")]) (PInt 64) (PBool true)] in
  proper t /\ holds (fun _ _ => False) t (DRow [("at", DInstant z 3)]) /\
  exists j, avro_from R t = Ok j /\ ~ data "" j "" j (DRow [("at", DInstant z 3)]) /\ data "" j "" j (DRow [("at", DInt z)]).
Proof.
  intros R z LZ t. split; [unfold t; proper_tac|]. split.
  - apply one_field_holds; [reflexivity|]. apply (h_instant _ _ 64 true "millisecond" 3 z 3 z); try reflexivity; [constructor|unfold int_range; lia].
  - eexists. split; [reflexivity|]. split.
    + intros D. inversion D as [| |? d j v' IG E DJ|? d l v' E M LD| | | | |? d ns' nm l r IG E NA FL DF|]; subst; try discriminate.
      * cbn in E. injection E as <-. apply named_data in DJ. elim DJ. cbn; tauto.
      * cbn in FL. injection FL as <-. inversion DF; subst.
        match goal with Ty : dget "type" _ = Some _ |- _ => cbn in Ty; injection Ty as <- end.
        match goal with DJ : data _ _ _ (PStr _) _ |- _ => inversion DJ as [? ? ? PD|? ? ? ? ? [RF _]| | | | | | | |]; subst; [inversion PD|]; elim RF; cbn; tauto end.
    + eapply data_record; [exact Logic.I|reflexivity|apply (named_simple _ _ "Row"); reflexivity|reflexivity|].
      eapply fields_cons; [reflexivity|reflexivity| |constructor]. constructor. constructor. unfold int_range. lia.
Qed.
Print Assumptions C118_logical_refuted.
