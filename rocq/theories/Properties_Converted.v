(** C124: schemas that are read in one format and printed in another. *)
From Coq Require Import String Ascii List NArith ZArith QArith Bool Lia.
From Verif Require Import PyVal PyValFacts RType Registry FromDict ToDict Url SpecTypes SpecJson SpecInstances SpecJsonSchema JsonMeans JsonSchema SpecAvro SpecAvroSchema
  SpecDb SpecRows SpecAvroData Avro AvroSchema AvroData Proto SpecProto ProtoWrite Commands SpecConverted SpecDeepAvro SpecFlatProto Converted ConvertedAvro ConvertedDeep ConvertedProto
  Properties_Instances Properties_AvroData.
Import ListNotations.
Open Scope nat_scope.
Open Scope string_scope.
Open Scope list_scope.

(** ** JSON schemas *)
(** A JSON schema without references can be printed as a JSON schema. *)
Theorem C124_json_partial : forall strategy j J' t, required_lists j -> js_to strategy j [] = (J', Ok t) -> self_contained j ->
  exists v, schema_output FJson t = Ok (ODocument v).
Proof. exact json_contained. Qed.
Print Assumptions C124_json_partial.
(** One that describes a text anywhere can be printed neither as an Avro schema nor as a proto file. *)
Theorem C124_json_text_refuted : forall strategy j J' t, required_lists j -> js_to strategy j [] = (J', Ok t) -> json_text j ->
  forall o, schema_output FAvro t <> Ok o /\ schema_output FProtobuf t <> Ok o.
Proof. exact json_texts. Qed.
Print Assumptions C124_json_text_refuted.
(** The Avro record that is printed for a JSON schema has no name, which Avro demands. *)
Theorem C124_json_name_refuted : forall strategy j J' t v, required_lists j -> js_to strategy j [] = (J', Ok t) ->
  schema_output FAvro t = Ok (ODocument v) -> exists o, v = PDict o /\ dget "name" o = None.
Proof. exact json_names. Qed.
Print Assumptions C124_json_name_refuted.

(** ** Avro schemas *)
(** A record of primitive types and unions of them can be printed as an Avro schema, which has all its data,
    and as a JSON schema. *)
Theorem C124_avro_partial : forall j start ns R R' t, namespaced j ->
  start = PStr ns \/ (start = PNone /\ ns = "" /\ exists d nm, j = PDict d /\ dget "name" d = Some (PStr nm)) ->
  avro_to j start R = (R', Ok t) -> flat_record j ->
  (exists v, schema_output FAvro t = Ok (ODocument v) /\ forall x, data ns j ns j x -> data "" v "" v x)
  /\ exists v, schema_output FJson t = Ok (ODocument v).
Proof.
  intros j start ns R R' t N S H F. split; [eapply avro_flat; eauto|]. destruct (to_reads _ _ _ _ _ _ N S H) as [RD _]. eapply flat_json; eauto.
Qed.
Print Assumptions C124_avro_partial.
(** So can a record whose fields are unions of dates, timestamps, decimals, enums, arrays, maps and such records, of any depth. *)
Theorem C124_avro_deep_partial : forall j start ns R R' t, namespaced j ->
  start = PStr ns \/ (start = PNone /\ ns = "" /\ exists d nm, j = PDict d /\ dget "name" d = Some (PStr nm)) ->
  avro_to j start R = (R', Ok t) -> deep_record j ->
  (exists v, schema_output FAvro t = Ok (ODocument v) /\ forall x, data ns j ns j x -> data "" v "" v x)
  /\ exists v, schema_output FJson t = Ok (ODocument v).
Proof. exact avro_deep. Qed.
Print Assumptions C124_avro_deep_partial.
(** One that describes a text or bytes without a logical type anywhere cannot be printed as a proto file. *)
Theorem C124_avro_text_refuted : forall j start ns R R' t, namespaced j ->
  start = PStr ns \/ (start = PNone /\ ns = "" /\ exists d nm, j = PDict d /\ dget "name" d = Some (PStr nm)) ->
  avro_to j start R = (R', Ok t) -> avro_text j -> forall o, schema_output FProtobuf t <> Ok o.
Proof. exact avro_texts. Qed.
Print Assumptions C124_avro_text_refuted.
(** A record with a list, a map, a record or an enum as the type of a field is printed as a schema without data. *)
Theorem C124_avro_direct_refuted : forall j start ns R R' t v, namespaced j ->
  start = PStr ns \/ (start = PNone /\ ns = "" /\ exists d nm, j = PDict d /\ dget "name" d = Some (PStr nm)) ->
  avro_to j start R = (R', Ok t) -> direct_field j -> schema_output FAvro t = Ok (ODocument v) -> forall w, ~ data "" v "" v w.
Proof. exact avro_direct. Qed.
Print Assumptions C124_avro_direct_refuted.
(** Such records with data. *)
Theorem C124_avro_fields_refuted : forall e v, In (e, v)
    [([("type", PStr "array"); ("items", PStr "boolean")], DList [DBool true]);
     ([("type", PStr "map"); ("values", PStr "boolean")], DMap [(DText "k", DBool true)]);
     ([("type", PStr "record"); ("name", PStr "B"); ("fields", PList [field "y" (PStr "boolean")])], DRow [("y", DBool true)]);
     ([("type", PStr "enum"); ("name", PStr "B"); ("symbols", PList [PStr "A"])], DText "A")] ->
  let doc := record [field "x" (PDict e)] in
  data "" doc "" doc (DRow [("x", v)]) /\
  exists R' t j, avro_to doc PNone [] = (R', Ok t) /\ schema_output FAvro t = Ok (ODocument j) /\ forall w, ~ data "" j "" j w.
Proof.
  intros e v IE doc. cbn in IE. repeat (destruct IE as [IE|IE]); try contradiction; injection IE as <- <-; unfold doc; clear doc.
  all: split; [apply record_data; eapply fields_cons; [reflexivity|reflexivity| |constructor]|].
  1: { eapply data_array; [exact Logic.I|reflexivity|reflexivity|]. intros x [<-|[]]. apply data_primitive. constructor. }
  2: { eapply data_map; [exact Logic.I|reflexivity|reflexivity| |]; intros k x [[= <- <-]|[]]; [|apply data_primitive]; constructor. cbn. unfold longest. lia. }
  3: { eapply (data_record _ _ _ _ "_root" ("_root.B", "B")); [exact Logic.I|reflexivity|match goal with |- named_as _ ?d _ _ => exact (named_simple "_root" d "B" eq_refl eq_refl) end|reflexivity|].
       eapply fields_cons; [reflexivity|reflexivity| |constructor]. apply data_primitive. constructor. }
  4: { eapply data_enum; [exact Logic.I|reflexivity|reflexivity|now left]. }
  all: eexists _, _, _; split; [vm_compute; reflexivity|]; split; [vm_compute; reflexivity|]; intros w D.
  all: inversion D as [| |? d j v' IG E DJ| | | | | |? d ns' nm l r IG E NA FL DF|]; subst; try discriminate.
  all: try (cbn in E; injection E as <-; apply named_data in DJ; elim DJ; cbn; tauto).
  all: cbn in FL; injection FL as <-; inversion DF; subst;
    match goal with Ty : dget "type" _ = Some _ |- _ => cbn in Ty; injection Ty as <- end;
    match goal with DJ : data _ _ _ (PStr _) _ |- _ => apply named_data in DJ; elim DJ; cbn; tauto end.
Qed.
Print Assumptions C124_avro_fields_refuted.

(** ** Proto files *)
(** A proto file whose first message refers to no other message and to no enum can be printed as a JSON schema. *)
Theorem C124_proto_json_partial : forall l p s t, first_package l = Some p -> snd (pr_to l s) = Ok t -> flat_file l ->
  exists v, schema_output FJson t = Ok (ODocument v).
Proof. exact proto_json. Qed.
Print Assumptions C124_proto_json_partial.
(** The Avro record that is printed for a proto file has no name either. *)
Theorem C124_proto_name_refuted : forall l p s t v, first_package l = Some p -> snd (pr_to l s) = Ok t ->
  schema_output FAvro t = Ok (ODocument v) -> exists o, v = PDict o /\ dget "name" o = None.
Proof. exact proto_names. Qed.
Print Assumptions C124_proto_name_refuted.

(** ** Cases *)
Definition account_schema : pyval :=
  PDict [("type", PStr "object"); ("required", PList [PStr "id"]);
         ("properties", PDict
            [("id", PDict [("type", PStr "integer")]);
             ("mail", PDict [("type", PStr "string"); ("description", PStr "address")]);
             ("scores", PDict [("type", PStr "array"); ("items", PDict [("type", PList [PStr "number"; PStr "null"])])])])].
Example C124_json_case : required_lists account_schema /\ self_contained account_schema /\ json_text account_schema /\
  match js_to strategy account_schema [] with
  | (_, Ok t) => schema_output FJson t = Ok (ODocument (PDict
      [("type", PStr "object");
       ("properties", PDict
          [("id", PDict [("type", PStr "integer")]);
           ("mail", PDict [("default", PNone); ("description", PStr "address"); ("type", PStr "string")]);
           ("scores", PDict [("default", PNone); ("type", PStr "array");
              ("items", PDict [("oneOf", PList [PDict [("type", PStr "number")]; PDict [("type", PStr "null")]])])])]);
       ("required", PList [PStr "id"])])) /\ schema_output FAvro t = Err ValueError
  | _ => False
  end.
Proof.
  split; [|split; [|split]].
  - assert (E : each (fun d => forall v, dget "required" d = Some v -> exists l, v = PList l) account_schema).
    { unfold account_schema. each_tac ltac:(intros v; cbn [dget String.eqb Ascii.eqb Bool.eqb]; try discriminate; intros [= <-]; eauto). }
    intros d v I. exact (E d I v).
  - assert (E : each (fun d => dget "$ref" d = None /\ dget "$dynamicRef" d = None
      /\ (forall l x, dget "type" d = Some (PList l) -> In x l -> exists s, x = PStr s)
      /\ (forall ps, dget "properties" d = Some (PDict ps) -> ~ In "" (dkeys ps))) account_schema).
    { unfold account_schema. each_tac ltac:(cbn [dget String.eqb Ascii.eqb Bool.eqb]; repeat split; try discriminate;
        try (intros l x [= <-] IX; cbn in IX; intuition eauto; fail); try (intros ps [= <-] X; cbn in X; intuition discriminate)). }
    intros d I. exact (E d I).
  - eapply (jt_property _ _ "mail"); [reflexivity|reflexivity|cbn; tauto|apply jt_type; reflexivity].
  - vm_compute. auto.
Qed.
(** The schema of a struct without texts, for [C124_json_name_refuted]. *)
Example C124_json_name_case :
  match js_to strategy (PDict [("type", PStr "object"); ("properties", PDict [("id", PDict [("type", PStr "integer")])]); ("required", PList [PStr "id"])]) [] with
  | (_, Ok t) => schema_output FAvro t = Ok (ODocument (PDict
      [("type", PStr "record"); ("fields", PList [PDict [("name", PStr "id"); ("type", PStr "int")]])]))
  | _ => False
  end.
Proof. vm_compute. reflexivity. Qed.

Definition reading : pyval :=
  PDict [("type", PStr "record"); ("name", PStr "acme.Reading"); ("doc", PStr "one value"); ("fields", PList
    [PDict [("name", PStr "at"); ("type", PStr "long")];
     PDict [("name", PStr "value"); ("type", PList [PStr "null"; PStr "double"; PStr "string"]); ("default", PNone)]])].
Example C124_avro_case : namespaced reading /\ flat_record reading /\ avro_text reading
  /\ data "" reading "" reading (DRow [("at", DInt 5); ("value", DText "n/a")]) /\
  match avro_to reading PNone [] with
  | (_, Ok t) => schema_output FAvro t = Ok (ODocument (PDict
      [("doc", PStr "one value"); ("name", PStr "Reading"); ("aliases", PList [PStr "acme.Reading"]); ("type", PStr "record");
       ("fields", PList
         [PDict [("name", PStr "at"); ("aliases", PList [PStr "acme.at"]); ("type", PStr "long")];
          PDict [("name", PStr "value"); ("default", PNone); ("aliases", PList [PStr "acme.value"]);
                 ("type", PList [PStr "null"; PStr "double"; PStr "string"])]])]))
  | _ => False
  end.
Proof.
  split; [unfold reading; namespaced_tac|]. split; [|split; [|split]].
  - eexists _, _, "Reading", _. split; [reflexivity|]. split; [reflexivity|]. split; [reflexivity|]. split; [reflexivity|].
    split; [right; exists "acme"; reflexivity|]. split; [reflexivity|]. split; [discriminate|]. split; [reflexivity|].
    repeat constructor.
    + eexists _, "at", _. repeat split; try discriminate. left. exists "long". split; [reflexivity|cbn; tauto].
    + eexists _, "value", _. repeat split; try discriminate. right. exists ["null"; "double"; "string"]. split; [reflexivity|].
      intros s [<-|[<-|[<-|[]]]]; cbn; tauto.
  - eapply at_field; [reflexivity|reflexivity|reflexivity|right; left; reflexivity|].
    eapply at_branch; [reflexivity|reflexivity|right; right; left; reflexivity|]. apply at_name. auto.
  - eapply (data_record _ _ "" _ "acme" ("acme.Reading", "Reading")); [exact Logic.I|reflexivity| |reflexivity|].
    + match goal with |- named_as _ ?d _ _ => exact (named_full "" d "acme" "Reading" eq_refl eq_refl) end.
    + eapply fields_cons; [reflexivity|reflexivity|apply data_primitive; constructor; unfold int_range; lia|].
      eapply fields_cons; [reflexivity|reflexivity| |constructor]. apply (data_union _ _ _ _ (PStr "string")); [cbn; tauto|]. apply data_primitive. constructor. cbn. unfold longest. lia.
  - vm_compute. reflexivity.
Qed.
Definition visits : pyval :=
  PDict [("type", PStr "record"); ("name", PStr "Visits"); ("fields", PList
    [PDict [("name", PStr "days"); ("type", PList [PStr "null"; PDict [("type", PStr "array"); ("items",
       PDict [("type", PStr "map"); ("values", PDict [("type", PStr "int"); ("logicalType", PStr "date")])])]])];
     PDict [("name", PStr "paid"); ("type", PList [PStr "null"; PDict [("type", PStr "bytes"); ("logicalType", PStr "decimal"); ("precision", PInt 9)]])];
     PDict [("name", PStr "guest"); ("type", PList [PStr "null"; PDict [("type", PStr "record"); ("name", PStr "acme.Guest"); ("fields", PList
       [PDict [("name", PStr "age"); ("type", PStr "int")];
        PDict [("name", PStr "class"); ("type", PList [PDict [("type", PStr "enum"); ("name", PStr "Class"); ("symbols", PList [PStr "A"; PStr "B"])]])]])]])]])].
Example C124_avro_deep_case : namespaced visits /\ deep_record visits /\
  data "" visits "" visits (DRow [("days", DList [DMap [(DText "kim", DDay 19000)]]); ("paid", DNull);
    ("guest", DRow [("age", DInt 30); ("class", DText "B")])]) /\
  match avro_to visits PNone [] with
  | (_, Ok t) => schema_output FAvro t = Ok (ODocument (PDict
      [("name", PStr "Visits"); ("aliases", PList [PStr "_root.Visits"]); ("type", PStr "record"); ("fields", PList
         [PDict [("name", PStr "days"); ("aliases", PList [PStr "_root.days"]); ("type", PList [PStr "null"; PDict [("type", PStr "array");
            ("items", PDict [("type", PStr "map"); ("values", PDict [("type", PStr "int"); ("logicalType", PStr "date")])])]])];
          PDict [("name", PStr "paid"); ("aliases", PList [PStr "_root.paid"]); ("type", PList [PStr "null";
            PDict [("type", PStr "bytes"); ("logicalType", PStr "decimal"); ("precision", PInt 9); ("scale", PInt 0)]])];
          PDict [("name", PStr "guest"); ("aliases", PList [PStr "_root.guest"]); ("type", PList [PStr "null";
            PDict [("name", PStr "Guest"); ("aliases", PList [PStr "acme.Guest"]); ("type", PStr "record"); ("fields", PList
              [PDict [("name", PStr "age"); ("aliases", PList [PStr "acme.age"]); ("type", PStr "int")];
               PDict [("name", PStr "class"); ("aliases", PList [PStr "acme.class"]); ("type", PList
                 [PDict [("name", PStr "Class"); ("aliases", PList [PStr "acme.Class"]); ("type", PStr "enum"); ("symbols", PList [PStr "A"; PStr "B"])]])]])]])]])]))
  | _ => False
  end.
Proof.
  assert (H : forall o n, dget "name" o = Some (PStr n) -> n <> "" -> no_dot n -> dget "namespace" o = None -> dget "logicalType" o = None -> field_head o).
  { intros o n. exists n. auto. }
  split; [unfold visits; namespaced_tac|]. split; [|split].
  - split; [|eexists; split; reflexivity]. eapply deep_inner; [reflexivity|reflexivity| |reflexivity|].
    { exists "Visits", "Visits". split; [reflexivity|]. split; [now left|]. split; [reflexivity|discriminate]. }
    eapply df_union; [eapply H; [reflexivity|discriminate|reflexivity|reflexivity|reflexivity]|reflexivity| |].
    { apply dl_cons; [apply deep_prim; cbn; tauto|]. apply dl_cons; [|constructor].
      eapply deep_array; [now split|reflexivity|reflexivity|reflexivity|]. eapply deep_map; [now split|reflexivity|reflexivity|reflexivity|].
      apply (deep_stamp _ "int" "date"); [now split|cbn; tauto|reflexivity|reflexivity|reflexivity]. }
    eapply df_union; [eapply H; [reflexivity|discriminate|reflexivity|reflexivity|reflexivity]|reflexivity| |].
    { apply dl_cons; [apply deep_prim; cbn; tauto|]. apply dl_cons; [|constructor].
      apply (deep_decimal _ 9%Z 0%Z); [now split|reflexivity|reflexivity|reflexivity|]. split; [reflexivity|]. split; [lia|]. split; [lia|]. right. now split. }
    eapply df_union; [eapply H; [reflexivity|discriminate|reflexivity|reflexivity|reflexivity]|reflexivity| |constructor].
    apply dl_cons; [apply deep_prim; cbn; tauto|]. apply dl_cons; [|constructor].
    eapply deep_inner; [reflexivity|reflexivity| |reflexivity|].
    { exists "acme.Guest", "Guest". split; [reflexivity|]. split; [right; now exists "acme"|]. split; [reflexivity|discriminate]. }
    eapply df_prim; [eapply H; [reflexivity|discriminate|reflexivity|reflexivity|reflexivity]|reflexivity|cbn; tauto|].
    eapply df_union; [eapply H; [reflexivity|discriminate|reflexivity|reflexivity|reflexivity]|reflexivity| |constructor].
    apply dl_cons; [|constructor]. eapply deep_enum; reflexivity.
  - eapply (data_record _ _ "" _ "_root" ("_root.Visits", "Visits")); [exact Logic.I|reflexivity| |reflexivity|].
    { match goal with |- named_as _ ?d _ _ => exact (named_simple "" d "Visits" eq_refl eq_refl) end. }
    eapply fields_cons; [reflexivity|reflexivity| |].
    { eapply data_union; [right; left; reflexivity|]. eapply data_array; [exact Logic.I|reflexivity|reflexivity|]. intros w [<-|[]].
      eapply data_map; [exact Logic.I|reflexivity|reflexivity| |]; intros k x [[= <- <-]|[]]; [constructor; cbn; unfold longest; lia|].
      eapply data_logical; [reflexivity|eapply meant_other; [reflexivity|cbn; tauto]|]. apply ld_date. unfold int_range. lia. }
    eapply fields_cons; [reflexivity|reflexivity|eapply data_union; [left; reflexivity|]; apply data_primitive; constructor|].
    eapply fields_cons; [reflexivity|reflexivity| |constructor]. eapply data_union; [right; left; reflexivity|].
    eapply (data_record _ _ _ _ "acme" ("acme.Guest", "Guest")); [exact Logic.I|reflexivity| |reflexivity|].
    { match goal with |- named_as ?ns ?d _ _ => exact (named_full ns d "acme" "Guest" eq_refl eq_refl) end. }
    eapply fields_cons; [reflexivity|reflexivity|apply data_primitive; constructor; unfold int_range; lia|].
    eapply fields_cons; [reflexivity|reflexivity| |constructor]. eapply data_union; [left; reflexivity|].
    eapply data_enum; [exact Logic.I|reflexivity|reflexivity|cbn; tauto].
  - vm_compute. reflexivity.
Qed.
Definition logins : pyval :=
  PDict [("type", PStr "record"); ("name", PStr "Logins"); ("fields", PList
    [PDict [("name", PStr "id"); ("type", PStr "long")];
     PDict [("name", PStr "hosts"); ("type", PDict [("type", PStr "array"); ("items", PStr "boolean")])]])].
Example C124_avro_direct_case : namespaced logins /\ direct_field logins /\
  data "" logins "" logins (DRow [("id", DInt 7); ("hosts", DList [DBool true])]) /\
  match avro_to logins PNone [] with
  | (_, Ok t) => schema_output FAvro t = Ok (ODocument (PDict
      [("name", PStr "Logins"); ("aliases", PList [PStr "_root.Logins"]); ("type", PStr "record"); ("fields", PList
         [PDict [("name", PStr "id"); ("aliases", PList [PStr "_root.id"]); ("type", PStr "long")];
          PDict [("name", PStr "hosts"); ("type", PStr "array"); ("items", PStr "boolean")]])]))
  | _ => False
  end.
Proof.
  split; [unfold logins; namespaced_tac|]. split; [|split].
  - eexists _, _, _, _, "array", "items", _. split; [reflexivity|]. split; [reflexivity|]. split; [reflexivity|]. split; [reflexivity|].
    split; [right; left; reflexivity|]. repeat (split; [reflexivity|]). cbn. tauto.
  - eapply (data_record _ _ "" _ "_root" ("_root.Logins", "Logins")); [exact Logic.I|reflexivity| |reflexivity|].
    { match goal with |- named_as _ ?d _ _ => exact (named_simple "" d "Logins" eq_refl eq_refl) end. }
    eapply fields_cons; [reflexivity|reflexivity|apply data_primitive; constructor; unfold int_range; lia|].
    eapply fields_cons; [reflexivity|reflexivity| |constructor].
    eapply data_array; [exact Logic.I|reflexivity|reflexivity|]. intros x [<-|[]]. apply data_primitive. constructor.
  - vm_compute. reflexivity.
Qed.
Example C124_proto_case :
  match snd (pr_to [FPackage "acme"; FElement (EMessage "Point" [EField (PStr "x") 1 "double" None; EField (PStr "y") 2 "double" None])] (converter "_root")) with
  | Ok t => exists o, schema_output FAvro t = Ok (ODocument (PDict o)) /\ dget "type" o = Some (PStr "record") /\ dget "name" o = None
  | _ => False
  end.
Proof. vm_compute. eexists. repeat split. Qed.
Definition sensor : list felement :=
  [FPackage "acme"; FElement (EMessage "Sensor"
    [EField (PStr "id") 1 "int64" (Some Required); EField (PStr "tags") 2 "string" (Some Repeated); EMapField (PStr "at") 3 "string" "double";
     EMessage "Unused" []; EOneOf (PStr "value") [EField (PStr "text") 4 "string" None; EField (PStr "bits") 5 "bytes" None]])].
Example C124_proto_json_case : flat_file sensor /\
  match snd (pr_to sensor (converter "_root")) with
  | Ok t => schema_output FJson t = Ok (ODocument (PDict
      [("$ref", PStr "#/$defs/acme.Sensor"); ("$defs", PDict [("acme.Sensor", PDict
         [("type", PStr "object"); ("properties", PDict
            [("id", PDict [("type", PStr "integer")]);
             ("tags", PDict [("default", PNone); ("type", PStr "array"); ("items", PDict [("type", PStr "string")])]);
             ("at", PDict [("default", PNone); ("type", PStr "object"); ("additionalProperties", PDict [("type", PStr "number")])]);
             ("value", PDict [("default", PNone); ("oneOf", PList
                [PDict [("type", PStr "null")]; PDict [("type", PStr "string")]; PDict [("type", PStr "string"); ("format", PStr "byte")]])])]);
          ("required", PList [PStr "id"; PStr "value"])])])]))
  | _ => False
  end.
Proof.
  split.
  - eexists "Sensor", _. split; [reflexivity|]. constructor; [apply fe_field; [discriminate|cbn; tauto]|]. constructor; [apply fe_field; [discriminate|cbn; tauto]|].
    constructor; [apply fe_map; [discriminate|cbn; tauto|cbn; tauto]|]. constructor; [apply fe_message|]. constructor; [|constructor].
    apply fe_oneof; [discriminate|]. constructor; [apply fm_field; [cbn; tauto|discriminate]|]. constructor; [apply fm_field; [cbn; tauto|discriminate]|constructor].
  - vm_compute. reflexivity.
Qed.
