(** C130: the objects that the JSON schemas of BigQuery and Hive tables accept. *)
From Coq Require Import String Ascii List NArith ZArith QArith Bool Lia.
From Verif Require Import PyVal RType SpecTypes SpecDb SpecInstances SpecPrinted SpecRows SpecTableJson SpecNested SpecNestedJson BigQuery Hive Commands NestedJson NestedRows.
Import ListNotations.
Open Scope nat_scope.
Open Scope string_scope.
Open Scope list_scope.

(** The schema of a BigQuery table accepts the objects that have a member for each field that is not nullable and whose
    members have the types of the fields, at every depth, and nothing else. *)
Theorem C130_bigquery_partial : forall fs t d v, bq_apart fs -> bq_to_recap fs = Ok t ->
  schema_output FJson t = Ok (ODocument (PDict d)) ->
  (accepts (PDict d) (PDict d) v <-> exists o, v = PDict o /\ bq_object fs o).
Proof. exact bq_accepts. Qed.
Print Assumptions C130_bigquery_partial.
(** The same for a Hive table whose unions have scalar members; only what is always NULL or has a choice of types has to
    be present. *)
Theorem C130_hive_partial : forall name cols t d v, hive_columns_apart cols -> hive_to_recap name cols = Ok t ->
  schema_output FJson t = Ok (ODocument (PDict d)) ->
  (accepts (PDict d) (PDict d) v <-> exists o, v = PDict o /\ hive_object (hive_shape cols) o).
Proof. exact hive_accepts. Qed.
Print Assumptions C130_hive_partial.
(** A NULL that is written as null is rejected: in a nullable column of either database, and as an element of an array of Hive. *)
Theorem C130_null_refuted :
  (forall fs t d g n o, bq_apart fs -> bq_to_recap fs = Ok t -> schema_output FJson t = Ok (ODocument (PDict d)) ->
     In g fs -> bq_name g = PStr n -> dget n o = Some PNone -> ~ accepts (PDict d) (PDict d) (PDict o)) /\
  (forall name cols t d c o, hive_columns_apart cols -> hive_to_recap name cols = Ok t -> schema_output FJson t = Ok (ODocument (PDict d)) ->
     In c cols -> hc_type c <> HPrim HVoid -> ~ hive_choice (hc_type c) -> dget (hc_name c) o = Some PNone -> ~ accepts (PDict d) (PDict d) (PDict o)) /\
  (forall name cols t d c h o l, hive_columns_apart cols -> hive_to_recap name cols = Ok t -> schema_output FJson t = Ok (ODocument (PDict d)) ->
     In c cols -> hc_type c = HList h -> h <> HPrim HVoid -> ~ hive_choice h -> dget (hc_name c) o = Some (PList l) -> In PNone l ->
     ~ accepts (PDict d) (PDict d) (PDict o)).
Proof. exact nulls_rejected. Qed.
Print Assumptions C130_null_refuted.

(** A value that has two types of a union of Hive is rejected, and so is an object without a value for a union. *)
Theorem C130_unions_refuted : forall name cols t d c hs a b o, hive_columns_apart cols -> hive_to_recap name cols = Ok t ->
  schema_output FJson t = Ok (ODocument (PDict d)) -> In c cols -> hc_type c = HUnion hs -> In a hs -> In b hs -> a <> b ->
  (dget (hc_name c) o = None -> ~ accepts (PDict d) (PDict d) (PDict o)) /\
  (forall x ta tb, dget (hc_name c) o = Some x -> hive_json_type a ta -> hive_json_type b tb -> has_type x ta -> has_type x tb ->
     ~ accepts (PDict d) (PDict d) (PDict o)).
Proof. exact unions_rejected. Qed.
Print Assumptions C130_unions_refuted.

(** Rows are accepted as objects without their NULLs: every row of BigQuery, and every row of Hive that has no NULL
    in arrays and maps and no column that is always NULL. *)
Theorem C130_rows_partial :
  (forall fs t d row o, all_fields big_legal fs -> bq_apart (map big_reports fs) -> bq_to_recap (map big_reports fs) = Ok t ->
     schema_output FJson t = Ok (ODocument (PDict d)) -> big_row big_leaf fs row -> nested_object row o ->
     accepts (PDict d) (PDict d) (PDict o)) /\
  (forall name cols t d row o, hive_columns_apart cols -> Forall (fun c => hive_solid (hc_type c)) cols -> hive_to_recap name cols = Ok t ->
     schema_output FJson t = Ok (ODocument (PDict d)) -> hive_row hive_stored cols row -> inner_full (DRow row) -> nested_object row o ->
     accepts (PDict d) (PDict d) (PDict o)).
Proof. exact (conj big_rows_accepted hive_rows_accepted). Qed.
Print Assumptions C130_rows_partial.

(** A table of orders: a key, the items with a name and prices, and a note. *)
Definition leaf (ty mode n : string) : bq_field := BqField ty mode (PStr n) PNone PNone PNone PNone PNone [].
Definition orders : list bq_field :=
  [leaf "INT64" "REQUIRED" "id";
   BqField "RECORD" "REPEATED" (PStr "items") PNone PNone PNone PNone PNone [leaf "STRING" "REQUIRED" "name"; leaf "FLOAT64" "REPEATED" "prices"];
   leaf "STRING" "NULLABLE" "note"].
Definition an_order (note : list (string * pyval)) (price : pyval) : list (string * pyval) :=
  [("id", PInt 7); ("items", PList [PDict [("name", PStr "pen"); ("prices", PList [price; PFloat 2.5%Q])]])] ++ note.
Example C130_orders : exists t d, bq_to_recap orders = Ok t /\ schema_output FJson t = Ok (ODocument (PDict d)) /\
  accepts (PDict d) (PDict d) (PDict (an_order [] (PInt 3))) /\
  ~ accepts (PDict d) (PDict d) (PDict (an_order [] (PStr "3"))) /\
  ~ accepts (PDict d) (PDict d) (PDict (an_order [("note", PNone)] (PInt 3))).
Proof.
  assert (C0 : forall ty m n, n <> "" -> bq_called (leaf ty m n) n) by (intros; constructor; auto; intros g []).
  assert (A0 : bq_apart []) by (apply bqa_intro with []; [constructor|constructor|intros g []]).
  assert (CI : Forall2 bq_called [leaf "STRING" "REQUIRED" "name"; leaf "FLOAT64" "REPEATED" "prices"] ["name"; "prices"]) by (repeat constructor; discriminate || intros g []).
  assert (AP : bq_apart orders).
  { apply bqa_intro with ["id"; "items"; "note"].
    - constructor; [apply C0; discriminate|]. constructor; [|constructor; [apply C0; discriminate|constructor]].
      constructor; [reflexivity|discriminate|]. intros g [<-|[<-|[]]]; eexists; apply C0; discriminate.
    - repeat constructor; cbn; intuition discriminate.
    - intros g [<-|[<-|[<-|[]]]]; auto. apply bqa_intro with ["name"; "prices"]; auto; [repeat constructor; cbn; intuition discriminate|].
      intros g [<-|[<-|[]]]; auto. }
  eexists _, _. split; [vm_compute; reflexivity|]. split; [vm_compute; reflexivity|].
  split; [|split].
  - eapply C130_bigquery_partial; [exact AP|vm_compute; reflexivity|vm_compute; reflexivity|]. eexists. split; [reflexivity|]. constructor.
    + intros g n [<-|[<-|[<-|[]]]] [= <-] M; cbn; discriminate || (destruct M; reflexivity).
    + intros g n x [<-|[<-|[<-|[]]]] [= <-] G; cbn in G; try discriminate G; injection G as <-.
      * apply bqm_single; [discriminate|]. apply bqv_scalar with "integer"; [apply bj_whole; cbn; tauto|]. apply ty_integer with 7%Z. now constructor.
      * apply bqm_repeated; [reflexivity|]. intros x [<-|[]]. apply bqv_record; [cbn; auto|]. constructor.
        -- intros g n [<-|[<-|[]]] [= <-] M; cbn; discriminate.
        -- intros g n x [<-|[<-|[]]] [= <-] G; cbn in G; injection G as <-.
           ++ apply bqm_single; [discriminate|]. apply bqv_scalar with "string"; [apply bj_text; cbn; tauto|]. eapply ty_string; reflexivity.
           ++ apply bqm_repeated; [reflexivity|]. intros x [<-|[<-|[]]]; (apply bqv_scalar with "number"; [apply bj_number; cbn; tauto|]);
                [apply ty_number with (inject_Z 3)|apply ty_number with 2.5%Q]; now constructor.
  - intros A. eapply C130_bigquery_partial in A; [|exact AP|vm_compute; reflexivity|vm_compute; reflexivity]. destruct A as (o & [= <-] & O).
    inversion O as [? ? _ P]; subst. specialize (P _ "items" _ (or_intror (or_introl eq_refl)) eq_refl eq_refl).
    inversion P as [? ? _ AL|? ? M _]; subst; [|destruct M; reflexivity]. specialize (AL _ (or_introl eq_refl)).
    inversion AL as [? ? ? J _|? ? _ O']; subst; [inversion J; cbn in *; intuition discriminate|]. inversion O' as [? ? _ P']; subst.
    specialize (P' _ "prices" _ (or_intror (or_introl eq_refl)) eq_refl eq_refl).
    inversion P' as [? ? _ AL'|? ? M _]; subst; [|destruct M; reflexivity]. specialize (AL' _ (or_introl eq_refl)).
    inversion AL' as [? ? ? J T|? ? I _]; subst.
    inversion J; subst; cbn in *; try (intuition discriminate). inversion T as [| |q N| | | |]; subst. inversion N.
  - eapply (proj1 C130_null_refuted); [exact AP|vm_compute; reflexivity|vm_compute; reflexivity|right; right; left; reflexivity|reflexivity|reflexivity].
Qed.

(** A Hive table with a map of arrays: a row without NULL in the array is accepted, one with NULL is not. *)
Definition visits : list hcolumn := [mkHCol "who" (HVarchar 10) None; mkHCol "pages" (HMap (HPrim HString) (HList (HPrim HInt))) None].
Definition a_visit (d : datum) : list (string * datum) := [("who", DNull); ("pages", DMap [(DText "home", DList [DInt 4; d])])].
Definition visit_json (x : pyval) : list (string * pyval) := [("pages", PDict [("home", PList [PInt 4; x])])].
Example C130_visits : exists t d, hive_to_recap "visits" visits = Ok t /\ schema_output FJson t = Ok (ODocument (PDict d)) /\
  hive_row hive_stored visits (a_visit (DInt 5)) /\ nested_object (a_visit (DInt 5)) (visit_json (PInt 5)) /\
  accepts (PDict d) (PDict d) (PDict (visit_json (PInt 5))) /\
  hive_row hive_stored visits (a_visit DNull) /\ nested_object (a_visit DNull) (visit_json PNone) /\
  ~ accepts (PDict d) (PDict d) (PDict (visit_json PNone)).
Proof.
  assert (AP : hive_columns_apart visits).
  { split; [repeat constructor; cbn; intuition discriminate|]. split; [cbn; intuition discriminate|]. repeat constructor. }
  assert (RW : forall d, d = DNull \/ hive_stored (HPrim HInt) d -> hive_row hive_stored visits (a_visit d)).
  { intros d D. constructor; [split; [reflexivity|now left]|]. constructor; [|constructor]. split; [reflexivity|]. right. eexists. split; [reflexivity|].
    intros a b [[= <- <-]|[]]. split; right; [eexists; reflexivity|]. eexists. split; [reflexivity|]. intros w [<-|[<-|[]]]; [right; exists 4%Z; split; [reflexivity|split; [discriminate|reflexivity]]|exact D]. }
  assert (NO : forall d x, nested_json d x -> nested_object (a_visit d) (visit_json x)).
  { intros d x N. constructor.
    - intros n [[= <-]|[[=]|[]]]. reflexivity.
    - intros n v [[= <- <-]|[[= <- <-]|[]]] NN; [congruence|]. eexists. split; [reflexivity|].
      assert (NL : nested_json (DList [DInt 4; d]) (PList [PInt 4; x])).
      { apply nj_list. constructor; [apply nj_leaf; reflexivity|]. constructor; [exact N|constructor]. }
      apply nj_map.
      + intros k v [[= <- <-]|[]]. exists "home". eexists. split; [reflexivity|exact NL].
      + intros n y G. cbn in G. destruct (String.eqb n "home"); [|discriminate]. injection G as <-. eexists _, _. split; [left; reflexivity|exact NL]. }
  assert (R5 : hive_row hive_stored visits (a_visit (DInt 5))) by (apply RW; right; exists 5%Z; split; [reflexivity|split; [discriminate|reflexivity]]).
  assert (N5 : nested_object (a_visit (DInt 5)) (visit_json (PInt 5))) by (apply NO, nj_leaf; reflexivity).
  eexists _, _. split; [vm_compute; reflexivity|]. split; [vm_compute; reflexivity|]. split; [exact R5|]. split; [exact N5|].
  split; [|split; [apply RW; now left|split; [apply NO; constructor|]]].
  - eapply (proj2 C130_rows_partial "visits" visits); [exact AP| |vm_compute; reflexivity|vm_compute; reflexivity|exact R5| |exact N5].
    + repeat constructor; discriminate.
    + constructor. intros n x [[= <- <-]|[[= <- <-]|[]]]; [apply if_other; exact Logic.I|]. constructor. intros k y [[= <- <-]|[]]. split; [discriminate|].
      constructor. intros z [<-|[<-|[]]]; (split; [discriminate|apply if_other; exact Logic.I]).
  - intros A. eapply (C130_hive_partial "visits" visits) in A; [|exact AP|vm_compute; reflexivity|vm_compute; reflexivity]. destruct A as (o & [= <-] & O).
    inversion O as [? ? _ P]; subst. specialize (P _ _ _ (or_intror (or_introl eq_refl)) eq_refl). inversion P as [? ? ? J| |? ? ? M| | |]; subst; [inversion J|].
    specialize (M "home" _ eq_refl). inversion M as [? ? ? J|? ? E| | | |]; subst; [inversion J|]. specialize (E PNone (or_intror (or_introl eq_refl))).
    inversion E as [? ? ? J T| | | | |]; subst. inversion J; subst; cbn in *; try (intuition discriminate). inversion T as [| | |z N| | |]; subst. inversion N.
Qed.

(** Readings that are whole numbers or others: whole numbers are both, so no object with one is accepted. *)
Definition readings : list hcolumn := [mkHCol "value" (HUnion [HPrim HInt; HPrim HDouble; HPrim HString]) None].
Example C130_readings : exists t d, hive_to_recap "readings" readings = Ok t /\ schema_output FJson t = Ok (ODocument (PDict d)) /\
  hive_columns_apart readings /\ (forall z, int_range 32 true z -> hive_row hive_stored readings [("value", DInt z)]) /\
  (forall z, ~ accepts (PDict d) (PDict d) (PDict [("value", PInt z)])) /\ ~ accepts (PDict d) (PDict d) (PDict []) /\
  accepts (PDict d) (PDict d) (PDict [("value", PFloat (1 # 2))]) /\ accepts (PDict d) (PDict d) (PDict [("value", PStr "n/a")]) /\
  accepts (PDict d) (PDict d) (PDict [("value", PNone)]).
Proof.
  assert (AP : hive_columns_apart readings).
  { split; [repeat constructor; cbn; tauto|]. split; [cbn; intuition discriminate|]. constructor; [|constructor]. apply ha_union; [discriminate|].
    repeat constructor; try discriminate; eexists; [apply hj_whole|apply hj_number|apply hj_text]; cbn; tauto. }
  assert (TI : hive_json_type (HPrim HInt) "integer") by (apply hj_whole; cbn; tauto).
  assert (TD : hive_json_type (HPrim HDouble) "number") by (apply hj_number; cbn; tauto).
  assert (TS : hive_json_type (HPrim HString) "string") by (apply hj_text; cbn; tauto).
  assert (UN : forall h ty, In h [HPrim HInt; HPrim HDouble; HPrim HString] -> hive_json_type h ty ->
    (h = HPrim HInt /\ ty = "integer") \/ (h = HPrim HDouble /\ ty = "number") \/ (h = HPrim HString /\ ty = "string")).
  { intros h ty [<-|[<-|[<-|[]]]] J; inversion J; subst; cbn in *; intuition discriminate. }
  eexists _, _. split; [vm_compute; reflexivity|]. split; [vm_compute; reflexivity|]. split; [exact AP|]. split; [|split; [|split; [|split; [|split]]]].
  - intros z Z. constructor; [|constructor]. split; [reflexivity|]. right. left. exists z. auto.
  - intros z. eapply (proj2 (C130_unions_refuted "readings" readings _ _ _ _ (HPrim HInt) (HPrim HDouble) _ AP eq_refl eq_refl (or_introl eq_refl) eq_refl (or_introl eq_refl) (or_intror (or_introl eq_refl)) ltac:(discriminate)));
      [reflexivity|exact TI|exact TD|now apply ty_integer with z|now apply ty_number with (inject_Z z)].
  - eapply (proj1 (C130_unions_refuted "readings" readings _ _ _ _ (HPrim HInt) (HPrim HDouble) _ AP eq_refl eq_refl (or_introl eq_refl) eq_refl (or_introl eq_refl) (or_intror (or_introl eq_refl)) ltac:(discriminate))).
    reflexivity.
  - apply (C130_hive_partial "readings" readings _ _ _ AP eq_refl eq_refl). eexists. split; [reflexivity|]. constructor; intros n h; [|intros x]; (intros [[= <- <-]|[]]); [discriminate|].
    intros [= <-]. apply hvj_union with (HPrim HDouble) "number"; [cbn; auto|exact TD|now apply ty_number with (1 # 2)|].
    intros h ty I J T. destruct (UN h ty I J) as [[-> ->]|[[-> ->]|[-> ->]]]; auto; exfalso; inversion T as [| | |z N| | |]; [|discriminate]. cbn in N. unfold Qeq in N. cbn in N. lia.
  - apply (C130_hive_partial "readings" readings _ _ _ AP eq_refl eq_refl). eexists. split; [reflexivity|]. constructor; intros n h; [|intros x]; (intros [[= <- <-]|[]]); [discriminate|].
    intros [= <-]. apply hvj_union with (HPrim HString) "string"; [cbn; auto|exact TS|now apply ty_string with "n/a"|].
    intros h ty I J T. destruct (UN h ty I J) as [[-> ->]|[[-> ->]|[-> ->]]]; auto; exfalso; inversion T; subst; cbn in *; contradiction.
  - apply (C130_hive_partial "readings" readings _ _ _ AP eq_refl eq_refl). eexists. split; [reflexivity|]. constructor; intros n h; [|intros x]; (intros [[= <- <-]|[]]); [discriminate|].
    intros [= <-]. apply hvj_choice. exists [HPrim HInt; HPrim HDouble; HPrim HString], (HPrim HInt), (HPrim HString). repeat split; cbn; auto. discriminate.
Qed.
