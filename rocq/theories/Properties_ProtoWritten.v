(** C121: the values of structs and the messages of the proto files written for them. *)
From Coq Require Import String Ascii List NArith ZArith QArith Bool Lia.
From Verif Require Import PyVal RType Registry Url SpecTypes SpecDb SpecInstances SpecRows Proto SpecProto SpecProtoData SpecProtoWritten
  ProtoWrite ProtoDataWritten.
Import ListNotations.
Open Scope nat_scope.
Open Scope string_scope.
Open Scope list_scope.

(** The messages with the full name [a] in a file of package [p]. *)
Definition messages (p : string) (f : list felement) (a : string) : datum -> Prop :=
  SpecProtoData.data proto_instant (2 ^ 31 - 1) p (body f) p ("." ++ a).

(** ** C121: every value of a struct is a message of the proto file written for it *)
Theorem C121_values_partial : forall c fs a f p v, c_alias c = PStr a -> pr_from (TStruct c fs) = Ok f -> first_package f = Some p ->
  expressible p (TStruct c fs) -> names_in_place (TStruct c fs) ->
  holds (named_in (TStruct c fs)) (TStruct c fs) v -> messages p f a v.
Proof. exact (values_written proto_instant). Qed.
Print Assumptions C121_values_partial.
(** Wherever the names are, the values of the fields are kept in their order. *)
Theorem C121_positions_partial : forall c fs a f p v, c_alias c = PStr a -> pr_from (TStruct c fs) = Ok f -> first_package f = Some p ->
  expressible p (TStruct c fs) -> names_are_texts (TStruct c fs) ->
  holds (named_in (TStruct c fs)) (TStruct c fs) v -> exists w, renamed (fun _ _ => True) v w /\ messages p f a w.
Proof. exact (values_renamed proto_instant). Qed.
Print Assumptions C121_positions_partial.

Definition nm (s : string) : common := mkC PNone PNone PNone [("name", PStr s)].
Definition alias (a : string) : common := mkC PNone (PStr a) PNone [].
Definition called (a s : string) : common := mkC PNone (PStr a) PNone [("name", PStr s)].
Definition str (s : string) : rtype := TString (nm s) (PInt 100) (PBool true).
Definition color : rtype := TEnum (called "shop.Color" "color") (PList [PStr "RED"; PStr "BLUE"]).
Definition part : rtype := TStruct (called "shop.Item.Part" "part")
  [color; TProxy (called "shop.Item" "of") None].
Definition item : rtype := TStruct (alias "shop.Item")
  [TInt (nm "id") (PInt 64) (PBool false); TList (nm "tags") (str "tags") PNone (PBool true);
   TMap (nm "prices") (str "k") (TFloat c0 (PInt 64)); TUnion (nm "note") [TNull c0; str "note"];
   TUnion (nm "size") [TInt (nm "number") (PInt 16) (PBool true); str "letter"];
   TUnion (nm "part") [TNull c0; part]].
Definition empty_item : datum := DRow [("id", DInt 1); ("tags", DList []); ("prices", DMap []); ("note", DNull); ("size", DInt (-3)); ("part", DNull)].
Definition full_item : datum := DRow
  [("id", DInt (2 ^ 64 - 1)); ("tags", DList [DText "a"; DText "b"]); ("prices", DMap [(DText "EUR", DFloat 1)]);
   ("note", DText "x"); ("size", DText "XL"); ("part", DRow [("color", DText "BLUE"); ("of", empty_item)])].
Lemma node_all (P : rtype -> Prop) t : P t -> Forall (fun c => forall s, node_of s c -> P s) (children t) -> forall s, node_of s t -> P s.
Proof. intros H F s I. destruct I as [|t c IC I]; [exact H|]. rewrite Forall_forall in F. eauto. Qed.
Lemma dotless_by n : substr_in "." n = false -> dotless n.
Proof. intros E a b ->. now rewrite dot_in in E. Qed.
Ltac dotfree := apply dotless_by; reflexivity.
Ltac every_node := apply node_all; cbn [children]; [|repeat apply Forall_cons; try apply Forall_nil; every_node].
Ltac each H := cbn in H; repeat (destruct H as [H|H]); try contradiction.
Lemma text_simple s : simple (str s).
Proof. split; [exact Logic.I|]. cbn. eauto. Qed.
Lemma struct_fields t x : in_struct t x -> forall P : rtype -> Prop,
  (forall s, node_of s t -> match s with TStruct _ fs => Forall P fs | _ => True end) -> P x.
Proof. intros (c & fs & I & IX) P H. specialize (H _ I). cbn in H. rewrite Forall_forall in H. auto. Qed.
Lemma item_expressible : expressible "shop" item.
Proof.
  constructor.
  - assert (K : forall s, node_of s item -> match s with TStruct c _ | TEnum c _ =>
      exists q n, c_alias c = PStr (q ++ "." ++ n)%string /\ dotless n /\ rooted item "shop" q | _ => True end).
    { every_node; try exact Logic.I.
      - exists "shop", "Item". split; [reflexivity|]. split; [dotfree|constructor].
      - exists "shop.Item", "Part". split; [reflexivity|]. split; [dotfree|]. apply (rooted_in item "shop" "shop" "Item"); [constructor|dotfree|].
        exists (alias "shop.Item"). eexists. split; [constructor|reflexivity].
      - exists "shop", "Color". split; [reflexivity|]. split; [dotfree|constructor]. }
    intros s I [(c & l & ->)|(c & l & ->)]; exact (K _ I).
  - intros x I. apply (struct_fields _ _ I). every_node; try exact Logic.I.
    + repeat apply Forall_cons; try apply Forall_nil; cbn [simple_field].
      * split; [exact Logic.I|]. split; [exists 64%Z; split; [reflexivity|lia]|eauto].
      * apply text_simple.
      * split; [apply text_simple|]. split; [exact Logic.I|cbn; eauto].
      * now left.
      * right. apply text_simple.
      * right. split; [exact Logic.I|]. split; [exists 16%Z; split; [reflexivity|lia]|eauto].
      * right. apply text_simple.
      * now left.
      * right. split; exact Logic.I.
    + repeat apply Forall_cons; try apply Forall_nil; split; exact Logic.I.
  - every_node; first [exact Logic.I | reflexivity].
Qed.
Lemma item_names : names_in_place item.
Proof.
  intros x y n I. apply (struct_fields _ _ I (fun x => carrier x y -> has_name x n -> has_name y n)).
  every_node; try exact Logic.I; repeat apply Forall_cons; try apply Forall_nil; intros C; inversion C as [|? ? (c & ts & E & F)|]; subst; auto.
  all: try discriminate; injection E as <- <-; cbn in F; try discriminate; injection F as <-; auto.
Qed.
Ltac in_row := apply h_struct; [reflexivity| |]; intros [|[|[|[|[|[|i]]]]]] f n d; cbn; try (destruct i; discriminate); try discriminate; intros [= <-] [= <- <-]; try reflexivity.
Ltac text := constructor; cbn; lia.
Lemma empty_holds : holds (named_in item) item empty_item.
Proof.
  in_row.
  - constructor; [reflexivity|unfold int_range; lia].
  - constructor; [exact Logic.I|intros x []].
  - constructor; intros a b [].
  - eapply h_union; [left; reflexivity|constructor].
  - eapply h_union; [left; reflexivity|]. constructor; [reflexivity|unfold int_range; lia].
  - eapply h_union; [left; reflexivity|constructor].
Qed.
Lemma full_holds : holds (named_in item) item full_item.
Proof.
  in_row.
  - constructor; [reflexivity|unfold int_range; lia].
  - constructor; [exact Logic.I|]. intros x IX. each IX; subst; text.
  - constructor; intros a b [[= <- <-]|[]]; [text|]. constructor. right. split; [reflexivity|]. exists 1%Z, 0%Z. repeat split; try lia; reflexivity.
  - eapply h_union; [right; left; reflexivity|text].
  - eapply h_union; [right; left; reflexivity|text].
  - eapply h_union; [right; left; reflexivity|]. in_row.
    + constructor. cbn. tauto.
    + eapply h_proxy; [reflexivity| |exact empty_holds]. split; [constructor|]. split; [reflexivity|left; unfold item; eauto].
Qed.
Example C121_case : exists f, pr_from item = Ok f /\ first_package f = Some "shop" /\ expressible "shop" item /\ names_in_place item /\
  holds (named_in item) item full_item /\ messages "shop" f "shop.Item" full_item.
Proof.
  destruct (pr_from item) as [f|e] eqn:E; [|vm_compute in E; discriminate]. exists f. split; [reflexivity|].
  assert (F : first_package f = Some "shop") by (vm_compute in E; injection E as <-; reflexivity).
  split; [exact F|]. split; [exact item_expressible|]. split; [exact item_names|]. split; [exact full_holds|].
  exact (C121_values_partial (alias "shop.Item") _ "shop.Item" f "shop" full_item eq_refl E F item_expressible item_names full_holds).
Qed.

(** *** Where it fails *)
Definition row (f : rtype) : rtype := TStruct (alias "p.M") [f].
Lemma one_message e v : is_member e = true -> messages "p" [FPackage "p"; FElement (EMessage "M" [e])] "p.M" v ->
  exists n w, v = DRow [(n, w)] /\ element_name e = Some (PStr n) /\
    SpecProtoData.value proto_instant (2 ^ 31 - 1) "p" [EMessage "M" [e]] "p.M" e w.
Proof.
  intros ME D. unfold messages in D. cbn [body flat_map app] in D.
  assert (K : forall a n x, declared_as "p" [EMessage "M" [e]] a n x -> a = "p.M" /\ n = "M" /\ x = EMessage "M" [e]).
  { intros a n x (q & els' & S & I & -> & KD).
    assert (Y : (q = "p" /\ els' = [EMessage "M" [e]]) \/ els' = [e]).
    { clear -S ME. induction S as [|q els' n m S IH I]; [auto|]. right. destruct IH as [[-> ->]| ->]; destruct I as [I|[]]; [congruence|].
      subst e. discriminate. }
    destruct Y as [[-> ->]| ->]; destruct I as [<-|[]].
    - destruct KD as [(m & E)|(m & E)]; [injection E as <- <-; auto|discriminate].
    - destruct KD as [(m & ->)|(m & ->)]; discriminate. }
  inversion D as [? ? SD|? a n m r NS NM DA FS|? a n vs s z NS NM DA IV]; subst.
  - inversion SD; subst; discriminate.
  - destruct (K _ _ _ DA) as (-> & -> & E). injection E as ->. inversion FS as [|? ? ? M0 F0|? ? n w r' EN V F']; subst; [congruence|].
    inversion F'; subst. exists n, w. auto.
  - destruct (K _ _ _ DA) as (_ & _ & E). discriminate.
Qed.
Lemma scalar_only p els q ty v : SpecProtoData.data proto_instant (2 ^ 31 - 1) p els q ty v -> In ty proto_scalars ->
  scalar_data proto_instant (2 ^ 31 - 1) ty v.
Proof. intros D I. inversion D; subst; auto; contradiction. Qed.
Lemma row_holds env f n v : extra "name" f = Some (PStr n) -> holds env f v -> holds env (row f) (DRow [(n, v)]).
Proof. intros E H. apply h_struct; [reflexivity| |]; intros [|i] g n' d; cbn; try (destruct i; discriminate); intros [= <-] [= <- <-]; auto. Qed.

(** The name of an optional field is on the union, but it is looked for on the member. *)
Theorem C121_names_refuted : forall n b, n <> "field_1" ->
  let t := row (TUnion (nm n) [TNull c0; TBool c0]) in
  exists f, pr_from t = Ok f /\ expressible "p" t /\ holds (named_in t) t (DRow [(n, DBool b)]) /\
    ~ messages "p" f "p.M" (DRow [(n, DBool b)]) /\ messages "p" f "p.M" (DRow [("field_1", DBool b)]).
Proof.
  intros n b NE t. assert (X : expressible "p" t).
  { constructor.
    - assert (K : forall s, node_of s t -> match s with TStruct c _ | TEnum c _ => c_alias c = PStr "p.M" | _ => True end).
      { unfold t, row. every_node; first [exact Logic.I | reflexivity]. }
      intros s I [(c & l & ->)|(c & l & ->)]; exists "p", "M"; (split; [exact (K _ I)|]); (split; [dotfree|constructor]).
    - intros x I. apply (struct_fields _ _ I). unfold t, row. every_node; try exact Logic.I.
      repeat apply Forall_cons; try apply Forall_nil; [now left|right; split; exact Logic.I].
    - unfold t, row. every_node; first [exact Logic.I | reflexivity]. }
  assert (H : holds (named_in t) t (DRow [(n, DBool b)])).
  { apply row_holds; [reflexivity|]. eapply h_union; [right; left; reflexivity|constructor]. }
  exists [FPackage "p"; FElement (EMessage "M" [EField (PStr "field_1") 1 "bool" (Some Optional)])].
  assert (E : pr_from t = Ok [FPackage "p"; FElement (EMessage "M" [EField (PStr "field_1") 1 "bool" (Some Optional)])]) by reflexivity.
  split; [exact E|]. split; [exact X|]. split; [exact H|]. split.
  - intros D. apply one_message in D as (n' & w & E' & EN & _); [|reflexivity]. injection E' as -> _. injection EN as <-. auto.
  - destruct (C121_positions_partial (alias "p.M") _ "p.M" _ "p" (DRow [(n, DBool b)]) eq_refl E eq_refl X) as (w & R & D); [|exact H|].
    + intros x y m I C HN. revert C HN. apply (struct_fields _ _ I (fun x => carrier x y -> has_name y m -> exists s, m = PStr s)).
      unfold t, row. every_node; try exact Logic.I. apply Forall_cons; [|constructor].
      intros C. inversion C as [|? ? (c & ts & E1 & F)|? ? NJ]; subst.
      * injection E1 as <- <-. injection F as <-. discriminate.
      * intros _. elim (NJ (TBool c0)). exists (nm n), [TNull c0; TBool c0]. auto.
    + pose proof D as D'. apply one_message in D' as (n' & w' & -> & EN & _); [|reflexivity]. injection EN as <-.
      inversion R as [|?? F|?? F|?? F]; subst; [|]; try discriminate. 
      * congruence.
      * inversion F as [|? ? ? ? [_ R'] _]; subst. cbn in R'. inversion R'; subst. exact D.
Qed.
Print Assumptions C121_names_refuted.
(** Instants, lists in lists, null in lists and lists in maps: [row f] has a value that is no message. *)
Theorem C121_fields_refuted : forall f v, In (f, v)
    [(TInt (mkC (PStr "build.recap.Timestamp") PNone PNone [("name", PStr "x"); ("unit", PStr "second")]) (PInt 64) (PBool true), DInstant 0 0);
     (TBytes (mkC (PStr "build.recap.Decimal") PNone PNone [("name", PStr "x"); ("precision", PInt 5); ("scale", PInt 2)]) (PInt 8) (PBool true), DNumber 1 0);
     (TList (nm "x") (TList (nm "x") (TBool (nm "x")) PNone (PBool true)) PNone (PBool true), DList [DList [DBool true]]);
     (TList (nm "x") (TUnion (nm "x") [TNull c0; TBool (nm "x")]) PNone (PBool true), DList [DNull]);
     (TMap (nm "x") (str "x") (TList (nm "x") (TBool (nm "x")) PNone (PBool true)), DMap [(DText "", DList [])]);
     (TUnion (nm "x") [TNull c0; TList (nm "x") (TBool (nm "x")) PNone (PBool true)], DList [])] ->
  names_in_place (row f) /\ holds (named_in (row f)) (row f) (DRow [("x", v)]) /\
  exists g, pr_from (row f) = Ok g /\ ~ messages "p" g "p.M" (DRow [("x", v)]).
Proof.
  intros f v I. split.
  { intros x y n IX. apply (struct_fields _ _ IX (fun x => carrier x y -> has_name x n -> has_name y n)). clear IX.
    each I; injection I as <- <-; unfold row, str; every_node; try exact Logic.I; apply Forall_cons; try apply Forall_nil; intros C.
    all: inversion C as [|? ? (c & ts & E & F)|]; subst; auto; try discriminate.
    injection E as <- <-; cbn in F; injection F as <-; auto. }
  split.
  { each I; injection I as <- <-; (apply row_holds; [reflexivity|]).
    - apply (h_instant _ _ 64 true "second" 0 0 0 0); try reflexivity; [constructor|unfold int_range; lia].
    - apply (h_decimal _ _ 8 (PBool true) 5 2 1 0 100); try reflexivity; try lia. unfold int_range. lia.
    - constructor; [exact Logic.I|]. intros x [<-|[]]. constructor; [exact Logic.I|]. intros x [<-|[]]. constructor.
    - constructor; [exact Logic.I|]. intros x [<-|[]]. eapply h_union; [left; reflexivity|constructor].
    - constructor; intros a b [[= <- <-]|[]]; [text|]. constructor; [exact Logic.I|intros x []].
    - eapply h_union; [right; left; reflexivity|]. constructor; [exact Logic.I|intros x []]. }
  each I; injection I as <- <-; (eexists; split; [vm_compute; reflexivity|]); intros D; apply one_message in D as (n & w & E & _ & V); try reflexivity;
    injection E as <- <-; inversion V; subst; try discriminate.
  all: try match goal with H : SpecProtoData.data _ _ _ _ _ _ _ |- _ => apply scalar_only in H; [inversion H; discriminate|cbn; tauto] end.
  all: try match goal with H : forall v, In v _ -> _ |- _ => specialize (H _ (or_introl eq_refl)); apply scalar_only in H; [inversion H; discriminate|cbn; tauto] end.
  match goal with H : forall x v, In (x, v) _ -> SpecProtoData.data _ _ _ _ _ "bool" v |- _ => specialize (H _ _ (or_introl eq_refl)); apply scalar_only in H; [inversion H; discriminate|cbn; tauto] end.
Qed.
Print Assumptions C121_fields_refuted.
