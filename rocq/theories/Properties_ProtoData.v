(** C119-C120: the messages of proto files and the values of the types read from them. *)
From Coq Require Import String Ascii List NArith ZArith QArith Bool Lia.
From Verif Require Import PyVal RType Registry Url Avro Proto SpecTypes SpecDb SpecInstances SpecRows SpecProto SpecProtoData ProtoWrite ProtoDataBoth.
Import ListNotations.
Open Scope nat_scope.
Open Scope string_scope.
Open Scope list_scope.

(** An alias stands for the type that is registered under it when the file has been read. *)
(** ** C119: every message of a proto file is a value of the type that is read *)
Theorem C119_kept_partial : forall l p s t v, reached s -> first_package l = Some p -> simply_named p (body l) ->
  snd (pr_to l s) = Ok t ->
  message (fun z => proto_instant z /\ int_range 64 true z) (2 ^ 31 - 1) p (body l) v ->
  holds (fun a u => dget a (reg (fst (pr_to l s))) = Some u) t v.
Proof. exact messages_are_values. Qed.
Print Assumptions C119_kept_partial.

(** ** C120: every value of the type that is read is a message of the proto file *)
Theorem C120_exact_partial : forall l p s t v, reached s -> first_package l = Some p -> simply_named p (body l) ->
  snd (pr_to l s) = Ok t ->
  holds (fun a u => dget a (reg (fst (pr_to l s))) = Some u) t v -> message proto_instant (2 ^ 31) p (body l) v.
Proof. exact values_are_messages. Qed.
Print Assumptions C120_exact_partial.

Definition item_body : list element :=
  [EField (PStr "name") 1 "string" (Some Required); EField (PStr "parts") 2 "Item" (Some Repeated);
   EField (PStr "order") 3 "Order" (Some Optional)].
Definition order_body : list element :=
  [EMessage "Item" item_body; EEnum "Status" [(PStr "NEW", 0%Z); (PStr "PAID", 1%Z)];
   EField (PStr "id") 1 "int64" (Some Required); EField (PStr "customer") 2 "Customer" None;
   EField (PStr "items") 3 "Item" (Some Repeated); EMapField (PStr "tags") 4 "string" "sint32";
   EOneOf (PStr "payment") [EField (PStr "card") 5 "string" None; EField (PStr "token") 6 "bytes" None];
   EField (PStr "status") 7 "Status" (Some Required); EField (PStr "at") 8 "google.protobuf.Timestamp" None; EOther].
Definition customer_body : list element :=
  [EField (PStr "name") 1 "string" (Some Required); EField (PStr "last") 2 "shop.Order" None].
Definition shop : list felement :=
  [FOther; FPackage "shop"; FElement (EMessage "Order" order_body); FElement (EMessage "Customer" customer_body)].
Definition an_item (n : string) (parts : datum) : datum := DRow [("name", DText n); ("parts", parts); ("order", DNull)].
Definition an_order : datum :=
  DRow [("id", DInt (-7)); ("customer", DRow [("name", DText "Ann"); ("last", DNull)]);
        ("items", DList [an_item "box" (DList [an_item "lid" DNull]); an_item "pen" (DList [])]);
        ("tags", DMap [(DText "blue", DInt (- 2 ^ 31))]); ("payment", DBytes "xyz"); ("status", DText "PAID");
        ("at", DInstant 16800000000 1)].

Definition scopes : list (string * list element) :=
  [("shop", body shop); ("shop.Order", order_body); ("shop.Order.Item", item_body); ("shop.Customer", customer_body)].
Lemma in_scopes q els : scope "shop" (body shop) q els -> In (q, els) scopes.
Proof.
  induction 1 as [|q els n m S IH I]; [now left|]. cbn [scopes In] in IH.
  repeat (destruct IH as [IH|IH]; [injection IH as <- <-; cbn in I; repeat (destruct I as [I|I]; [first [discriminate I | injection I as <- <-; cbn; tauto]|]); destruct I|]).
  destruct IH.
Qed.
Lemma dotless_by n : substr_in "." n = false -> dotless n.
Proof. intros E a b ->. now rewrite dot_in in E. Qed.
Definition full_declared : list (string * string) :=
  [("shop.Order", "Order"); ("shop.Customer", "Customer"); ("shop.Order.Item", "Item"); ("shop.Order.Status", "Status")].
Lemma in_declared a n d : declared_as "shop" (body shop) a n d -> In (a, n) full_declared.
Proof.
  intros (q & els & S & I & -> & D). apply in_scopes in S. cbn [scopes In] in S.
  repeat (destruct S as [S|S]; [injection S as <- <-; cbn in I; repeat (destruct I as [<-|I]; [destruct D as [(m & D)|(vs & D)]; first [discriminate D | injection D as <-; cbn; tauto
    | injection D as <- <-; cbn; tauto]|]); destruct I|]).
  destruct S.
Qed.
Lemma not_declared a : (forall n, ~ In (a, n) full_declared) -> ~ is_declared "shop" (body shop) a.
Proof. intros N (n & d & D). apply in_declared in D. now apply (N n). Qed.
Ltac undeclared := apply not_declared; intros n I; cbn in I; repeat (destruct I as [I|I]; [discriminate I|]); exact I.
Lemma shop_scopes : scope "shop" (body shop) "shop" (body shop) /\ scope "shop" (body shop) "shop.Order" order_body /\
  scope "shop" (body shop) "shop.Order.Item" item_body /\ scope "shop" (body shop) "shop.Customer" customer_body.
Proof.
  assert (A : scope "shop" (body shop) "shop" (body shop)) by constructor.
  assert (B : scope "shop" (body shop) "shop.Order" order_body) by (apply (scope_in _ _ "shop" (body shop) "Order"); auto; now left).
  split; auto. split; auto. split.
  - apply (scope_in _ _ "shop.Order" order_body "Item"); auto. now left.
  - apply (scope_in _ _ "shop" (body shop) "Customer"); auto. right. now left.
Qed.
Lemma shop_declared : is_declared "shop" (body shop) "shop.Order" /\ is_declared "shop" (body shop) "shop.Customer" /\
  is_declared "shop" (body shop) "shop.Order.Item" /\ is_declared "shop" (body shop) "shop.Order.Status".
Proof.
  pose proof shop_scopes as (A & B & C & D). repeat split.
  - eexists "Order", _, "shop", (body shop). split; [exact A|]. split; [now left|]. split; [reflexivity|]. eauto.
  - eexists "Customer", _, "shop", (body shop). split; [exact A|]. split; [right; now left|]. split; [reflexivity|]. eauto.
  - eexists "Item", _, "shop.Order", order_body. split; [exact B|]. split; [now left|]. split; [reflexivity|]. eauto.
  - eexists "Status", _, "shop.Order", order_body. split; [exact B|]. split; [right; now left|]. split; [reflexivity|]. eauto.
Qed.
(** What the types that are mentioned name. *)
Definition uses : list (string * string * string) :=
  [("Item", "shop.Order.Item", "shop.Order.Item"); ("Order", "shop.Order.Item", "shop.Order"); ("Customer", "shop.Order", "shop.Customer");
   ("Item", "shop.Order", "shop.Order.Item"); ("Status", "shop.Order", "shop.Order.Status"); ("shop.Order", "shop.Customer", "shop.Order")].
Lemma shop_names ty q a : In (ty, q, a) uses -> names "shop" (body shop) ty q a.
Proof.
  pose proof shop_declared as (A & B & C & D).
  cbn [uses In]. intros I.
  destruct I as [[= <- <- <-]|[[= <- <- <-]|[[= <- <- <-]|[[= <- <- <-]|[[= <- <- <-]|[[= <- <- <-]|[]]]]]]].
  - apply (names_outer _ _ "Item" "shop.Order" "Item"); [now apply dotless_by|undeclared|]. now apply (names_here _ _ "Item" "shop.Order").
  - apply (names_outer _ _ "Order" "shop.Order" "Item"); [now apply dotless_by|undeclared|].
    apply (names_outer _ _ "Order" "shop" "Order"); [now apply dotless_by|undeclared|]. now apply (names_here _ _ "Order" "shop").
  - apply (names_outer _ _ "Customer" "shop" "Order"); [now apply dotless_by|undeclared|]. now apply (names_here _ _ "Customer" "shop").
  - now apply (names_here _ _ "Item" "shop.Order").
  - now apply (names_here _ _ "Status" "shop.Order").
  - apply (names_outer _ _ "shop.Order" "shop" "Customer"); [now apply dotless_by|undeclared|].
    apply names_root; [now apply dotless_by|undeclared|auto].
Qed.
Lemma str_assoc (a b c : string) : (a ++ (b ++ c))%string = ((a ++ b) ++ c)%string.
Proof. induction a; cbn; congruence. Qed.
Lemma shop_plain : simply_named "shop" (body shop).
Proof.
  intros q els e ty S NP I J NS. apply in_scopes in S.
  assert (U : exists a, In (ty, q, a) uses).
  { cbn [scopes In] in S. destruct S as [[= <- <-]|[[= <- <-]|[[= <- <-]|[[= <- <-]|[]]]]]; [congruence| | |];
      cbn in I; repeat (destruct I as [<-|I]; [cbn in J; repeat (destruct J as [<-|J];
        [first [exfalso; apply NS; cbn; tauto | eexists; cbn; tauto]|]); destruct J|]); destruct I. }
  destruct U as (a0 & U). split; [exists a0; now apply shop_names|]. intros a n d NA DA. pose proof (in_declared _ _ _ DA) as DI.
  assert (DN : dotless n) by (cbn in DI; destruct DI as [[= <- <-]|[[= <- <-]|[[= <- <-]|[[= <- <-]|[]]]]]; now apply dotless_by).
  split; auto. cbn [uses In] in U.
  destruct U as [[= <- <- <-]|[[= <- <- <-]|[[= <- <- <-]|[[= <- <- <-]|[[= <- <- <-]|[[= <- <- <-]|[]]]]]]];
    try (left; eapply simple_reference; eauto; now apply dotless_by).
  right. assert (n = "Order") as ->; [|reflexivity]. destruct DA as (q0 & els0 & _ & _ & E0 & _).
  assert (E1 : exists x, a = (x ++ "." ++ "Order")%string).
  { apply names_cases in NA as [(q' & ->)|[->|E]]; [|now exists "shop"|].
    - exists (q' ++ ".shop")%string. now rewrite <- str_assoc.
    - destruct a as [|? [|]]; discriminate. }
  destruct E1 as (x & E1). assert (X : rsplit_dot (q0 ++ "." ++ n)%string = rsplit_dot (x ++ "." ++ "Order")%string) by congruence.
  rewrite !rsplit_app in X by (auto; now apply dotless_by). congruence.
Qed.

(** A message with nested and recursive messages, an enum, a map, a oneof and an instant. *)
Section Case.
  Let here : Z -> Prop := fun z => proto_instant z /\ int_range 64 true z.
  Let longest : Z := (2 ^ 31 - 1)%Z.
  Notation data := (data here longest "shop" (body shop)).
  Notation value := (value here longest "shop" (body shop)).
  Lemma text_data q s : (String.length s <= 1000)%nat -> data q "string" (DText s).
  Proof. intros L. constructor. constructor. unfold longest. lia. Qed.
  Lemma item_data q n parts : In ("Item", q, "shop.Order.Item") uses -> (String.length n <= 1000)%nat ->
    value "shop.Order.Item" (EField (PStr "parts") 2 "Item" (Some Repeated)) parts -> data q "Item" (an_item n parts).
  Proof.
    intros U L V. eapply (d_message _ _ _ _ q "Item" "shop.Order.Item" "Item" item_body).
    - cbn. intuition discriminate.
    - now apply shop_names.
    - exists "shop.Order", order_body. split; [apply shop_scopes|]. split; [now left|]. split; [reflexivity|]. left. eauto.
    - apply f_cons; [reflexivity| |apply f_cons; [reflexivity|exact V|apply f_cons; [reflexivity| |constructor]]].
      + apply v_single; [discriminate|]. now apply text_data.
      + apply v_unset. discriminate.
  Qed.
  Lemma order_message : message here longest "shop" (body shop) an_order.
  Proof.
    exists "Order", order_body. eexists. split; [reflexivity|]. split; [reflexivity|].
    apply f_skip; [reflexivity|]. apply f_skip; [reflexivity|].
    apply f_cons; [reflexivity| |]. { apply v_single; [discriminate|]. constructor. eapply sd_int; [reflexivity|]. lia. }
    apply f_cons; [reflexivity| |].
    { apply v_single; [discriminate|]. eapply (d_message _ _ _ _ "shop.Order" "Customer" "shop.Customer" "Customer" customer_body).
      - cbn. intuition discriminate.
      - apply shop_names. cbn. tauto.
      - exists "shop", (body shop). split; [apply shop_scopes|]. split; [right; now left|]. split; [reflexivity|]. left. eauto.
      - apply f_cons; [reflexivity| |apply f_cons; [reflexivity| |constructor]].
        + apply v_single; [discriminate|]. apply text_data. cbn. lia.
        + apply v_unset. discriminate. }
    apply f_cons; [reflexivity| |].
    { apply v_repeated. intros v [<-|[<-|[]]]; (apply item_data; [cbn; tauto|cbn; lia|]).
      - apply v_repeated. intros v [<-|[]]. apply item_data; [cbn; tauto|cbn; lia|]. apply v_unset. discriminate.
      - apply v_repeated. intros v []. }
    apply f_cons; [reflexivity| |].
    { apply v_map; intros x v [[= <- <-]|[]]; [apply text_data; cbn; lia|]. constructor. eapply sd_int; [reflexivity|]. lia. }
    apply f_cons; [reflexivity| |]. { eapply v_one; [right; now left|]. constructor. constructor. unfold longest. cbn. lia. }
    apply f_cons; [reflexivity| |].
    { apply v_single; [discriminate|]. eapply (d_enum _ _ _ _ "shop.Order" "Status" "shop.Order.Status" "Status"); [cbn; intuition discriminate|apply shop_names; cbn; tauto| |].
      - exists "shop.Order", order_body. split; [apply shop_scopes|]. split; [right; left; reflexivity|]. split; [reflexivity|]. right. eauto.
      - right. left. reflexivity. }
    apply f_cons; [reflexivity| |apply f_skip; [reflexivity|constructor]].
    apply v_single; [discriminate|]. constructor. apply (sd_timestamp _ _ 1680000000000000000%Z); [|unfold same_number; lia].
    unfold here, proto_instant, int_range. lia.
  Qed.
End Case.
Example C119_case : exists t, first_package shop = Some "shop" /\ simply_named "shop" (body shop) /\
  snd (pr_to shop (converter "")) = Ok t /\
  message (fun z => proto_instant z /\ int_range 64 true z) (2 ^ 31 - 1) "shop" (body shop) an_order /\
  holds (fun a u => dget a (reg (fst (pr_to shop (converter "")))) = Some u) t an_order.
Proof.
  eexists. split; [reflexivity|]. split; [exact shop_plain|]. split; [vm_compute; reflexivity|]. split; [exact order_message|].
  eapply C119_kept_partial; [constructor|reflexivity|exact shop_plain|vm_compute; reflexivity|exact order_message].
Qed.

(** ** Where C119 and C120 fail *)
Definition event : list felement :=
  [FPackage "log"; FElement (EMessage "Event" [EField (PStr "at") 1 "google.protobuf.Timestamp" (Some Required)])].
Definition note : list felement :=
  [FPackage "log"; FElement (EMessage "Note" [EField (PStr "text") 1 "string" (Some Required)])].
Lemma one_message p n m : (forall e ty, In e m -> In ty (mentions e) -> In ty proto_scalars) -> (forall n' m', ~ In (EMessage n' m') m) ->
  simply_named p [EMessage n m].
Proof.
  intros SC NM q els e ty S NP I J NS. elim NS. apply (SC e); auto.
  assert (X : (q, els) = (p, [EMessage n m]) \/ els = m).
  { clear - S NM. induction S as [|q els' n' m' S IH I]; auto. right. destruct IH as [[= -> ->]| ->].
    - destruct I as [[= <- <-]|[]]. reflexivity.
    - now elim (NM n' m'). }
  destruct X as [[= -> ->]| ->]; [congruence|auto].
Qed.
(** An instant after the year 2262 is none of the values. *)
Theorem C119_instant_refuted : exists l p t v, first_package l = Some p /\ simply_named p (body l) /\
  snd (pr_to l (converter "")) = Ok t /\ proto_message p (body l) v /\
  ~ holds (fun a u => dget a (reg (fst (pr_to l (converter "")))) = Some u) t v.
Proof.
  exists event, "log". eexists. exists (DRow [("at", DInstant 9999999999 0)]). split; [reflexivity|]. split.
  { apply one_message; [intros e ty [<-|[]] [<-|[]]; cbn; tauto|intros n m [E|[]]; discriminate]. }
  split; [vm_compute; reflexivity|]. split.
  - eexists _, _, _. split; [reflexivity|]. split; [reflexivity|]. apply f_cons; [reflexivity| |constructor]. apply v_single; [discriminate|].
    constructor. apply (sd_timestamp _ _ 9999999999000000000%Z); [unfold proto_instant; lia|unfold same_number; lia].
  - intros H. inversion H as [| | | | | | | | | | | |? ? r L N V| | |]; subst. specialize (V 0 _ _ _ eq_refl eq_refl).
    inversion V as [| | |? ? ? u m n k z LO X T SN IR| | | | | | | | | | | |]; subst. injection X as <-. inversion T; subst.
    unfold same_number, int_range in *. lia.
Qed.
Print Assumptions C119_instant_refuted.
Lemma text_of (n : nat) : exists s, String.length s = n.
Proof. induction n as [|n [s E]]; [now exists ""|]. exists (String "a" s). cbn. now rewrite E. Qed.
(** A text of 2^31 bytes is a value, but no message is as long. *)
Theorem C120_length_refuted : exists l p t v, first_package l = Some p /\ simply_named p (body l) /\
  snd (pr_to l (converter "")) = Ok t /\ holds (fun a u => dget a (reg (fst (pr_to l (converter "")))) = Some u) t v /\
  ~ proto_message p (body l) v.
Proof.
  destruct (text_of (Z.to_nat (2 ^ 31))) as (s & E). assert (E' : Z.of_nat (String.length s) = (2 ^ 31)%Z) by (rewrite E; apply Z2Nat.id; lia). clear E.
  exists note, "log". eexists. exists (DRow [("text", DText s)]). split; [reflexivity|]. split.
  { apply one_message; [intros e ty [<-|[]] [<-|[]]; cbn; tauto|intros n m [X|[]]; discriminate]. }
  split; [vm_compute; reflexivity|]. split.
  - apply h_struct; [reflexivity| |]; intros [|[|]] f nm d; cbn [nth_error]; try discriminate; intros [= <-] [= <- <-]; [reflexivity|].
    constructor. unfold fits. cbn [truthy]. rewrite E'. discriminate.
  - intros (n & m & r & [= <- <-] & [= <-] & F). inversion F as [|? ? ? M|? ? ? v ? EN V]; subst; [discriminate|].
    inversion V as [|? ? ? ? v' NR D| | | | |]; subst. inversion D as [? ? SD| |? ? ? ? ? ? NS]; subst; [|elim NS; cbn; tauto].
    inversion SD; subst; try discriminate. lia.
Qed.
Print Assumptions C120_length_refuted.
(** The same example is a message. *)
Example C120_case : exists t, snd (pr_to shop (converter "")) = Ok t /\
  holds (fun a u => dget a (reg (fst (pr_to shop (converter "")))) = Some u) t an_order /\ message proto_instant (2 ^ 31) "shop" (body shop) an_order.
Proof.
  destruct C119_case as (t & P & S & E & _ & H). exists t. split; auto. split; auto.
  eapply C120_exact_partial; eauto. constructor.
Qed.
