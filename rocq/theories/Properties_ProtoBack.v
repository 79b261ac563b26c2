(** C122: reading the proto file that was written for a struct. *)
From Coq Require Import String Ascii List NArith ZArith QArith Bool Lia.
From Verif Require Import PyVal Regex RegexFacts RType Registry Url SpecTypes SpecDb SpecInstances SpecRows Proto SpecProto SpecProtoData SpecProtoWritten
  ProtoWrite ProtoMean ProtoFrame ProtoBack.
Import ListNotations.
Open Scope nat_scope.
Open Scope string_scope.
Open Scope list_scope.

(** ** C122: a struct can be read back from the proto file that is written for it *)
(** True when no field refers to a struct or enum: [p ++ "." ++ n] is the full name of the struct. *)
Theorem C122_flat_partial : forall c fs p n f s, reached s -> c_alias c = PStr (p ++ "." ++ n)%string -> dotless n -> dotted_name (p ++ "." ++ n) ->
  pr_from (TStruct c fs) = Ok f -> expressible p (TStruct c fs) -> names_in_place (TStruct c fs) ->
  Forall good_key fs -> Forall (fun x => ~ refers_to_type x) fs -> ~ In (p ++ "." ++ n)%string (dkeys (reg s)) ->
  exists t, snd (pr_to f s) = Ok t /\ aliased t (p ++ "." ++ n) /\
    forall v, holds (named_in (TStruct c fs)) (TStruct c fs) v ->
      holds (fun a u => dget a (reg (fst (pr_to f s))) = Some u) t v.
Proof. exact flat_back. Qed.
Print Assumptions C122_flat_partial.
(** Otherwise the struct is never read back: to_recap raises, or returns another struct. *)
Theorem C122_references_refuted : forall c fs p n f s t, reached s -> c_alias c = PStr (p ++ "." ++ n)%string -> dotless n ->
  pr_from (TStruct c fs) = Ok f -> first_package f = Some p -> Forall simple_field fs -> Exists refers_to_type fs ->
  snd (pr_to f s) = Ok t -> ~ aliased t (p ++ "." ++ n).
Proof. exact references_lost. Qed.
Print Assumptions C122_references_refuted.
(** The reason: from_recap writes full names with a leading dot, and to_recap takes the dot for a part of the name. *)
Theorem C122_leading_dot_refuted : forall l p s n els e a t, reached s -> first_package l = Some p -> first_message (body l) = Some (n, els) ->
  In e els -> In ("." ++ a)%string (mentions e) -> snd (pr_to l s) <> Ok t.
Proof. exact leading_dot. Qed.
Print Assumptions C122_leading_dot_refuted.

Definition nm (s : string) : common := mkC PNone PNone PNone [("name", PStr s)].
Definition alias (a : string) : common := mkC PNone (PStr a) PNone [].
Definition called (a s : string) : common := mkC PNone (PStr a) PNone [("name", PStr s)].
Definition str (s : string) : rtype := TString (nm s) (PInt 100) (PBool true).
Definition item : rtype := TStruct (alias "shop.Item")
  [TInt (nm "id") (PInt 64) (PBool false); TList (nm "tags") (str "tags") PNone (PBool true);
   TMap (nm "prices") (str "k") (TFloat c0 (PInt 64)); TUnion (nm "note") [TNull c0; str "note"];
   TUnion (nm "size") [TInt (nm "number") (PInt 16) (PBool true); str "letter"]].
Definition one_item : datum := DRow
  [("id", DInt (2 ^ 64 - 1)); ("tags", DList [DText "a"; DText "b"]); ("prices", DMap [(DText "EUR", DFloat 1)]);
   ("note", DNull); ("size", DInt (-3))].
Lemma node_all (P : rtype -> Prop) t : P t -> Forall (fun c => forall s, node_of s c -> P s) (children t) -> forall s, node_of s t -> P s.
Proof. intros H F s I. destruct I as [|t c IC I]; [exact H|]. rewrite Forall_forall in F. eauto. Qed.
Lemma dotless_by n : substr_in "." n = false -> dotless n.
Proof. intros E a b ->. now rewrite dot_in in E. Qed.
Ltac dotfree := apply dotless_by; reflexivity.
Ltac every_node := apply node_all; cbn [children]; [|repeat apply Forall_cons; try apply Forall_nil; every_node].
Ltac each H := cbn in H; repeat (destruct H as [H|H]); try contradiction.
Lemma text_simple s : simple (str s).
Proof. split; [exact Logic.I|]. cbn. eauto. Qed.
Lemma struct_fields t x : in_struct t x -> forall P : rtype -> Prop,
  (forall s, node_of s t -> match s with TStruct _ fs => Forall P fs | _ => True end) -> P x.
Proof. intros (c & fs & I & IX) P H. specialize (H _ I). cbn in H. rewrite Forall_forall in H. auto. Qed.
Lemma item_expressible : expressible "shop" item.
Proof.
  constructor.
  - assert (K : forall s, node_of s item -> match s with TStruct c _ | TEnum c _ =>
      exists q n, c_alias c = PStr (q ++ "." ++ n)%string /\ dotless n /\ rooted item "shop" q | _ => True end).
    { every_node; try exact Logic.I. exists "shop", "Item". split; [reflexivity|]. split; [dotfree|constructor]. }
    intros s I [(c & l & ->)|(c & l & ->)]; exact (K _ I).
  - intros x I. apply (struct_fields _ _ I). every_node; try exact Logic.I.
    repeat apply Forall_cons; try apply Forall_nil; cbn [simple_field].
    + split; [exact Logic.I|]. split; [exists 64%Z; split; [reflexivity|lia]|eauto].
    + apply text_simple.
    + split; [apply text_simple|]. split; [exact Logic.I|cbn; eauto].
    + now left.
    + right. apply text_simple.
    + right. split; [exact Logic.I|]. split; [exists 16%Z; split; [reflexivity|lia]|eauto].
    + right. apply text_simple.
  - every_node; first [exact Logic.I | reflexivity].
Qed.
Lemma item_names : names_in_place item.
Proof.
  intros x y n I. apply (struct_fields _ _ I (fun x => carrier x y -> has_name x n -> has_name y n)).
  every_node; try exact Logic.I; repeat apply Forall_cons; try apply Forall_nil; intros C; inversion C as [|? ? (c & ts & E & F)|]; subst; auto.
  all: try discriminate; injection E as <- <-; cbn in F; try discriminate; injection F as <-; auto.
Qed.
Lemma one_item_holds : holds (named_in item) item one_item.
Proof.
  apply h_struct; [reflexivity| |]; intros [|[|[|[|[|[|i]]]]]] f n d; cbn; try (destruct i; discriminate); try discriminate; intros [= <-] [= <- <-]; try reflexivity.
  - constructor; [reflexivity|unfold int_range; lia].
  - constructor; [exact Logic.I|]. intros x IX. each IX; subst; constructor; cbn; lia.
  - constructor; intros a b [[= <- <-]|[]]; [constructor; cbn; lia|]. constructor. right. split; [reflexivity|]. exists 1%Z, 0%Z. repeat split; try lia; reflexivity.
  - eapply h_union; [left; reflexivity|constructor].
  - eapply h_union; [left; reflexivity|]. constructor; [reflexivity|unfold int_range; lia].
Qed.
Example C122_case : exists f t, pr_from item = Ok f /\ holds (named_in item) item one_item /\ snd (pr_to f (converter "_root")) = Ok t /\ aliased t "shop.Item" /\
  holds (fun a u => dget a (reg (fst (pr_to f (converter "_root")))) = Some u) t one_item.
Proof.
  destruct (pr_from item) as [f|e] eqn:E; [|vm_compute in E; discriminate]. exists f.
  destruct (C122_flat_partial (alias "shop.Item") (match item with TStruct _ fs => fs | _ => [] end) "shop" "Item" f (converter "_root")) as (t & T & A & V).
  - constructor.
  - reflexivity.
  - dotfree.
  - apply alias_regex_spec. vm_compute. reflexivity.
  - exact E.
  - exact item_expressible.
  - exact item_names.
  - repeat constructor.
  - cbn [item]. repeat apply Forall_cons; try apply Forall_nil; intros (u & H & N).
    all: repeat (inversion H as [|? ? ? I H1]; subst; clear H; [exact N|]; each I; subst; rename H1 into H).
  - vm_compute. intuition discriminate.
  - exists t. split; [reflexivity|]. split; [exact one_item_holds|]. split; [exact T|]. split; [exact A|]. apply V. exact one_item_holds.
Qed.
(** A recursive struct and one with an inner struct of its own raise TypeError; a struct that contains another one
    of its package is read back as that one. *)
Definition tree : rtype := TStruct (alias "p.Tree") [TProxy (called "p.Tree" "left") None].
Definition nested : rtype := TStruct (alias "p.Outer") [TStruct (called "p.Outer.Inner" "i") [TBool (nm "b")]].
Definition pair : rtype := TStruct (alias "p.Outer") [TStruct (called "p.Inner" "i") [TBool (nm "b")]].
Example C122_references_case :
  (exists f, pr_from tree = Ok f /\ snd (pr_to f (converter "_root")) = Err TypeError) /\
  (exists f, pr_from nested = Ok f /\ snd (pr_to f (converter "_root")) = Err TypeError) /\
  exists f t, pr_from pair = Ok f /\ snd (pr_to f (converter "_root")) = Ok t /\ aliased t "p.Inner".
Proof.
  split; [eexists; split; vm_compute; reflexivity|]. split; [eexists; split; vm_compute; reflexivity|].
  eexists _, _. split; [vm_compute; reflexivity|]. split; [vm_compute; reflexivity|reflexivity].
Qed.
Example C122_references_applies : Forall simple_field [TStruct (called "p.Inner" "i") [TBool (nm "b")]] /\
  Exists refers_to_type [TStruct (called "p.Inner" "i") [TBool (nm "b")]].
Proof. split; [repeat constructor|]. constructor. eexists. split; [constructor|exact Logic.I]. Qed.
(** Maps with other keys are written and cannot be read. *)
Theorem C122_keys_refuted : forall c p n x k v f s, c_alias c = PStr (p ++ "." ++ n)%string -> dotless n ->
  pr_from (TStruct c [TMap x (TBool k) (TBool v)]) = Ok f ->
  Forall simple_field [TMap x (TBool k) (TBool v)] /\ ~ Exists refers_to_type [TMap x (TBool k) (TBool v)] /\ snd (pr_to f s) = Err AssertionError.
Proof.
  intros c p n x k v f s A L H.
  assert (N : Forall (fun x => ~ refers_to_type x) [TMap x (TBool k) (TBool v)]).
  { constructor; [|constructor]. intros (u & U & N). inversion U as [|? ? ? I H1]; subst; [exact N|]. destruct I as [<-|[<-|[]]];
      (inversion H1 as [|? ? ? I' _]; subst; [exact N|destruct I']). }
  split; [repeat constructor|]. split; [intros E; inversion E as [? ? R|? ? R]; subst; [inversion N; auto|inversion R]|].
  destruct (flat_file _ _ _ _ _ A L N H) as (m & W & ->). inversion W as [|? e ? ? [i E] W']; subst. inversion W'; subst. cbn in E. injection E as <-.
  unfold pr_to. erewrite (parse_packaged _ p s); reflexivity.
Qed.
Print Assumptions C122_keys_refuted.
