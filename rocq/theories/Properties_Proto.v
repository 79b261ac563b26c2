(** Property theorems for the Protobuf converter (C41-C46, C82-C87, C89, C90). *)
From Coq Require Import String Ascii List NArith ZArith QArith Bool Lia.
From Verif Require Import PyVal PyValFacts RType Regex RegexFacts Registry SpecTypes FromDict RoundTrip Proto SpecProto ProtoWrite ProtoRead ProtoFrame ProtoShape ProtoTrip ProtoOrder ProtoMean ProtoRefs.
Import ListNotations.
Open Scope nat_scope.
Open Scope string_scope.
Open Scope list_scope.

Definition fld (n ty : string) : element := EField (PStr n) 1 ty (Some Required).
Definition nm (s : string) : common := mkC PNone PNone PNone [("name", PStr s)].
Definition alias (a : string) : common := mkC PNone (PStr a) PNone [].
Definition int32 (s : string) : rtype := TInt (nm s) (PInt 32) (PBool true).
Definition bool_ (s : string) : rtype := TBool (nm s).
Ltac dotfree := let a := fresh in let b := fresh in let E := fresh in let X := fresh in
  intros a b E; assert (X : substr_in "." (a ++ "." ++ b) = true) by (apply ProtoWrite.dot_in); rewrite <- E in X; discriminate X.

(** Existence of a result, without computing its normal form. *)
Definition is_ok {A} (r : res A) : bool := match r with Ok _ => true | Err _ => false end.
Lemma ok_ex {A} (r : res A) : is_ok r = true -> exists a, r = Ok a.
Proof. destruct r; [eauto|discriminate]. Qed.
Lemma ok_and {A} (r : res A) (P : A -> bool) : (match r with Ok a => P a | Err _ => false end) = true -> exists a, r = Ok a /\ P a = true.
Proof. destruct r; [eauto|discriminate]. Qed.

(** ** C41: field numbers are unique within a message *)
(** Missing: structs in which a union of several types is followed by another field. *)
Theorem C41_partial : forall t f, (forall c fs, node_of (TStruct c fs) t -> last_choice fs) ->
  pr_from t = Ok f -> forall m, inside (body f) m -> well_numbered m.
Proof. exact numbers_unique. Qed.
Print Assumptions C41_partial.
Definition choice_ (s : string) : rtype := TUnion (nm s) [TNull c0; bool_ "a"; int32 "b"].
Definition ends_with_choice : rtype := TStruct (alias "p.M") [int32 "x"; choice_ "y"].
Example C41_case : exists f, pr_from ends_with_choice = Ok f /\
  (forall c fs, node_of (TStruct c fs) ends_with_choice -> last_choice fs) /\
  exists m, inside (body f) m /\ flat_map numbers m = [1; 2; 3].
Proof.
  eexists. split; [vm_compute; reflexivity|]. split.
  - intros c fs N. inversion N as [|? x I N']; subst.
    + assert (P : forall s, plain (int32 s)) by (intros; apply plain_other; intros; discriminate).
      assert (B : forall s, plain (bool_ s)) by (intros; apply plain_other; intros; discriminate).
      exists [int32 "x"]. split; [|constructor; [apply P|constructor]]. right. eexists _, _, _. split; [reflexivity|]. split; [reflexivity|].
      constructor; [apply plain_other; intros; discriminate|]. constructor; [apply B|]. constructor; [apply P|constructor].
    + exfalso. destruct I as [<-|[<-|[]]].
      * inversion N' as [|? ? I0 ?]. destruct I0.
      * inversion N' as [|? x I N2]; subst. destruct I as [<-|[<-|[<-|[]]]]; inversion N2 as [|? ? I0 ?]; destruct I0.
  - eexists. split; [eapply inside_here; left; reflexivity|reflexivity].
Qed.
(** Whenever a union of several types is followed by a field, two numbers are the same. *)
Theorem C41_refuted : forall t f p a l c ts x r, pr_from t = Ok f -> first_package f = Some p ->
  placed t p a (l ++ TUnion c ts :: x :: r) -> Forall plain l -> Forall plain ts ->
  2 <= length (filter (fun y => negb (nulls y)) ts) -> plain x ->
  exists m, message_of f a m /\ ~ NoDup (flat_map numbers m).
Proof. exact clash_written. Qed.
Print Assumptions C41_refuted.
Definition starts_with_choice : rtype := TStruct (alias "p.M") [choice_ "y"; int32 "x"].
Lemma placed_top c fs p n : c_alias c = PStr (p ++ "." ++ n) -> dotless n -> placed (TStruct c fs) p (p ++ "." ++ n) fs.
Proof. intros A D. exists c, p, n. split; [constructor|]. split; [exact A|]. split; [reflexivity|]. split; [exact D|constructor]. Qed.
Example C41_refuted_case : exists f, pr_from starts_with_choice = Ok f /\ first_package f = Some "p" /\
  placed starts_with_choice "p" "p.M" ([] ++ choice_ "y" :: int32 "x" :: []) /\
  exists n m, body f = [EMessage n m] /\ flat_map numbers m = [1; 2; 2].
Proof.
  eexists. split; [vm_compute; reflexivity|]. split; [reflexivity|]. split; [apply (placed_top _ _ "p" "M"); [reflexivity|dotfree]|].
  eexists _, _. split; reflexivity.
Qed.

(** ** C42: lists stay repeated *)
(** Missing: lists that can be null. *)
Theorem C42_partial : forall t f p a fs, pr_from t = Ok f -> first_package f = Some p -> placed t p a fs ->
  exists m, message_of f a m /\ Forall2 (fun x e => list_type x -> exists nm n ty, e = EField nm n ty (Some Repeated)) fs m.
Proof. exact lists_repeated. Qed.
Print Assumptions C42_partial.
(** Every nullable list becomes an optional single value. *)
Theorem C42_refuted : forall t f p a fs, pr_from t = Ok f -> first_package f = Some p -> placed t p a fs ->
  exists m, message_of f a m /\
    Forall2 (fun x e => (exists y, just x y /\ list_type y) -> exists nm n ty, e = EField nm n ty (Some Optional)) fs m.
Proof. exact nullable_lists_lost. Qed.
Print Assumptions C42_refuted.
Definition list_of (t : rtype) (s : string) : rtype := TList (nm s) t PNone (PBool true).
Definition lists : rtype := TStruct (alias "p.M") [list_of (int32 "x") "x"; TUnion (nm "y") [TNull c0; list_of (int32 "y") "y"]].
Example C42_case : pr_from lists = Ok [FPackage "p"; FElement (EMessage "M"
    [EField (PStr "x") 1 "int32" (Some Repeated); EField (PStr "y") 2 "int32" (Some Optional)])] /\
  (exists fs, placed lists "p" "p.M" fs) /\
  just (TUnion (nm "y") [TNull c0; list_of (int32 "y") "y"]) (list_of (int32 "y") "y").
Proof.
  split; [vm_compute; reflexivity|]. split; [eexists; apply (placed_top _ _ "p" "M"); [reflexivity|dotfree]|]. eexists _, _. split; reflexivity.
Qed.

(** ** C43: what was read can be written *)
(** Missing: files with strings, bytes or maps, and dots in names of messages. *)
Theorem C43_partial : forall l p ns t, first_package l = Some p -> Forall rewritable (body l) ->
  snd (pr_to l (converter ns)) = Ok t -> exists els, pr_from t = Ok (FPackage p :: map FElement els).
Proof. exact read_then_write. Qed.
Print Assumptions C43_partial.
Definition tree : list felement :=
  [FPackage "p"; FElement (EMessage "Node" [fld "v" "int64"; EField (PStr "l") 2 "Node" None; EField (PStr "c") 3 "Color" (Some Repeated);
     EOneOf (PStr "o") [fld "d" "double"; fld "e" "Color"]; EEnum "Color" [(PStr "RED", 0%Z); (PStr "BLUE", 1%Z)]])].
Example C43_case : first_package tree = Some "p" /\ Forall rewritable (body tree) /\
  exists t f, snd (pr_to tree (converter "_root")) = Ok t /\ pr_from t = Ok f.
Proof.
  split; [reflexivity|]. split; [repeat constructor; try discriminate; dotfree|].
  destruct (ok_and (snd (pr_to tree (converter "_root"))) (fun t => is_ok (pr_from t))) as (t & E & F); [vm_compute; reflexivity|].
  destruct (ok_ex _ F) as [f Ef]. eauto.
Qed.
(** A first message with a string, bytes or map field is read but never written. *)
Theorem C43_refuted : forall l p s t, first_package l = Some p -> snd (pr_to l s) = Ok t ->
  (exists n els, first_message (body l) = Some (n, els) /\ Exists unwritable els) -> exists e, pr_from t = Err e.
Proof. exact not_written. Qed.
Print Assumptions C43_refuted.
Definition with_string : list felement := [FPackage "p"; FElement (EMessage "M" [fld "i" "int32"; fld "s" "string"])].
Example C43_refuted_case : exists t, snd (pr_to with_string (converter "_root")) = Ok t /\ pr_from t = Err ValueError /\
  exists n els, first_message (body with_string) = Some (n, els) /\ Exists unwritable els.
Proof.
  eexists. split; [vm_compute; reflexivity|]. split; [vm_compute; reflexivity|]. eexists _, _. split; [reflexivity|].
  apply Exists_cons_tl, Exists_cons_hd. now left.
Qed.

(** ** C44: every struct and enum is declared *)
(** Missing: aliases with a package that is neither that of the file nor a struct of the type. *)
Theorem C44_partial : forall t p els s q n, pr_from t = Ok (FPackage p :: map FElement els) -> node_of s t ->
  (exists c x, s = TStruct c x) \/ (exists c x, s = TEnum c x) -> aliased s (q ++ "." ++ n) -> dotless n -> rooted t p q ->
  declares (FPackage p :: map FElement els) (q ++ "." ++ n).
Proof. exact declared_rooted. Qed.
Print Assumptions C44_partial.
Definition enum_ (a s : string) : rtype := TEnum (mkC PNone (PStr a) PNone [("name", PStr s)]) (PList [PStr "A"; PStr "B"]).
Definition nested : rtype := TStruct (alias "p.M") [enum_ "p.M.E" "e"; bool_ "b"].
Example C44_case : pr_from nested = Ok (FPackage "p" :: map FElement [EMessage "M"
    [EField (PStr "e") 1 ".p.M.E" None; EField (PStr "b") 2 "bool" None; EEnum "E" [(PStr "A", 0%Z); (PStr "B", 1%Z)]]]) /\
  node_of (enum_ "p.M.E" "e") nested /\ rooted nested "p" "p.M" /\ dotless "E".
Proof.
  split; [vm_compute; reflexivity|]. split; [eapply node_child; [left; reflexivity|constructor]|]. split; [|dotfree].
  apply (rooted_in nested "p" "p" "M"); [constructor|dotfree|]. eexists _, _. split; [constructor|reflexivity].
Qed.
Definition apart : rtype := TStruct (alias "p.M") [enum_ "p.q.E" "e"].
(** An enum of another package is used but not declared. *)
Theorem C44_refuted : exists f, pr_from apart = Ok f /\ node_of (enum_ "p.q.E" "e") apart /\ aliased (enum_ "p.q.E" "e") "p.q.E" /\
  f = [FPackage "p"; FElement (EMessage "M" [EField (PStr "e") 1 ".p.q.E" None])] /\ ~ declares f "p.q.E".
Proof.
  eexists. split; [vm_compute; reflexivity|]. split; [eapply node_child; [left; reflexivity|constructor]|]. split; [reflexivity|].
  split; [reflexivity|]. intros (p & els & q & els' & n & E & S & A & D).
  destruct els as [|x [|y els]]; try discriminate. injection E as <- <-.
  assert (X : (q = "p" /\ els' = [EMessage "M" [EField (PStr "e") 1 ".p.q.E" None]]) \/ (q = "p.M" /\ els' = [EField (PStr "e") 1 ".p.q.E" None])).
  { clear A D. induction S as [|q els' n' m S IH I]; [auto|]. right. destruct IH as [[-> ->]|[-> ->]]; destruct I as [I|[]]; [|discriminate].
    injection I as <- <-. auto. }
  destruct X as [[-> ->]|[-> ->]]; destruct D as [[m [D|[]]]|[m [D|[]]]]; try discriminate. injection D as <- <-. discriminate.
Qed.
Print Assumptions C44_refuted.

(** ** C45: reading terminates *)
(** After any history of calls, on any file. *)
Theorem C45_to_terminates : forall l s, reached s -> snd (pr_to l s) <> Err OutOfFuel.
Proof. intros l s R. exact (to_terminates l s (reached_settled s R)). Qed.
Print Assumptions C45_to_terminates.
Definition mutual : list felement :=
  [FPackage "p"; FElement (EMessage "A" [fld "b" "B"]); FElement (EMessage "B" [fld "a" "A"; fld "b" "B"])].
Example C45_case : exists t, snd (pr_to mutual (converter "_root")) = Ok t /\ reached (fst (pr_to mutual (converter "_root"))).
Proof. destruct (ok_ex (snd (pr_to mutual (converter "_root")))) as [t E]; [vm_compute; reflexivity|]. exists t. split; [exact E|]. repeat constructor. Qed.

(** ** C46: a converter can be used repeatedly *)
(** Missing: files without a package statement.  References are compared by name, since each
    answer keeps the registry of its own call. *)
Theorem C46_partial : forall ns (files : list (string * list felement)),
  Forall (fun f => first_package (snd f) = Some (fst f)) files ->
  NoDup (flat_map (fun f => full_names (fst f) (snd f)) files) ->
  Forall (fun f => exists t, snd (pr_to (snd f) (converter ns)) = Ok t) files ->
  Forall2 (fun f r => exists t t', snd (pr_to (snd f) (converter ns)) = Ok t /\ r = Ok t' /\ by_name t' = by_name t)
    files (answers (converter ns) (map snd files)).
Proof. exact reuse_all. Qed.
Print Assumptions C46_partial.
Definition three : list (string * list felement) :=
  [("p", mutual); ("p", [FPackage "p"; FElement (EMessage "C" [fld "x" "C"])]); ("q", [FPackage "q"; FElement (EMessage "A" [fld "i" "int32"])])].
Example C46_case : Forall (fun f => first_package (snd f) = Some (fst f)) three /\
  NoDup (flat_map (fun f => full_names (fst f) (snd f)) three) /\
  Forall (fun f => exists t, snd (pr_to (snd f) (converter "_root")) = Ok t) three.
Proof.
  split; [repeat constructor|]. split.
  - vm_compute. repeat constructor; cbn; intuition discriminate.
  - repeat constructor; apply ok_ex; vm_compute; reflexivity.
Qed.
(** Of two files without a package statement the second is always rejected. *)
Theorem C46_refuted : forall ns l1 l2 t, first_package l1 = None -> first_package l2 = None -> snd (pr_to l1 (converter ns)) = Ok t ->
  exists e, snd (pr_to l2 (fst (pr_to l1 (converter ns)))) = Err e.
Proof. exact second_fails. Qed.
Print Assumptions C46_refuted.
Example C46_refuted_case : exists t, first_package [FElement (EMessage "A" [fld "i" "int32"])] = None /\
  snd (pr_to [FElement (EMessage "A" [fld "i" "int32"])] (converter "_root")) = Ok t /\
  exists u, snd (pr_to [FElement (EMessage "B" [fld "i" "int32"])] (converter "_root")) = Ok u /\
  answers (converter "_root") [[FElement (EMessage "A" [fld "i" "int32"])]; [FElement (EMessage "B" [fld "i" "int32"])]] = [Ok t; Err IndexError].
Proof. eexists. split; [reflexivity|]. split; [vm_compute; reflexivity|]. eexists. split; vm_compute; reflexivity. Qed.

(** ** C82: field names are kept *)
(** Missing: lists and optional fields, which are named after the type of their values. *)
Theorem C82_partial : forall t f p a fs, pr_from t = Ok f -> first_package f = Some p -> placed t p a fs ->
  exists m, message_of f a m /\
    Forall2 (fun x e => forall nm, has_name x nm -> ~ list_type x -> (forall y, ~ just x y) -> element_name e = Some nm) fs m.
Proof. exact names_written. Qed.
Print Assumptions C82_partial.
(** The name of an optional field is replaced by a number. *)
Theorem C82_refuted : forall t f p a fs, pr_from t = Ok f -> first_package f = Some p -> placed t p a fs ->
  exists m, message_of f a m /\
    Forall2 (fun x e => forall y, just x y -> ~ list_type y -> (forall z, ~ just y z) -> dget "name" (c_extra (get_c y)) = None ->
      exists n, element_name e = Some (PStr ("field_" ++ dec n))) fs m.
Proof. exact nullable_names_lost. Qed.
Print Assumptions C82_refuted.
Definition named : rtype := TStruct (alias "p.M") [bool_ "flag"; TUnion (nm "age") [TNull c0; TInt c0 (PInt 32) (PBool true)];
  list_of (TBool c0) "flags"].
Example C82_case : pr_from named = Ok [FPackage "p"; FElement (EMessage "M"
    [EField (PStr "flag") 1 "bool" None; EField (PStr "field_2") 2 "int32" (Some Optional); EField (PStr "field_3") 3 "bool" (Some Repeated)])] /\
  (exists fs, placed named "p" "p.M" fs) /\ has_name (bool_ "flag") (PStr "flag") /\ ~ list_type (bool_ "flag") /\ (forall y, ~ just (bool_ "flag") y).
Proof.
  split; [vm_compute; reflexivity|]. split; [eexists; apply (placed_top _ _ "p" "M"); [reflexivity|dotfree]|]. split; [reflexivity|]. split.
  - intros (c & v & l & va & E). discriminate.
  - intros y (c & ts & E & _). discriminate.
Qed.

(** ** C83: a file whose references are declared in it is read *)
(** Missing: messages other than the first that refer to later ones, messages with the same
    simple name in different outer messages, and maps with bool keys. *)
Theorem C83_partial : forall l p n els s, reached s -> first_package l = Some p -> first_message (body l) = Some (n, els) ->
  Forall good_keys (body l) -> NoDup (full_names p l) -> Forall dotted_name (full_names p l) ->
  (forall a, In a (full_names p l) -> ~ In a (dkeys (reg s))) ->
  self_contained p l -> backward (p ++ "." ++ n)%string [] (flat_map (declarations p) (body l)) -> exists t, snd (pr_to l s) = Ok t.
Proof. exact references_found. Qed.
Print Assumptions C83_partial.
Definition ordered : list felement :=
  [FPackage "p.q"; FElement (EMessage "Order" [fld "c" "Customer"; EMapField (PStr "m") 2 "string" "p.q.Item"; EEnum "State" [(PStr "NEW", 0%Z)]]);
   FElement (EMessage "Item" [fld "s" "State"; fld "o" "Order"; fld "i" "Item"]);
   FElement (EMessage "Customer" [EField (PStr "last") 1 "Item" None])].
Example C83_case : first_package ordered = Some "p.q" /\ (exists n els, first_message (body ordered) = Some (n, els) /\
    backward ("p.q" ++ "." ++ n)%string [] (flat_map (declarations "p.q") (body ordered))) /\
  Forall good_keys (body ordered) /\ NoDup (full_names "p.q" ordered) /\ Forall dotted_name (full_names "p.q" ordered) /\
  (forall a, In a (full_names "p.q" ordered) -> ~ In a (dkeys (reg (converter "_root")))) /\ self_contained "p.q" ordered.
Proof.
  split; [reflexivity|]. split.
  { eexists _, _. split; [reflexivity|]. cbn. repeat split; auto; right; repeat (apply Forall_cons || apply Forall_nil); cbn; auto 8. }
  split; [repeat constructor; auto|]. split; [repeat constructor; cbn; intuition discriminate|]. split.
  { repeat constructor; apply alias_regex_spec; vm_compute; reflexivity. }
  split.
  { intros a I J. cbn in I. repeat (destruct I as [<-|I]; [vm_compute in J; intuition discriminate|]). exact I. }
  intros n refs a I J. cbn in I. repeat (destruct I as [E|I]; [injection E as <- <-; cbn in J; cbn; intuition (subst; auto 8)|]). destruct I.
Qed.
(** Each message refers to the next one: the first can be followed once only. *)
Definition chain : list felement :=
  [FPackage "p"; FElement (EMessage "A" [fld "b" "B"]); FElement (EMessage "B" [fld "c" "C"]); FElement (EMessage "C" [fld "i" "int32"])].
Theorem C83_order_refuted : first_package chain = Some "p" /\ Forall good_keys (body chain) /\ NoDup (full_names "p" chain) /\
  Forall dotted_name (full_names "p" chain) /\ self_contained "p" chain /\ snd (pr_to chain (converter "_root")) = Err TypeError.
Proof.
  split; [reflexivity|]. split; [repeat constructor|]. split; [repeat constructor; cbn; intuition discriminate|].
  split; [repeat constructor; apply alias_regex_spec; vm_compute; reflexivity|]. split; [|vm_compute; reflexivity].
  intros n refs a I J. cbn in I. repeat (destruct I as [E|I]; [injection E as <- <-; cbn in J; cbn; intuition (subst; auto 8)|]). destruct I.
Qed.
Print Assumptions C83_order_refuted.
(** The names of inner messages count without that of the outer one: a file that has one twice is never read. *)
Theorem C83_nested_names_refuted : forall l p s t, first_package l = Some p -> snd (pr_to l s) = Ok t -> NoDup (full_names p l).
Proof. intros l p s t P H. exact (proj1 (names_once l p s t P H)). Qed.
Print Assumptions C83_nested_names_refuted.
Definition siblings : list felement :=
  [FPackage "p"; FElement (EMessage "A" [EMessage "Item" [fld "i" "int32"]]); FElement (EMessage "B" [EMessage "Item" [fld "b" "bool"]])].
Example C83_nested_names_case : full_names "p" siblings = ["p.A"; "p.Item"; "p.B"; "p.Item"] /\
  snd (pr_to siblings (converter "_root")) = Err ValueError.
Proof. split; vm_compute; reflexivity. Qed.
Theorem C83_bool_key_refuted : snd (pr_to [FPackage "p"; FElement (EMessage "A" [EMapField (PStr "m") 1 "bool" "int32"])] (converter "_root")) = Err AssertionError.
Proof. vm_compute. reflexivity. Qed.
Print Assumptions C83_bool_key_refuted.

(** ** C84: integers keep their range *)
Theorem C84_write : forall t f p a fs, pr_from t = Ok f -> first_package f = Some p -> placed t p a fs ->
  exists m, message_of f a m /\
    Forall2 (fun x e => forall c b s, x = TInt c (PInt b) (PBool s) -> (0 < b)%Z ->
      exists nm n ty r, e = EField nm n ty None /\ proto_range ty = Some r /\ within (recap_range b s) r) fs m.
Proof. exact ranges_written. Qed.
Print Assumptions C84_write.
Definition integers : rtype := TStruct (alias "p.M") [TInt (nm "a") (PInt 8) (PBool false); TInt (nm "b") (PInt 33) (PBool true)].
Example C84_case : pr_from integers = Ok [FPackage "p"; FElement (EMessage "M" [EField (PStr "a") 1 "uint32" None; EField (PStr "b") 2 "int64" None])] /\
  exists fs, placed integers "p" "p.M" fs.
Proof. split; [vm_compute; reflexivity|]. eexists. apply (placed_top _ _ "p" "M"); [reflexivity|dotfree]. Qed.

(** ** C85: a message becomes the struct with its fields *)
(** The first message is the one that is returned.  Names, order, types, labels and defaults of
    its fields; [field_reads] says what each becomes. *)
Theorem C85_first_message : forall l p s t, first_package l = Some p -> snd (pr_to l s) = Ok t ->
  exists n els c fs, first_message (body l) = Some (n, els) /\ t = TStruct c fs /\ aliased t (p ++ "." ++ n)%string /\
    Forall2 (field_reads p) (filter is_member els) fs.
Proof. exact first_message_read. Qed.
Print Assumptions C85_first_message.
Definition kinds : list felement :=
  [FPackage "p"; FElement (EMessage "M" [EField (PStr "s") 1 "string" (Some Repeated); EField (PStr "u") 2 "uint64" (Some Optional);
     EMapField (PStr "m") 3 "int32" "M"; EOneOf (PStr "o") [fld "f" "float"; fld "y" "bytes"]; EField (PStr "n") 6 "google.protobuf.NullValue" None;
     EField (PStr "t") 7 "google.protobuf.Timestamp" (Some Required)])].
Example C85_case : exists c fs, snd (pr_to kinds (converter "_root")) = Ok (TStruct c fs) /\ length fs = 6 /\
  nth_error fs 1 = Some (TUnion (mkC PNone PNone PNone [("default", PNone); ("name", PStr "u")]) [TNull c0; TInt c0 (PInt 64) (PBool false)]).
Proof. eexists _, _. split; [vm_compute; reflexivity|]. split; reflexivity. Qed.

(** ** C86: a struct becomes the message with its fields *)
(** Missing: lists and unions inside lists, maps and unions. *)
Theorem C86_partial : forall t f p a fs, Forall simple_field fs -> pr_from t = Ok f -> first_package f = Some p -> placed t p a fs ->
  exists m, message_of f a m /\ Forall2 field_writes fs m.
Proof. exact fields_mean. Qed.
Print Assumptions C86_partial.
Definition str (s : string) : rtype := TString (nm s) (PInt 100) (PBool true).
Definition wide : rtype := TStruct (alias "p.M")
  [str "s"; list_of (int32 "l") "l"; TMap (nm "m") (str "k") (TFloat c0 (PInt 64)); TUnion (nm "u") [TNull c0; bool_ "u"]; choice_ "c"].
Example C86_case : exists f fs, pr_from wide = Ok f /\ first_package f = Some "p" /\ placed wide "p" "p.M" fs /\ Forall simple_field fs /\ length fs = 5.
Proof.
  eexists _, _. split; [vm_compute; reflexivity|]. split; [reflexivity|]. split; [apply (placed_top _ _ "p" "M"); [reflexivity|dotfree]|].
  split; [|reflexivity].
  assert (S : forall s, simple (str s)) by (split; [exact Logic.I|eexists; reflexivity]).
  assert (N : forall s, simple (int32 s)) by (split; [exact Logic.I|split; [exists 32%Z; split; [reflexivity|lia]|eexists; reflexivity]]).
  assert (B : forall s, simple (bool_ s)) by (split; exact Logic.I).
  repeat (apply Forall_cons || apply Forall_nil); cbn [simple_field nulls]; auto; try (apply S || apply N).
  - split; [apply S|]. split; [exact Logic.I|eexists; reflexivity].
Qed.
(** A list of lists and a list of their elements give the same file, and so do a map to lists and
    a map to their elements. *)
Theorem C86_lists_refuted : forall c l c1 c2 v n1 v1 n2 v2 r,
  pr_from (TStruct c (l ++ TList c1 (TList c2 v n2 v2) n1 v1 :: r)) = pr_from (TStruct c (l ++ TList c1 v n1 v1 :: r)).
Proof. exact list_of_lists. Qed.
Print Assumptions C86_lists_refuted.
Theorem C86_maps_refuted : forall c l c1 c2 k v n2 v2 r,
  pr_from (TStruct c (l ++ TMap c1 k (TList c2 v n2 v2) :: r)) = pr_from (TStruct c (l ++ TMap c1 k v :: r)).
Proof. exact map_of_lists. Qed.
Print Assumptions C86_maps_refuted.
Example C86_refuted_case : pr_from (TStruct (alias "p.M") [list_of (list_of (int32 "x") "x") "x"; TMap (nm "m") (str "k") (list_of (bool_ "b") "b")]) =
  Ok [FPackage "p"; FElement (EMessage "M" [EField (PStr "x") 1 "int32" (Some Repeated); EMapField (PStr "m") 2 "string" "bool"])].
Proof. vm_compute. reflexivity. Qed.

(** ** C87: a rejected file does not affect later ones *)
(** Missing: later files without package statement, or with a name that the rejected file declared. *)
Theorem C87_partial : forall l0 s0 ns l p t, reached s0 -> first_package l = Some p ->
  (forall a, In a (full_names p l) -> ~ In a (dkeys (reg (fst (pr_to l0 s0))))) -> snd (pr_to l (converter ns)) = Ok t ->
  exists t', snd (pr_to l (fst (pr_to l0 s0))) = Ok t' /\ by_name t' = by_name t.
Proof. exact after_rejected. Qed.
Print Assumptions C87_partial.
Definition broken : list felement := [FPackage "p"; FElement (EMessage "A" [fld "b" "bool"; fld "x" "Missing"])].
Definition other : list felement := [FPackage "p"; FElement (EMessage "B" [fld "b" "bool"])].
Example C87_case : snd (pr_to broken (converter "_root")) = Err TypeError /\ exists t, snd (pr_to other (converter "_root")) = Ok t /\
  forall a, In a (full_names "p" other) -> ~ In a (dkeys (reg (fst (pr_to broken (converter "_root"))))).
Proof.
  split; [vm_compute; reflexivity|]. eexists. split; [vm_compute; reflexivity|]. intros a I J. cbn in I. destruct I as [<-|[]].
  vm_compute in J. intuition discriminate.
Qed.
(** A file that is rejected while it is parsed leaves its package behind: it is then the package
    of the next file that has none. *)
Theorem C87_refuted : forall l p s e, first_package l = Some p -> snd (pr_parse l s) = Err e -> spaces (fst (pr_to l s)) = spaces s ++ [p].
Proof. exact package_leaks. Qed.
Print Assumptions C87_refuted.
Example C87_refuted_case :
  let bad := [FPackage "p"; FElement (EMessage "A" [EMapField (PStr "m") 1 "bool" "bool"])] in
  let good := [FElement (EMessage "B" [fld "b" "bool"])] in
  snd (pr_parse bad (converter "_root")) = Err AssertionError /\
  (exists t, snd (pr_to good (converter "_root")) = Ok t /\ aliased t "_root.B") /\
  (exists t, snd (pr_to good (fst (pr_to bad (converter "_root")))) = Ok t /\ aliased t "p.B").
Proof. cbv zeta. split; [vm_compute; reflexivity|]. split; eexists; (split; [vm_compute; reflexivity|reflexivity]). Qed.
(** A corrected file cannot be read: the names of the rejected one are taken. *)
Theorem C87_names_refuted : forall l p s t, first_package l = Some p -> snd (pr_to l s) = Ok t ->
  forall a, In a (full_names p l) -> ~ In a (dkeys (reg s)).
Proof. intros l p s t P H. exact (proj2 (names_once l p s t P H)). Qed.
Print Assumptions C87_names_refuted.
Example C87_names_case : In "p.A" (dkeys (reg (fst (pr_to broken (converter "_root"))))) /\
  answers (converter "_root") [broken; [FPackage "p"; FElement (EMessage "A" [fld "b" "bool"])]] = [Err TypeError; Err ValueError].
Proof. split; vm_compute; auto 80. Qed.

(** ** C89: nothing is left to look up *)
Theorem C89_complete : forall l s t, reached s -> snd (pr_to l s) = Ok t ->
  forall c o, node_of (TProxy c o) t -> exists a, c_alias c = PStr a /\ written_out t a.
Proof. exact nothing_missing. Qed.
Print Assumptions C89_complete.
(** A recursive message with two references to a message that refers to it and, twice, to an enum. *)
Definition graph : list felement :=
  [FPackage "p"; FElement (EMessage "M" [fld "m" "M"; fld "x" "A"; EMapField (PStr "y") 3 "int32" "A"]);
   FElement (EEnum "E" [(PStr "U", 0%Z)]); FElement (EMessage "A" [fld "e" "E"; fld "m" "M"; EField (PStr "b") 3 "E" (Some Repeated)])].
Example C89_case :
  match snd (pr_to graph (converter "_root")) with
  | Ok (TStruct c [TProxy m _; TStruct a [TEnum e _; TProxy m' _; TUnion _ [_; TList _ (TProxy e' _) _ _]];
                   TUnion _ [_; TMap _ _ (TStruct a' [TEnum _ _; TProxy _ _; _])]]) =>
      c_alias c = PStr "p.M" /\ c_alias m = PStr "p.M" /\ c_alias m' = PStr "p.M" /\ c_alias a = PStr "p.A" /\ c_alias a' = PStr "p.A" /\
      c_alias e = PStr "p.E" /\ c_alias e' = PStr "p.E"
  | _ => False
  end.
Proof. vm_compute. repeat split. Qed.

(** ** C90: only recursive references are left *)
(** Missing: references inside a message that has itself been put in place of a reference.  There
    each message is written out once, and left as a reference from then on. *)
Theorem C90_direct_partial : forall l s c fs, reached s -> snd (pr_to l s) = Ok (TStruct c fs) ->
  forall f u c' o, In f fs -> at_hand u f -> node_of (TProxy c' o) u ->
    c_alias c' = c_alias c \/ exists a, c_alias c' = PStr a /\ written_out u a.
Proof. exact locally_complete. Qed.
Print Assumptions C90_direct_partial.
(** In particular, a field of the message itself is a reference only if it is to the message. *)
Theorem C90_fields_partial : forall l s c fs, reached s -> snd (pr_to l s) = Ok (TStruct c fs) ->
  forall f c' o, In f fs -> at_hand (TProxy c' o) f -> c_alias c' = c_alias c.
Proof.
  intros l s c fs RS H f c' o I U. destruct (locally_complete _ _ _ _ RS H f _ c' o I U (node_self _)) as [|(a & A & u & N & P & _)]; auto.
  inversion N as [|t x J _]; subst; [discriminate|destruct J].
Qed.
Print Assumptions C90_fields_partial.
Definition nested_tree : list felement :=
  [FPackage "p"; FElement (EMessage "M" [EField (PStr "m") 1 "M" (Some Repeated); EField (PStr "x") 2 "A" None; EField (PStr "y") 3 "A" None]);
   FElement (EMessage "A" [EField (PStr "a") 1 "A" None; fld "m" "M"])].
Example C90_case :
  match snd (pr_to nested_tree (converter "_root")) with
  | Ok (TStruct c [TUnion _ [_; TList _ (TProxy m _) _ _]; TUnion _ [_; TStruct a [TUnion _ [_; TProxy a' _]; TProxy m' _]]; TUnion _ [_; TStruct _ [_; TProxy _ _]]]) =>
      c_alias c = PStr "p.M" /\ c_alias m = PStr "p.M" /\ c_alias m' = PStr "p.M" /\ c_alias a = PStr "p.A" /\ c_alias a' = PStr "p.A"
  | _ => False
  end.
Proof. vm_compute. repeat split. Qed.
(** The second of two references in such a message is left, although it is not recursive. *)
Definition twice : list felement :=
  [FPackage "p"; FElement (EMessage "M" [fld "a" "A"]); FElement (EMessage "B" [fld "b" "bool"]); FElement (EMessage "A" [fld "x" "B"; fld "y" "B"])].
Theorem C90_refuted : exists l s t c o a, reached s /\ snd (pr_to l s) = Ok t /\ node_of (TProxy c o) t /\ c_alias c = PStr a /\
  forall u, node_of u t -> is_proxy u = false -> aliased u a -> ~ node_of (TProxy c o) u.
Proof.
  exists twice, (converter "_root"). eexists _, _, _, "p.B". split; [constructor|]. split; [vm_compute; reflexivity|].
  split; [eapply node_child; [left; reflexivity|]; eapply node_child; [right; left; reflexivity|]; apply node_self|]. split; [reflexivity|].
  intros u N P A. apply in_parts in N. vm_compute in N.
  repeat (destruct N as [<-|N]; [first [discriminate|intros K; apply in_parts in K; vm_compute in K; intuition discriminate]|]). destruct N.
Qed.
Print Assumptions C90_refuted.
