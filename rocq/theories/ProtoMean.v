(** What the fields of a struct become in the proto file. *)
From Coq Require Import String Ascii List NArith ZArith QArith Bool Lia.
From Verif Require Import PyVal PyValFacts RType Registry Regex FromDict RoundTrip Url Avro SpecAvro AvroProps SpecTypes SpecJson Proto SpecProto ProtoWrite.
Import ListNotations.
Open Scope nat_scope.
Open Scope string_scope.
Open Scope list_scope.

Definition written (t : rtype) (e : element) : Prop := exists n, pr_write t n = Ok e.
Lemma fields_written fs : forall i ed, write_fields fs i = Ok ed -> Forall2 written fs (fst ed).
Proof.
  induction fs as [|x fs IH]; intros i ed H; [injection H as <-; constructor|]. cbn [write_fields] in H.
  apply rbind_Ok in H as (e & W & H). apply rbind_Ok in H as (d & _ & H). apply rbind_Ok in H as (ed' & H' & H). injection H as <-. cbn [fst].
  constructor; [now exists i|eauto].
Qed.
Lemma construct_declares fuel D k p : (forall q e, In (q, e) D -> is_declaration e) -> Forall is_declaration (pr_construct fuel D k p).
Proof.
  intros K. destruct fuel; [constructor|]. cbn [pr_construct]. apply Forall_forall. intros x X. apply in_map_iff in X as (e & <- & I).
  apply in_package_In in I. destruct (K _ _ I) as [(n & m & ->)|(n & v & ->)]; [left|right]; eauto.
Qed.
Lemma concat_repeat_Forall {A} (P : A -> Prop) l k : Forall P l -> Forall P (concat (repeat l k)).
Proof. intros H. apply Forall_forall. intros x X. apply concat_repeat_In in X. rewrite Forall_forall in H. auto. Qed.
(** The message of a struct, as it was gathered. *)
Lemma placed_message t f p a fs : pr_from t = Ok f -> first_package f = Some p -> placed t p a fs ->
  exists ed, write_fields fs 1 = Ok ed /\ message_of f a (fst ed).
Proof.
  intros H P (c & q & n & N & A & -> & L & Q). apply pr_from_inv in H as (D & p' & G & _ & _ & ->). injection P as ->.
  destruct (scope_rooted _ _ _ _ G Q) as (els & fuel & k & S & I & Kp & F). destruct (gather_node _ _ N _ G) as (d & Gd & Sd).
  rewrite gather_struct, A, dot_in, rsplit_app in Gd by auto. apply rbind_Ok in Gd as (ed & W & E). injection E as <-.
  exists ed. split; auto. assert (M : In (q, EMessage n (fst ed)) D) by (apply Sd, in_or_app; right; now left).
  pose proof (bound_package _ _ _ M) as B. destruct fuel as [|fuel]; [lia|]. pose proof (construct_In fuel D k q _ M) as C. cbn beta iota in C.
  eexists p, _, q, els, n, _. split; [reflexivity|]. split; [exact S|]. split; [reflexivity|]. split; [apply I; exact C|].
  apply concat_repeat_Forall, construct_declares. intros; eapply gather_kinds; eauto.
Qed.
Theorem struct_message t f p a fs : pr_from t = Ok f -> first_package f = Some p -> placed t p a fs ->
  exists m, message_of f a m /\ Forall2 written fs m.
Proof. intros H P Q. destruct (placed_message _ _ _ _ _ H P Q) as (ed & W & M). exists (fst ed). split; auto. eapply fields_written; eauto. Qed.
Lemma Forall2_imp {A B} (P Q : A -> B -> Prop) l l' : (forall a b, In a l -> P a b -> Q a b) -> Forall2 P l l' -> Forall2 Q l l'.
Proof. intros H F. induction F; constructor; [apply H; auto; now left|]. apply IHF. intros; apply H; auto. now right. Qed.
Lemma struct_message_imp (Q : rtype -> element -> Prop) t f p a fs : (forall x e, In x fs -> written x e -> Q x e) ->
  pr_from t = Ok f -> first_package f = Some p -> placed t p a fs -> exists m, message_of f a m /\ Forall2 Q fs m.
Proof. intros I H P R. destruct (struct_message _ _ _ _ _ H P R) as (m & M & F). exists m. split; auto. eapply Forall2_imp; eauto. Qed.

(** C41 refuted: a choice before another field. *)
Theorem clash_written t f p a l c ts x r : pr_from t = Ok f -> first_package f = Some p -> placed t p a (l ++ TUnion c ts :: x :: r) ->
  Forall plain l -> Forall plain ts -> 2 <= length (filter (fun y => negb (nulls y)) ts) -> plain x ->
  exists m, message_of f a m /\ ~ NoDup (flat_map numbers m).
Proof.
  intros H P R F FT L PX. destruct (placed_message _ _ _ _ _ H P R) as (ed & W & M). exists (fst ed). split; auto.
  exact (numbers_clash _ _ _ _ _ _ F FT L PX W).
Qed.
(** C42 *)
Theorem lists_repeated t f p a fs : pr_from t = Ok f -> first_package f = Some p -> placed t p a fs ->
  exists m, message_of f a m /\ Forall2 (fun x e => list_type x -> exists nm n ty, e = EField nm n ty (Some Repeated)) fs m.
Proof.
  apply struct_message_imp. intros x e _ [n W] (c & v & l & va & ->). destruct (list_repeated _ _ _ _ _ _ W) as (nm & ty & ->). eauto.
Qed.
Theorem nullable_lists_lost t f p a fs : pr_from t = Ok f -> first_package f = Some p -> placed t p a fs ->
  exists m, message_of f a m /\
    Forall2 (fun x e => (exists y, just x y /\ list_type y) -> exists nm n ty, e = EField nm n ty (Some Optional)) fs m.
Proof.
  apply struct_message_imp. intros x e _ [n W] (y & J & c & v & l & va & ->). eapply nullable_list_lost; eauto.
Qed.
(** C82 *)
Theorem names_written t f p a fs : pr_from t = Ok f -> first_package f = Some p -> placed t p a fs ->
  exists m, message_of f a m /\
    Forall2 (fun x e => forall nm, has_name x nm -> ~ list_type x -> (forall y, ~ just x y) -> element_name e = Some nm) fs m.
Proof.
  apply struct_message_imp. intros x e _ [n W] nm N NL NJ. eapply names_kept; eauto. intros c v l va ->. apply NL. unfold list_type. eauto.
Qed.
Theorem nullable_names_lost t f p a fs : pr_from t = Ok f -> first_package f = Some p -> placed t p a fs ->
  exists m, message_of f a m /\
    Forall2 (fun x e => forall y, just x y -> ~ list_type y -> (forall z, ~ just y z) -> dget "name" (c_extra (get_c y)) = None ->
      exists n, element_name e = Some (PStr ("field_" ++ dec n))) fs m.
Proof.
  apply struct_message_imp. intros x e _ [n W] y J NL NJ N. exists n. eapply nullable_name_lost; eauto. intros c v l va ->. apply NL. unfold list_type. eauto.
Qed.
(** C84 *)
Theorem ranges_written t f p a fs : pr_from t = Ok f -> first_package f = Some p -> placed t p a fs ->
  exists m, message_of f a m /\
    Forall2 (fun x e => forall c b s, x = TInt c (PInt b) (PBool s) -> (0 < b)%Z ->
      exists nm n ty r, e = EField nm n ty None /\ proto_range ty = Some r /\ within (recap_range b s) r) fs m.
Proof.
  apply struct_message_imp. intros x e _ [n W] c b s -> B. destruct (write_range _ _ _ _ _ B W) as (nm & ty & r & E & K). exists nm, n, ty, r. auto.
Qed.
(** C86 *)
Lemma simple_written t n e : simple t -> pr_write t n = Ok e -> exists ty, e = EField (field_name t n) n ty None /\ scalar_writes t ty.
Proof.
  intros [S T] W. destruct t as [c|c|c b s|c b|c b v|c b v|c v l va|c k v|c fs|c s|c ts|c rg]; try destruct S; cbn [typed] in T.
  - injection W as <-. eexists. split; [reflexivity|constructor].
  - injection W as <-. eexists. split; [reflexivity|constructor].
  - destruct T as [(z & -> & Z) (g & ->)]. destruct (write_range _ _ _ _ _ Z W) as (nm & ty & r & E & R & I).
    exists ty. split; [|econstructor; eauto]. rewrite E. f_equal. rewrite E in W. cbn [pr_write int_of] in W.
    destruct g; repeat (match type of W with (if ?x then _ else _) = _ => destruct x end; try discriminate); now injection W.
  - destruct T as [z ->]. cbn [pr_write int_of] in W. destruct (Z.leb_spec z 32); [|destruct (Z.leb_spec z 64); [|discriminate]];
      injection W as <-; eexists; (split; [reflexivity|]); [apply writes_float|apply writes_double]; lia.
  - destruct T as [z ->]. cbn [pr_write int_of] in W. destruct (Z.leb_spec z 2147483647); [|discriminate].
    injection W as <-; eexists; (split; [reflexivity|]). constructor. change (2 ^ 31)%Z with 2147483648%Z. lia.
  - destruct T as [z ->]. cbn [pr_write int_of] in W. destruct (Z.leb_spec z 2147483647); [|discriminate].
    injection W as <-; eexists; (split; [reflexivity|]). constructor. change (2 ^ 31)%Z with 2147483648%Z. lia.
  - cbn [pr_write] in W. destruct (c_alias c) eqn:A; try discriminate. injection W as <-. eexists. split; [reflexivity|now constructor].
  - cbn [pr_write] in W. destruct (c_alias c) eqn:A; try discriminate. injection W as <-. eexists. split; [reflexivity|now constructor].
  - cbn [pr_write] in W. destruct (c_alias c) eqn:A; try discriminate. injection W as <-. eexists. split; [reflexivity|now constructor].
Qed.
Lemma members_written ts : Forall (fun x => nulls x = true \/ simple x) ts -> forall n fs, write_all ts n = Ok fs ->
  Forall2 (fun x e => exists nm n ty, e = EField nm n ty None /\ scalar_writes x ty) (filter (fun y => negb (nulls y)) ts) fs.
Proof.
  induction 1 as [|x ts Hx _ IH]; intros n fs W; cbn [write_all filter] in *; [injection W as <-; constructor|].
  change (is_null x) with (nulls x) in W. destruct (nulls x) eqn:N; cbn [negb]; [eauto|]. destruct Hx as [Hx|Hx]; [discriminate|].
  apply rbind_Ok in W as (f & Wf & W). apply rbind_Ok in W as (fs' & W' & W). injection W as <-. constructor; [|eauto].
  destruct (simple_written _ _ _ Hx Wf) as (ty & -> & T). eauto 6.
Qed.
Lemma field_mean x e : simple_field x -> written x e -> field_writes x e.
Proof.
  intros SF [n W].
  assert (B : simple x -> field_writes x e).
  { intros S. destruct (simple_written _ _ _ S W) as (ty & -> & T). apply writes_one; auto. apply S. }
  destruct x as [c|c|c b s|c b|c b v|c b v|c v l va|c k v|c gs|c s|c ts|c rg]; auto; cbn [simple_field] in SF.
  - destruct (write_list _ _ _ _ _ _ W) as (g & Wg & _ & ->). destruct (simple_written _ _ _ SF Wg) as (ty & -> & T). now apply writes_list.
  - destruct SF as [Sk Sv]. cbn [pr_write] in W. apply rbind_Ok in W as (fk & Wk & W). apply rbind_Ok in W as (fv & Wv & W).
    destruct (simple_written _ _ _ Sk Wk) as (kt & -> & Tk). destruct (simple_written _ _ _ Sv Wv) as (vt & -> & Tv). injection W as <-.
    now apply writes_map.
  - rewrite write_union in W. apply rbind_Ok in W as (es & Wa & W). pose proof (members_written _ SF _ _ Wa) as M.
    change (others ts) with (filter (fun y => negb (nulls y)) ts) in W. destruct (Nat.eqb_spec (length (filter (fun y => negb (nulls y)) ts)) 1) as [L|L].
    + destruct (filter (fun y => negb (nulls y)) ts) as [|x [|]] eqn:FE; try discriminate.
      inversion M as [|? g ? gs (nm & k & ty & -> & T) M']; subst. inversion M'; subst. injection W as <-.
      apply writes_optional with (x := x); auto. exists c, ts. auto.
    + injection W as <-. apply writes_oneof; auto. exists c, ts. auto.
Qed.
Theorem fields_mean t f p a fs : Forall simple_field fs -> pr_from t = Ok f -> first_package f = Some p -> placed t p a fs ->
  exists m, message_of f a m /\ Forall2 field_writes fs m.
Proof.
  intros SF. apply struct_message_imp. intros x e I W. rewrite Forall_forall in SF. now apply field_mean; auto.
Qed.

(** C86 refuted: nesting is lost. *)
Lemma fields_swap l x y r : (forall n, pr_write x n = pr_write y n) -> pr_gather x = pr_gather y ->
  forall i, write_fields (l ++ x :: r) i = write_fields (l ++ y :: r) i.
Proof.
  intros W G. induction l as [|z l IH]; intros i; cbn [app write_fields]; [now rewrite W, G|].
  destruct (pr_write z i); cbn [rbind]; [|reflexivity]. destruct (pr_gather z); cbn [rbind]; [|reflexivity]. now rewrite IH.
Qed.
Lemma from_swap c l x y r : (forall n, pr_write x n = pr_write y n) -> pr_gather x = pr_gather y ->
  pr_from (TStruct c (l ++ x :: r)) = pr_from (TStruct c (l ++ y :: r)).
Proof.
  intros W G. assert (E : pr_gather (TStruct c (l ++ x :: r)) = pr_gather (TStruct c (l ++ y :: r))).
  { rewrite !gather_struct. now rewrite (fields_swap l x y r W G). }
  unfold pr_from. cbn [get_c]. now rewrite E.
Qed.
Theorem list_of_lists c l c1 c2 v n1 v1 n2 v2 r :
  pr_from (TStruct c (l ++ TList c1 (TList c2 v n2 v2) n1 v1 :: r)) = pr_from (TStruct c (l ++ TList c1 v n1 v1 :: r)).
Proof.
  apply from_swap; [|reflexivity]. intros n. cbn [pr_write]. destruct (pr_write v n) as [f|e]; [|reflexivity]. cbn [rbind].
  destruct f; reflexivity.
Qed.
Theorem map_of_lists c l c1 c2 k v n2 v2 r :
  pr_from (TStruct c (l ++ TMap c1 k (TList c2 v n2 v2) :: r)) = pr_from (TStruct c (l ++ TMap c1 k v :: r)).
Proof.
  apply from_swap; [|reflexivity]. intros n. cbn [pr_write]. destruct (pr_write k 0) as [f|e]; [|reflexivity]. cbn [rbind].
  destruct (pr_write v 0) as [g|e]; [|reflexivity]. cbn [rbind]. destruct g; cbn; try reflexivity; now rewrite andb_false_r.
Qed.
