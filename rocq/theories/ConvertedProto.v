(** Proofs for C124: proto files of scalar types printed as JSON schemas. *)
From Coq Require Import String Ascii List NArith ZArith Bool Lia.
From Verif Require Import PyVal PyValFacts RType Registry SpecTypes SpecJson SpecProto SpecFlatProto
  FromDict ToDict Url HiveFacts JsonSchema JsonWrite Avro AvroProps Proto ProtoRead ProtoFrame ProtoShape Commands PrintedFormats Converted.
Import ListNotations.
Open Scope nat_scope.
Open Scope string_scope.
Open Scope list_scope.

Definition solid (t : rtype) : Prop := json_node t /\ is_proxy t = false.
Lemma follows_solid t : every solid t -> forall t', follows t t' -> t' = t.
Proof.
  assert (L : forall fs, Forall (fun t => every solid t -> forall t', follows t t' -> t' = t) fs -> Forall (every solid) fs -> forall fs', Forall2 follows fs fs' -> fs' = fs).
  { intros fs IH E fs' F. induction F as [|f f' fs fs' FF F IHF]; [reflexivity|]. inversion IH; inversion E; subst. f_equal; auto. }
  induction t as [c|c|c b s|c b|c b va|c b va|c v l va IH|c k v IHk IHv|c fs IH|c s|c ts IH|c r] using rtype_ind'; intros E t' F; apply every_iff in E as [[_ P] C]; cbn [children] in C;
    inversion F; subst; try reflexivity; try discriminate.
  - inversion C; subst. f_equal. auto.
  - inversion C as [|? ? C1 C2]; inversion C2; subst. f_equal; auto.
  - f_equal. eauto.
  - f_equal. eauto.
Qed.
(** Scalar types. *)
Definition scalar_type (t : rtype) : Prop :=
  c_alias (get_c t) = PNone /\ children t = [] /\ is_proxy t = false /\ match t with TProxy _ _ | TStruct _ _ | TUnion _ _ => False | _ => True end.
Lemma scalar_solid t : scalar_type t -> every solid t.
Proof. intros (A & C & P & M). apply every_iff. split; [split; [split; [now left|]|exact P]|]; [destruct t; try exact Logic.I; contradiction|]. rewrite C. constructor. Qed.
Lemma scalar_keyed k v t : scalar_type t -> scalar_type (set_extra_key k v t).
Proof. destruct t; auto. Qed.
Lemma pr_scalar_type top ty : In ty proto_scalars -> exists t, pr_type top ty = Ok t /\ scalar_type t /\ (is_null t = true -> ty = "google.protobuf.NullValue" /\ t = TNull c0).
Proof.
  intros I. cbn in I. repeat (destruct I as [<-|I]; [eexists; split; [reflexivity|]; split; [repeat split|intros X; first [discriminate X|split; reflexivity]]|]). contradiction.
Qed.
Lemma attr_name n t : attr "name" (set_extra_key "name" (PStr n) t) = Some (PStr n).
Proof. unfold attr, set_extra_key. rewrite set_c_common. cbn [c_extra]. now rewrite dget_dset, String.eqb_refl. Qed.
Lemma optional_solid c t : c_alias c = PNone -> every solid t -> (is_null t = true -> t = TNull c0) -> every solid (TUnion c [TNull c0; t]).
Proof.
  intros A E N. apply every_iff. split; [split; [split; [now left|]|reflexivity]|].
  - intros x [<-|[<-|[]]]; auto.
  - cbn [children]. constructor; [apply scalar_solid; repeat split|]. constructor; [exact E|constructor].
Qed.
Lemma list_solid t : every solid t -> every solid (TList c0 t PNone (PBool true)).
Proof. intros E. apply every_iff. split; [split; [split; [now left|exact Logic.I]|reflexivity]|]. cbn [children]. constructor; [exact E|constructor]. Qed.
Lemma keyed_solid k v t : every solid t -> every solid (set_extra_key k v t).
Proof.
  intros E. apply every_iff in E as [[[A M] P] C]. apply every_iff. split; [split; [split|]|].
  - unfold set_extra_key. rewrite set_c_common. exact A.
  - destruct t; try exact M. discriminate.
  - destruct t; try reflexivity. discriminate.
  - destruct t; exact C.
Qed.
Lemma field_solid top n ty c f : In ty proto_scalars -> pr_field top (PStr n) ty c = Ok f -> every solid f /\ attr "name" f = Some (PStr n).
Proof.
  intros I H. unfold pr_field in H. destruct (pr_scalar_type top ty I) as (t & E & S & N). rewrite E in H. cbn [rbind] in H. cbv zeta in H.
  injection H as <-. split; [|apply attr_name]. apply keyed_solid. apply scalar_solid in S.
  destruct (repeated c), (required c); auto using list_solid.
  - apply keyed_solid. apply optional_solid; [reflexivity|now apply list_solid|discriminate].
  - apply keyed_solid. destruct (is_null t) eqn:Z; [exact S|]. apply optional_solid; [reflexivity|exact S|congruence].
Qed.
Lemma map_solid top n k v f : In k proto_scalars -> In v proto_scalars -> pr_map top (PStr n) k v = Ok f -> every solid f /\ attr "name" f = Some (PStr n).
Proof.
  intros IK IV H. unfold pr_map in H. destruct (pr_scalar_type top k IK) as (tk & EK & SK & _). destruct (pr_scalar_type top v IV) as (tv & EV & SV & _).
  rewrite EK in H. cbn [rbind] in H. destruct (match tk with TInt _ _ _ | TString _ _ _ => true | _ => false end); [|discriminate].
  rewrite EV in H. cbn [rbind is_none] in H. injection H as <-. split; [|reflexivity]. apply optional_solid; [reflexivity| |discriminate].
  apply every_iff. split; [split; [split; [now left|exact Logic.I]|reflexivity]|]. cbn [children]. constructor; [now apply scalar_solid|]. constructor; [now apply scalar_solid|constructor].
Qed.
Lemma members_solid top els ts : Forall flat_member els -> oneof_members top els = Ok ts -> Forall (fun t => every solid t /\ is_null t = false) ts.
Proof.
  intros F. revert ts. induction F as [|e els M F IH]; intros ts H; [injection H as <-; constructor|].
  destruct M as [n i ty c I NN|e M].
  - cbn [oneof_members] in H. apply rbind_Ok in H as (t & T & H). apply rbind_Ok in H as (us & U & H). injection H as <-. constructor; [|now apply IH].
    unfold pr_field in T. destruct (pr_scalar_type top ty I) as (u & E & S & N). rewrite E in T. cbn [rbind repeated required] in T. cbv zeta in T. injection T as <-.
    split; [apply keyed_solid; now apply scalar_solid|]. destruct (is_null u) eqn:Z; [destruct (N eq_refl); contradiction|]. destruct u; try reflexivity. discriminate.
  - destruct e; try contradiction; now apply IH.
Qed.
Lemma elements_solid top els : Forall flat_element els -> forall R R' fs, read_elements top els R = (R', Ok fs) ->
  Forall (fun f => every solid f /\ exists n, SpecJson.named f n) fs.
Proof.
  induction 1 as [|e els E F IH]; intros R R' fs H; [injection H as <- <-; constructor|]. rewrite read_elements_cons in H. unfold mbind in H.
  destruct (read_element top e R) as [R2 [gs|x]] eqn:G; [|discriminate]. destruct (read_elements top els R2) as [R3 [hs|x]] eqn:K; [|discriminate]. injection H as <- <-.
  apply Forall_app. split; [|eapply IH; eauto]. clear K IH.
  destruct E as [n i ty c NE I|n i k v NE IK IV|n l NE M|n l|n vs|]; cbn [read_element] in G; unfold mbind, lift in G.
  - destruct (pr_field top (PStr n) ty c) as [f|x] eqn:P; [|discriminate]. injection G as <- <-. destruct (field_solid _ _ _ _ _ I P) as [S N]. constructor; [|constructor]. split; [exact S|]. exists n. now split.
  - destruct (pr_map top (PStr n) k v) as [f|x] eqn:P; [|discriminate]. injection G as <- <-. destruct (map_solid _ _ _ _ _ IK IV P) as [S N]. constructor; [|constructor]. split; [exact S|]. exists n. now split.
  - destruct (pr_oneof top (PStr n) l) as [f|x] eqn:P; [|discriminate]. injection G as <- <-. rewrite pr_oneof_eq in P. apply rbind_Ok in P as (ts & T & P). injection P as <-.
    pose proof (members_solid _ _ _ M T) as S. constructor; [|constructor]. split; [|exists n; split; [reflexivity|exact NE]].
    rewrite Forall_forall in S. apply every_iff. split; [split; [split; [now left|]|reflexivity]|].
    + intros x [<-|X] Z; [reflexivity|]. destruct (S x X). congruence.
    + cbn [children]. constructor; [apply scalar_solid; repeat split|]. apply Forall_forall. intros x X. apply S, X.
  - destruct (pr_message _ _ _) as [R4 [y|y]]; [|discriminate]. injection G as <- <-. constructor.
  - destruct (pr_enum _ _ _ _) as [R4 [y|y]]; [|discriminate]. injection G as <- <-. constructor.
  - injection G as <- <-. constructor.
Qed.
Lemma proto_json l p s t : first_package l = Some p -> snd (pr_to l s) = Ok t -> flat_file l -> exists v, schema_output FJson t = Ok (ODocument v).
Proof.
  intros P H (n' & els' & FM & FE). unfold pr_to in H. rewrite (parse_packaged _ _ s P) in H.
  destruct (pr_elements (Some p) l None (reg s)) as [R [[u|]|e]] eqn:E; cbn [fst snd reg] in H; try discriminate.
  apply rbind_Ok in H as (w & V & H). apply elements_root in E as [E|(_ & n & els & R0 & R2 & F & M)]; [discriminate|].
  rewrite FM in F. injection F; intros; subst n els. clear F.
  rewrite pr_message_eq in M. unfold mbind in M. destruct (read_elements (Some p) els' R0) as [R3 [fs|e]] eqn:RE; [|discriminate].
  cbn [lift qualify] in M. cbv zeta in M. destruct (register_alias _ _) as [R4 [x|e]]; [|discriminate]. injection M as <- <-.
  apply resolve_follows in V as (fs' & -> & F2). injection H as <-. pose proof (elements_solid _ _ FE _ _ _ RE) as A.
  assert (Q : fs' = fs).
  { clear - F2 A. induction F2; [reflexivity|]. inversion A as [|? ? [S _] A']; subst. f_equal; [eapply follows_solid; eauto|auto]. }
  subst fs'. assert (X : forall t, every solid t -> every json_node t).
  { intros t E y Y. apply E, Y. }
  match goal with |- exists v, schema_output FJson ?t = _ => assert (EV : every json_node t) end.
  { apply every_iff. split; [split; [right; eexists; reflexivity|]|]; cbn [children]; (eapply Forall_impl; [|exact A]); intros f [S N]; auto. }
  destruct (json_printed builtin_aliases _ EV) as [d D]. exists (PDict d). unfold schema_output. rewrite D. reflexivity.
Qed.
