(** Values of types as data of the Avro schemas written for them (proofs only). *)
From Coq Require Import String Ascii List NArith ZArith QArith Bool Lia.
From Verif Require Import PyVal PyValFacts RType Regex Registry FromDict FromDictFacts RegexFacts RegistryFacts
  SpecTypes Avro SpecAvro AvroFacts AvroProps SpecAvroSchema AvroSchema SpecDb SpecInstances SpecRows SpecAvroData AvroData.
Import ListNotations.
Open Scope nat_scope.
Open Scope string_scope.
Open Scope list_scope.

Lemma wider b b' z : (b <= b')%Z -> int_range b true z -> int_range b' true z.
Proof.
  intros L H. unfold int_range in *. destruct (Z_lt_le_dec b 1) as [B|B].
  - rewrite (Z.pow_neg_r 2 (b - 1)) in H by lia. lia.
  - assert (X : (2 ^ (b - 1) <= 2 ^ (b' - 1))%Z) by (apply Z.pow_le_mono_r; lia). lia.
Qed.
Lemma unsigned_long b z : (b <= 32)%Z -> int_range b false z -> int_range 64 true z.
Proof.
  intros L H. unfold int_range in *. assert (X : (2 ^ b <= 2 ^ 32)%Z) by (apply Z.pow_le_mono_r; lia). lia.
Qed.

Section Written.
  Variable env : string -> rtype -> Prop.
  Variable start : string.
  Variable doc : pyval.
  Notation data := (data start doc).
  Definition looks_like (t : rtype) (b d : attrs) : Prop := forall k, dget k d = dget k (written_labels t ++ b).

  (** How a type is written: as the name of a primitive type, as a union, or as an object. *)
  Inductive form (inline : bool) (t : rtype) (v : datum) (b : attrs) : Prop :=
  | form_prim s : b = [("type", PStr s)] -> prim_data s v -> form inline t v b
  | form_union l : b = [("type", PList l)] -> (forall ns, data ns (PList l) v) -> form inline t v b
  | form_object k : inline = false -> k <> "type" -> In k body_keys -> dget k b <> None ->
      (forall ns d, looks_like t b d -> data ns (PDict d) v) -> form inline t v b.

  Lemma looks t b d k : looks_like t b d -> In k body_keys -> dget k d = dget k b.
  Proof. intros L N. rewrite L, dget_app, labels_free by auto. reflexivity. Qed.
  Ltac get L := match goal with |- dget ?k ?d = _ => rewrite (looks _ _ d k L) by (cbn; tauto); reflexivity end.
  Lemma unlogical t b d : looks_like t b d -> dget "logicalType" b = None -> ignored d.
  Proof. intros L N. unfold ignored. rewrite (looks _ _ d "logicalType" L) by (cbn; tauto). now rewrite N. Qed.

  Lemma form_data inline t v b ns d : form inline t v b -> looks_like t b d -> data ns (PDict d) v.
  Proof.
    intros F L. destruct F as [s -> PD|l -> D|k -> K1 K2 K3 D]; auto.
    - apply (data_object _ _ _ _ (PStr s)); [eapply unlogical; eauto| |now constructor]. get L.
    - apply (data_object _ _ _ _ (PList l)); [eapply unlogical; eauto| |auto]. get L.
  Qed.
  Lemma form_writes t v : (forall b, written_as t b -> form false t v b) -> forall ns j, writes t j -> data ns j v.
  Proof.
    intros F ns j W. inversion W as [t' s W'|t' b d WA L]; subst.
    - inversion W' as [|t' b d WA L]; subst. destruct (F b WA) as [s' -> PD|l -> D|k _ K1 K2 K3 D].
      + assert (E : Some (PStr s) = Some (PStr s')) by (apply (looks t _ _ "type" L); cbn; tauto). injection E as ->. now constructor.
      + exfalso. assert (E : Some (PStr s) = Some (PList l)) by (apply (looks t _ _ "type" L); cbn; tauto). discriminate.
      + exfalso. apply K3. rewrite <- (looks t b _ k L) by auto. cbn. apply String.eqb_neq in K1. now rewrite K1.
    - eapply form_data; eauto.
  Qed.

  Lemma int_of_PInt n z : int_of (PInt n) z -> z = n.
  Proof. intros [H|[[H _]|[H _]]]; congruence. Qed.
  Ltac no_logic := match goal with H : not_logical ?c, H' : c_logical ?c = PStr _ |- _ => elim (H _ H') | H : not_logical ?c, H' : logical_is ?c _ |- _ => elim (H _ H')
    | H : c_logical ?c = PNone, H' : c_logical ?c = PStr _ |- _ => congruence end.
  Ltac typed L := first [eapply unlogical; [exact L|reflexivity] | get L].
  Lemma name_written t b d n : extra "name" t = Some (PStr n) -> n <> "" -> looks_like t b d -> dget "name" d = Some (PStr n).
  Proof.
    intros E N L. rewrite L, dget_app. unfold written_labels, extra in *. rewrite E.
    assert (TR : truthy (PStr n) = true) by (destruct n; [congruence|reflexivity]). rewrite TR.
    destruct (truthy (c_doc (get_c t))); reflexivity.
  Qed.
  Lemma named_exists ns d n : dget "name" d = Some (PStr n) -> exists ns' nm, named_as ns d ns' (Some nm).
  Proof.
    intros E. destruct (substr_in "." n) eqn:D.
    - destruct (rsplit_dot_spec n D) as (a & b & _ & -> & B). eexists _, _. eapply named_full; eauto.
    - eexists _, _. eapply named_simple; eauto.
  Qed.
  Lemma fields_written ns fs l r : Forall2 (fun f o => writes f (PDict o)) fs l ->
    (forall f, In f fs -> has_name f /\ forall v, holds env f v -> forall b, written_as f b -> form true f v b) ->
    length fs = length r ->
    (forall i f n d, nth_error fs i = Some f -> nth_error r i = Some (n, d) -> extra "name" f = Some (PStr n) /\ holds env f d) ->
    fields start doc ns (map PDict l) r.
  Proof.
    intros W. revert r. induction W as [|f o fs l WO _ IH]; intros r FF LN NT.
    - destruct r; [constructor|discriminate].
    - destruct r as [|[n v] r]; [discriminate|]. destruct (NT 0 f n v eq_refl eq_refl) as [EN HV].
      destruct (FF f (or_introl eq_refl)) as [(n' & EN' & NE) FM]. assert (n' = n) by congruence. subst n'.
      inversion WO as [|t' b d WA L]; subst. cbn [map].
      assert (REST : fields start doc ns (map PDict l) r).
      { apply IH; auto; [intros g G; apply FF; cbn; auto|]. intros i g m w N1 N2. apply (NT (S i) g m w); auto. }
      destruct (FM v HV b WA) as [s -> PD|ul -> D|k K _ _ _ _]; [| |discriminate].
      + apply (fields_cons _ _ ns o n (PStr s)); auto; [eapply name_written; eauto|get L|now constructor].
      + apply (fields_cons _ _ ns o n (PList ul)); auto; [eapply name_written; eauto|get L].
  Qed.

  Theorem written_form : forall t inline, fit inline t -> forall v, holds env t v -> forall b, written_as t b -> form inline t v b.
  Proof.
    induction t as [c|c|c n s|c n|c n s|c n s|c t n s IH|c k t IHk IHt|c fs IH|c l|c ts IH|c r] using rtype_ind'; intros inline F v H b W.
    - inversion H; subst. inversion W; subst; [inversion H0|]. eapply form_prim; [reflexivity|constructor].
    - inversion H; subst. inversion W; subst; [inversion H0|]. eapply form_prim; [reflexivity|constructor].
    - (* integers *)
      inversion F as [| |b' c' z' s' CL LE| | | | | |c' z' CL|c' z' CL| | | | |]; subst.
      + inversion H; subst; unfold logical_is in *; try congruence.
        inversion W as [t' b1 LB| | |c1 n1 z1 s1 b1 NL IO IB| | | | | | | | | | |]; subst; [inversion LB; subst; congruence|].
        apply int_of_PInt in IO. subst z1. inversion IB; subst.
        * eapply form_prim; [reflexivity|]. constructor. eapply wider; eauto.
        * eapply form_prim; [reflexivity|]. constructor. destruct s'; [eapply wider; eauto; lia|eapply unsigned_long; eauto].
        * exfalso. destruct s'; lia.
      + inversion H; subst; unfold logical_is in *; try congruence.
        inversion W as [t' b1 LB| | |c1 n1 z1 s1 b1 NL IO IB| | | | | | | | | | |]; subst; [|elim (NL _ CL)].
        inversion LB; subst; try congruence. match goal with I : int_of _ _ |- _ => apply int_of_PInt in I; subst end.
        apply (form_object _ _ _ _ "logicalType"); [reflexivity|discriminate|cbn; tauto|discriminate|].
        intros ns d L. apply (data_logical _ _ _ _ "date"); [get L| |constructor; eapply wider; eauto].
        apply (meant_other _ "int"); [get L|cbn; tauto].
      + inversion H; subst; unfold logical_is in *; try congruence.
        inversion W as [t' b1 LB| | |c1 n1 z1 s1 b1 NL IO IB| | | | | | | | | | |]; subst; [|elim (NL _ CL)].
        inversion LB; subst; try congruence. match goal with I : int_of _ _ |- _ => apply int_of_PInt in I; subst end.
        apply (form_object _ _ _ _ "logicalType"); [reflexivity|discriminate|cbn; tauto|discriminate|].
        intros ns d L. apply (data_logical _ _ _ _ l); [get L| |].
        * apply (meant_other _ "long"); [get L|]. pairs_tac; cbn; tauto.
        * unfold has_unit, extra_is in *. match goal with I : dget "unit" (c_extra c) = Some (PStr ?p), J : dget "unit" (c_extra c) = Some (PStr ?q) |- _ => assert (p = q) by congruence; try subst end.
          apply (ld_timestamp _ l m z n k); auto; [|eapply wider; eauto].
          pairs_tac; match goal with T : time_unit _ _ |- _ => inversion T; subst; cbn; tauto end.
    - (* floats *)
      inversion F; subst. inversion H; subst.
      inversion W as [t' b1 LB| | | |c1 n1 z1 NL IO LE|c1 n1 z1 NL IO LE| | | | | | | | |]; subst; [inversion LB| |]; apply int_of_PInt in IO; subst z1;
        (eapply form_prim; [reflexivity|]; constructor); match goal with X : float_format _ _ |- _ => destruct X as [[-> X]|[-> X]] end; auto; lia.
    - (* texts *)
      inversion F; subst. inversion H; subst.
      inversion W as [t' b1 LB| | | | | |c1 n1 z1 v1 NL IO LE| | | | | | | |]; subst; [inversion LB; subst; congruence|]. apply int_of_PInt in IO. subst z1.
      eapply form_prim; [reflexivity|]. constructor. match goal with X : fits _ _ _ |- _ => cbn in X; destruct (truthy s); lia end.
    - (* bytes *)
      inversion F as [| | | | |b' c' z' CL|c' z' CL|c' n' v' p m CL EP ES PP PM| | | | | | |]; subst.
      + inversion H; subst; unfold logical_is in *; try congruence.
        inversion W as [t' b1 LB| | | | | | |c1 n1 z1 NL IO LE|c1 n1 z1 NL IO LE| | | | | |]; subst; [inversion LB; subst; congruence|]. apply int_of_PInt in IO. subst z1.
        eapply form_prim; [reflexivity|]. constructor. match goal with X : fits _ _ _ |- _ => cbn in X; lia end.
      + inversion H; subst; unfold logical_is in *; try congruence.
        inversion W as [t' b1 LB| | | | | | |c1 n1 z1 NL IO LE|c1 n1 z1 NL IO LE| | | | | |]; subst; [inversion LB; subst; congruence|]. apply int_of_PInt in IO. subst z1.
        apply (form_object _ _ _ _ "size"); [reflexivity|discriminate|cbn; tauto|discriminate|].
        intros ns d L. eapply data_fixed; [typed L|typed L|get L|lia|]. match goal with X : fits _ _ _ |- _ => cbn in X; lia end.
      + inversion H; subst; unfold logical_is, extra_is in *; try congruence.
        inversion W as [t' b1 LB| | | | | | |c1 n1 z1 NL IO LE|c1 n1 z1 NL IO LE| | | | | |]; subst; [|elim (NL _ CL)|elim (NL _ CL)].
        inversion LB; subst; try congruence. match goal with I : int_of (PInt b0) _ |- _ => apply int_of_PInt in I; subst | _ => idtac end.
        assert (p1 = PInt p) by congruence. assert (p0 = p) by congruence. assert (m0 = m) by congruence. subst.
        apply (form_object _ _ _ _ "logicalType"); [reflexivity|discriminate|cbn; tauto|discriminate|].
        intros ns d L. 
        assert (G : digits_of d p m).
        { split; [get L|]. split; [lia|]. split; [lia|]. left. rewrite (looks _ _ d "scale" L) by (cbn; tauto). cbn. now rewrite ES. }
        apply (data_logical _ _ _ _ "decimal"); [get L|apply (meant_bytes _ p m); [get L|exact G]|].
        apply (ld_decimal _ p m longest z); [exact G|left; split; [get L|reflexivity]|assumption|assumption|].
        eapply wider; [|eassumption]. lia.
    - (* lists *)
      inversion F; subst. inversion H; subst.
      inversion W as [t' b1 LB| | | | | | | | |c1 t1 n1 v1 j NL WJ| | | | |]; subst; [inversion LB|].
      apply (form_object _ _ _ _ "items"); [reflexivity|discriminate|cbn; tauto|discriminate|].
      intros ns d L. eapply data_array; [typed L|typed L|get L|]. intros x IX. eapply form_writes; [|exact WJ]. intros b WB. apply IH; auto.
    - (* maps *)
      inversion F; subst. inversion H; subst.
      inversion W as [t' b1 LB| | | | | | | | | |c1 kc1 n1 v1 t1 j NL WJ| | | |]; subst; [inversion LB|].
      apply (form_object _ _ _ _ "values"); [reflexivity|discriminate|cbn; tauto|discriminate|].
      intros ns d L. eapply data_map; [typed L|typed L|get L| |].
      + intros a x IX. match goal with X : forall a b, In (a, b) l -> holds env (TString _ _ _) a |- _ => specialize (X a x IX); inversion X; subst end.
        constructor. match goal with X : fits _ _ _ |- _ => cbn in X; destruct (truthy v0); lia end.
      + intros a x IX. eapply form_writes; [|exact WJ]. intros b WB. eapply IHt; eauto.
    - (* records *)
      inversion F as [| | | | | | | | | | | | |c' fs' CL HN FF|]; subst. inversion H; subst.
      inversion W as [t' b1 LB| | | | | | | | | | |c1 fs1 l1 NL WF| | |]; subst; [inversion LB|].
      apply (form_object _ _ _ _ "fields"); [reflexivity|discriminate|cbn; tauto|discriminate|].
      intros ns d L. destruct HN as (n & EN & NE). destruct (named_exists ns d n) as (ns' & nm & NA); [eapply name_written; eauto|].
      eapply data_record; [typed L|typed L|exact NA|get L|].
      apply (fields_written ns' fs l1); auto; [|intros i f n0 v0 N1 N2; split; eauto].
      intros f IF. rewrite Forall_forall in IH. destruct (FF f IF) as [F1 F2]. split; auto.
    - (* enums *)
      inversion F; subst. inversion H; subst.
      inversion W as [t' b1 LB| | | | | | | | | | | |c1 l1 NL| |]; subst; [inversion LB|].
      apply (form_object _ _ _ _ "symbols"); [reflexivity|discriminate|cbn; tauto|discriminate|].
      intros ns d L. eapply data_enum; [typed L|typed L|get L|auto].
    - (* unions *)
      inversion F; subst. inversion H; subst.
      inversion W as [t' b1 LB| | | | | | | | | | | | |c1 ts1 l1 NL WF|]; subst; [inversion LB|].
      eapply form_union; [reflexivity|]. intros ns. rewrite Forall_forall in IH.
      assert (X : exists j, In j l1 /\ writes t j).
      { match goal with I : In t ts |- _ => revert I end. clear -WF. induction WF as [|x y xs ys Q _ IH]; [intros []|]. intros [<-|I]; [exists y; cbn; auto|].
        destruct (IH I) as (z & I' & R). exists z. cbn. auto. }
      destruct X as (j & IJ & WJ). apply (data_union _ _ _ _ j); auto. eapply form_writes; [|exact WJ]. intros b WB. apply IH; auto.
    - inversion F.
  Qed.
End Written.

Theorem data_written env R t j v : proper t -> fit false t -> avro_from R t = Ok j -> holds env t v -> data "" j "" j v.
Proof.
  intros P F E H. destruct (from_writes R t j P E) as (d & -> & W). refine (form_writes env _ _ _ _ _ _ _ W). intros b WB. eapply written_form; eauto.
Qed.
