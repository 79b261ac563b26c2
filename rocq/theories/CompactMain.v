(** to_dict writes documents that from_dict reads back. *)
From Coq Require Import String Ascii List ZArith QArith Bool Lia.
From Verif Require Import PyVal PyValFacts RType Regex RegexFacts Registry FromDict ToDict
  FromDictFacts RoundTrip SpecTypes RegistryFacts Nullable NullableFacts Equality SpecCompact
  Compact CompactDocs CompactRead CompactClean.
Import ListNotations.
Open Scope nat_scope.
Open Scope string_scope.
Open Scope list_scope.

(** ** The document of one node *)
Lemma node_entries t kids : node_ok t -> length kids = length (children t) -> node_dict t kids = entries false t kids.
Proof.
  intros N L. destruct (is_proxy t) eqn:P.
  - destruct t; try discriminate. unfold node_dict. rewrite base_dict_eq by auto. destruct kids; [|discriminate].
    pose proof N as (_ & HK & _ & _ & _ & _ & _ & _ & -> & a & Ea & _). unfold base4, entries, commons, kwarg. cbn [get_c is_proxy own]. rewrite app_nil_r.
    cbn. do 3 f_equal. apply (ddel_notin "alias"). intros I. apply (HK "alias" I). cbn. auto.
  - rewrite node_dict_eq by auto. unfold base4, entries, commons. rewrite P. cbn [ent andb app].
    destruct t; try discriminate; cbn [children List.length] in L; cbn [spec_dict own head_name ent andb app get_c]; rewrite ?app_nil_r;
      try reflexivity; repeat (destruct kids as [|? kids]; try discriminate L); reflexivity.
Qed.
Lemma to_dict_kids cl al t : to_dict cl al t = (kids <- rmap (to_dict cl al) (children t) ;; post_dict cl al (node_dict t kids))%res.
Proof.
  destruct t as [| | | | | |c v l va|c k v| | | |]; try reflexivity.
  - cbn. destruct (to_dict cl al k); [|reflexivity]. cbn. destruct (to_dict cl al v); reflexivity.
  - cbn [to_dict children]. f_equal. induction fields as [|x l IH]; [reflexivity|]. cbn. now rewrite IH.
  - cbn [to_dict children]. f_equal. induction types as [|x l IH]; [reflexivity|]. cbn. now rewrite IH.
Qed.

(** ** Compact documents *)
Definition no_ref (_ : string) (_ : rtype) : Prop := False.
Lemma compact_writes t : twf t -> nodes compact_ok t -> exists j, to_dict true false t = Ok j /\ kid_of no_ref true j t.
Proof.
  induction t as [t IH] using kids_ind. intros W CO. pose proof (Forall_twf_children _ W) as WC.
  pose proof (nodes_children _ _ CO) as CC.
  assert (K : exists js, rmap (to_dict true false) (children t) = Ok js /\ Forall2 (kid_of no_ref true) js (children t)).
  { induction (children t) as [|x l IHl]; [exists []; split; constructor|].
    inversion IH; subst. inversion WC; subst. inversion CC; subst.
    destruct H1 as (j & E & D); auto. destruct IHl as (js & E' & D'); auto. exists (j :: js). cbn. rewrite E. cbn. rewrite E'. split; auto. }
  destruct K as (js & E & F). rewrite to_dict_kids, E. cbn. rewrite node_entries; [|now apply nodes_here in W|now apply F2_length in F].
  unfold post_dict. cbn.
  destruct (clean_ok no_ref (fun _ _ H => match H with end) (fun _ _ H => match H with end) t (PDict (entries false t js)) W) as (j' & E' & C & _).
  - now apply all_nodes_nodes.
  - exists (entries false t js). split; auto. now apply do_node.
  - eauto.
Qed.
Lemma same_no_ref t : forall u, same_meaning no_ref t u -> type_same t u.
Proof.
  induction t as [t IH] using kids_ind. intros u [u' H1 H2 H3 H4|a []]. constructor; auto.
  revert IH H4. generalize (children t), (children u'). intros l l' IH F. revert IH. induction F; intros IH; constructor; inversion IH; subst; auto.
Qed.

Lemma eff_fresh P R R' defs : eff P R R' defs -> fresh (dkeys R) defs.
Proof. intros (E & _ & <- & ND & H & _). exists (dkeys E). repeat split; auto; apply H; auto. Qed.
Lemma pstr_inj l l' : map PStr l = map PStr l' -> l = l'.
Proof. revert l'. induction l as [|x l IH]; intros [|y l'] H; try discriminate; auto. injection H as -> H. f_equal. auto. Qed.
Lemma eff_keys P Q R R1 R2 defs : eff P R R1 defs -> eff Q R R2 defs -> dkeys R1 = dkeys R2.
Proof. intros (E & -> & H & _) (E' & -> & H' & _). rewrite !dkeys_app. f_equal. apply pstr_inj. congruence. Qed.

(** What is needed to read a document back. *)
Lemma read_back (ref : string -> rtype -> Prop) cl j t R : (forall a t, ref a t -> ~ In a type_words) -> (forall a t, ref a t -> defined_aliases t = []) ->
  twf t -> doc_of ref cl j t -> fresh (dkeys R) (defined_aliases t) ->
  exists R' t', from_dict j R = (R', Ok t') /\ same_meaning ref t t' /\ twf t' /\ defined_aliases t' = defined_aliases t /\
    eff (fun s => node_of s t') R R' (defined_aliases t).
Proof.
  intros RW RD W (nd & E & D) F. destruct (dict_reads ref cl RW RD t W nd D) as (t' & T1 & T2 & _ & T4 & T5).
  rewrite <- T4 in F. destruct (reg_fresh _ _ F) as [R' G]. exists R', t'.
  split; [apply (reads_doc _ _ _ E T1); auto|]. split; auto. split; auto. split; auto. rewrite <- T4. now apply okR_all.
Qed.

Theorem compact_roundtrip j R R' t : pwf j -> from_dict j R = (R', Ok t) -> all_nodes compact_ok t ->
  exists d R2 t', to_dict true false t = Ok d /\ from_dict d R = (R2, Ok t') /\ rt_eq t t' = true /\ dkeys R2 = dkeys R'.
Proof.
  intros W P CO. pose proof (from_dict_eff _ _ _ _ W P) as EF. pose proof (parsed_awf _ _ _ _ W P) as AW.
  destruct (from_dict_okA _ _ _ _ W P) as [TW _].
  destruct (compact_writes t TW (proj1 (all_nodes_nodes _ _) CO)) as (d & Ed & K & _).
  destruct (read_back no_ref true d t R (fun _ _ H => match H with end) (fun _ _ H => match H with end) TW K (eff_fresh _ _ _ _ EF)) as (R2 & t' & B1 & B2 & B3 & _ & B5).
  exists d, R2, t'. split; auto. split; auto. split.
  - apply rt_eq_same; auto using twf_awf. now apply same_no_ref.
  - eapply eff_keys; eauto.
Qed.
