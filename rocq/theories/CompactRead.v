(** The documents that to_dict can write for a type, and reading them (proofs only). *)
From Coq Require Import String Ascii List ZArith QArith Bool Lia.
From Verif Require Import PyVal PyValFacts RType Regex RegexFacts Registry FromDict ToDict
  FromDictFacts RoundTrip SpecTypes RegistryFacts Nullable NullableFacts Equality SpecCompact Compact CompactDocs.
Import ListNotations.
Open Scope nat_scope.
Open Scope string_scope.
Open Scope list_scope.

Lemma F2_map_ex {A B C} (P : A -> B -> Prop) (Q : A -> B -> C -> Prop) l l' :
  Forall2 P l l' -> (forall x y, In y l' -> P x y -> exists z, Q x y z) ->
  exists zs, length zs = length l /\ Forall2 (fun x z => exists y, Q x y z) l zs /\ Forall2 (fun y z => exists x, Q x y z) l' zs.
Proof.
  induction 1 as [|x y l l' H HL IH]; intros K.
  - exists []. repeat split; constructor.
  - destruct (K x y (or_introl eq_refl) H) as [z Hz].
    destruct IH as (zs & L & A1 & A2); [intros; apply K; auto; now right|].
    exists (z :: zs). cbn. repeat split; [lia| |]; constructor; eauto.
Qed.
Lemma F2_impl {A B} (P Q : A -> B -> Prop) l l' : (forall x y, P x y -> Q x y) -> Forall2 P l l' -> Forall2 Q l l'.
Proof. intros H. induction 1; constructor; auto. Qed.
Lemma F2_In_r {A B} (P : A -> B -> Prop) l l' y : Forall2 P l l' -> In y l' -> exists x, In x l /\ P x y.
Proof.
  induction 1 as [|a b l l' H HL IH]; intros I; [destruct I|]. destruct I as [<-|I]; [eexists; split; [now left|exact H]|].
  destruct (IH I) as (x & I1 & I2). exists x. split; auto. now right.
Qed.
Lemma F2_In_l {A B} (P : A -> B -> Prop) l l' x : Forall2 P l l' -> In x l -> exists y, In y l' /\ P x y.
Proof.
  induction 1 as [|a b l l' H HL IH]; intros I; [destruct I|]. destruct I as [<-|I]; [eexists; split; [now left|exact H]|].
  destruct (IH I) as (y & I1 & I2). exists y. split; auto. now right.
Qed.
Lemma F2_length {A B} (P : A -> B -> Prop) l l' : Forall2 P l l' -> length l = length l'.
Proof. induction 1; cbn; congruence. Qed.

Lemma NoDup_app_l {A} (l l' : list A) : NoDup (l ++ l') -> NoDup l.
Proof.
  induction l as [|x l IH]; intros H; [constructor|]. inversion H; subst. constructor; auto.
  intros I. apply H2, in_or_app. auto.
Qed.
Lemma NoDup_app_r {A} (l l' : list A) : NoDup (l ++ l') -> NoDup l'.
Proof. induction l as [|x l IH]; auto. intros H. inversion H; subst. auto. Qed.

Section Docs.
Variable ref : string -> rtype -> Prop.
Variable cl : bool.

Inductive dict_of : list (string * pyval) -> rtype -> Prop :=
| do_node b t js :
    Forall2 (fun j x => (exists nd, to_type_dict j = Ok nd /\ dict_of nd x) /\ (cl = true -> x = bare_null -> j = PStr "null")) js (children t) ->
    dict_of (entries b t js) t
| do_ref a t : ref a t -> (cl = true -> t <> bare_null) -> dict_of [("type", PStr a)] t
| do_optA c xs js : opt_attrs c -> ~ In bare_null xs -> (c_alias c = PNone -> c_logical c = PNone -> length xs <> 1) ->
    Forall2 (fun j x => (exists nd, to_type_dict j = Ok nd /\ dict_of nd x) /\ (cl = true -> x = bare_null -> j = PStr "null")) js xs ->
    dict_of (("type", PStr "union") :: ("types", PList js) :: tail c) (TUnion c (bare_null :: xs))
| do_optB c x nd : opt_attrs c -> x <> bare_null -> c_alias c = PNone -> c_logical c = PNone -> c_doc c = PNone ->
    is_union x = false -> ~ In "name" (dkeys (c_extra (get_c x))) -> ~ In "default" (dkeys (c_extra (get_c x))) ->
    dict_of nd x -> dict_of (nd ++ tail c) (TUnion c [bare_null; x]).

Definition doc_of (j : pyval) (t : rtype) : Prop := exists nd, to_type_dict j = Ok nd /\ dict_of nd t.
Definition kid_of (j : pyval) (t : rtype) : Prop := doc_of j t /\ (cl = true -> t = bare_null -> j = PStr "null").

Hypothesis ref_word : forall a t, ref a t -> ~ In a type_words.
Hypothesis ref_def : forall a t, ref a t -> defined_aliases t = [].

(** ** Shape *)
Lemma head_str t : node_ok t -> exists s, head_name t = PStr s /\ (s = "union" -> is_union t = true) /\ (s = "null" -> is_null t = true).
Proof.
  intros N. destruct t; cbn; try (eexists; split; [reflexivity|]; split; congruence).
  destruct N as (_ & _ & _ & _ & _ & _ & _ & _ & _ & a & Ea & W). cbn in Ea. rewrite Ea.
  exists a. repeat split; intros ->; exfalso; apply W; cbn; tauto.
Qed.
Lemma tail_last c : exists l, tail c = l ++ [("optional", PBool true)].
Proof. rewrite tail_eq, !app_assoc. eauto. Qed.
Lemma tail_length c : 1 <= length (tail c).
Proof. destruct (tail_last c) as [l ->]. rewrite app_length. cbn. lia. Qed.

Lemma twf_member c ts x : twf (TUnion c ts) -> In x ts -> twf x.
Proof. intros W I. apply Forall_twf_children in W. rewrite Forall_forall in W. auto. Qed.

Lemma dict_type nd t : twf t -> dict_of nd t ->
  exists s, dget "type" nd = Some (PStr s) /\ (is_union t = false -> s <> "union").
Proof.
  revert nd. induction t as [t IH] using kids_ind. intros nd W D. pose proof (nodes_here _ _ W) as N. destruct D as [b t js F|a t H _|c xs js _ _ _ F|c x nd H0 H1 EA EL ED U NN ND D].
  - destruct (head_str t N) as (s & E & U & _). exists s. unfold entries. cbn [dget]. rewrite String.eqb_refl, E. split; auto.
    intros H ->. rewrite U in H by auto. discriminate.
  - exists a. split; auto. intros _ ->. apply (ref_word _ _ H). cbn. tauto.
  - exists "union". split; auto; discriminate.
  - cbn [children] in IH. inversion IH as [|? ? _ IH']; subst. inversion IH' as [|? ? IHx _]; subst.
    destruct (IHx nd) as (s & E & _); auto.
    { apply (twf_member _ _ _ W). cbn; auto. }
    exists s. rewrite dget_app, E. split; auto. discriminate.
Qed.

Lemma entries_keys b t js k : In k (dkeys (entries b t js)) -> In k ["type"; "alias"; "logical"; "doc"] \/ In k (dkeys (c_extra (get_c t))) \/ In k (reserved t).
Proof.
  unfold entries. cbn [dkeys map fst]. fold (dkeys (commons b t ++ own b t js)). rewrite dkeys_app. cbn [In]. rewrite in_app_iff.
  intros [<-|[H|H]]; auto.
  - apply commons_keys in H. intuition (subst; auto).
  - apply own_keys in H. auto.
Qed.
Lemma dict_keys nd x : twf x -> is_union x = false -> dict_of nd x ->
  ~ In "name" (dkeys (c_extra (get_c x))) -> ~ In "default" (dkeys (c_extra (get_c x))) ->
  forall k, In k ["default"; "name"; "optional"] -> ~ In k (dkeys nd).
Proof.
  intros W U D N1 N2 k I J. apply nodes_here in W.
  destruct D as [b t js F|a t H _|c xs js _ _ _ F|c x nd H0 H1 EA EL ED U' NN ND D]; try discriminate.
  - apply entries_keys in J as [J|[J|J]].
    + cbn in *. intuition (subst; discriminate).
    + cbn in I. destruct I as [<-|[<-|[<-|[]]]]; auto. revert J. apply (nodekey _ _ W). cbn; tauto.
    + cbn in I. destruct I as [<-|[<-|[<-|[]]]]; destruct t; cbn in J; intuition discriminate.
  - cbn in *. intuition (subst; discriminate).
Qed.

(** Only the bare null is written "null". *)
Lemma null_doc j t : twf t -> doc_of j t -> j = PStr "null" -> t = bare_null.
Proof.
  intros W (nd & E & D) ->. cbn in E. injection E as <-. pose proof W as W0. apply nodes_here in W.
  remember [("type", PStr "null")] as nd eqn:EN.
  destruct D as [b t js F|a t H _|c xs js _ _ _ F|c x nd H0 H1 EA EL ED U' NN ND D].
  - unfold entries in EN. injection EN as E1 E2. destruct (head_str t W) as (s & Es & _ & U). rewrite Es in E1. injection E1 as ->.
    specialize (U eq_refl). destruct t; try discriminate. cbn [own commons is_proxy get_c] in E2. unfold commons in E2. cbn [is_proxy get_c] in E2.
    rewrite app_nil_r in E2. unfold bare_null. destruct c as [l a d e]. cbn [c_logical c_alias c_doc c_extra] in E2.
    destruct (ent_cases b "alias" a) as [[X ->]|X]; rewrite X in E2; [|discriminate].
    destruct (ent_cases b "logical" l) as [[Y ->]|Y]; rewrite Y in E2; [|discriminate].
    destruct (ent_cases b "doc" d) as [[Z ->]|Z]; rewrite Z in E2; [|discriminate].
    cbn in E2. subst. reflexivity.
  - injection EN as ->. exfalso. apply (ref_word _ _ H). cbn. tauto.
  - discriminate.
  - exfalso. apply (f_equal (@length _)) in EN. rewrite app_length in EN. cbn [length] in EN. pose proof (tail_length c).
    destruct nd; [|cbn [length] in EN; lia].
    destruct (dict_type [] x) as (s & E & _); auto; [|discriminate]. apply (twf_member _ _ _ W0). cbn; auto.
Qed.

(** ** Reading *)
Definition read_as (nd : list (string * pyval)) (t : rtype) (t' : rtype) : Prop :=
  reads (PDict nd) t' /\ same_meaning ref t t' /\ validate t' = Ok tt /\ defined_aliases t' = defined_aliases t /\
  twf t'.

Lemma own_alias_eq t u : type_name t = type_name u -> get_c t = get_c u -> own_alias t = own_alias u.
Proof. intros A B. destruct t, u; cbn in *; try discriminate; subst; auto. Qed.

Lemma validate_list ts : Forall (fun t => validate t = Ok tt) ts ->
  (fix go (l : list rtype) : res unit := match l with [] => Ok tt | x :: xs => (_ <- validate x ;; go xs)%res end) ts = Ok tt.
Proof. induction 1 as [|t ts H HL IH]; auto. now rewrite H. Qed.

Lemma renew_validate b t ts : length ts = length (children t) -> validate t = Ok tt ->
  Forall (fun t => validate t = Ok tt) ts -> validate (renew b t ts) = Ok tt.
Proof.
  intros L V F. destruct t; cbn [renew children List.length] in *; auto.
  - cbn in *. now rewrite norm_len.
  - cbn in *. now rewrite norm_len.
  - destruct ts as [|y [|]]; try discriminate. cbn in *. rewrite norm_len. apply rbind_Ok in V as ([] & -> & _).
    now inversion F.
  - destruct ts as [|y1 [|y2 [|]]]; try discriminate. inversion F as [|? ? A F']; subst. inversion F'; subst. cbn. rewrite A. auto.
  - cbn. now apply validate_list.
Qed.
Lemma renew_facts b t ts : length ts = length (children t) ->
  type_name (renew b t ts) = type_name t /\ get_c (renew b t ts) = get_c t /\ children (renew b t ts) = ts /\
  Forall2 val_same (params t) (params (renew b t ts)).
Proof.
  intros L.
  assert (P2 : forall x v, Forall2 val_same [x; v] [x; norm b v])
    by (intros; repeat (apply Forall2_cons || apply Forall2_nil); auto using val_same_refl, norm_same).
  destruct t; cbn [children List.length] in L.
  all: try (destruct ts; [|discriminate]).
  all: cbn [renew type_name get_c children params]; try (repeat split; auto; repeat (apply Forall2_cons || apply Forall2_nil); auto using val_same_refl; fail).
  - destruct ts as [|y [|]]; try discriminate. cbn. auto.
  - destruct ts as [|y1 [|y2 [|]]]; try discriminate. cbn. auto.
Qed.

Lemma awf_intro t : attrs_ok t -> Forall awf (children t) -> awf t.
Proof.
  intros A F. unfold awf in *. destruct t; cbn [children nodes] in *; split; auto.
  - now inversion F.
  - inversion F as [|? ? F1 F2]; subst. inversion F2; auto.
  - now apply nodes_list.
  - now apply nodes_list.
Qed.
Lemma norm_pwf b v : pwf v -> pwf (norm b v).
Proof. unfold norm. destruct (_ && _); auto. constructor. Qed.
Lemma twf_intro t : node_ok t -> Forall twf (children t) -> twf t.
Proof.
  intros A F. unfold twf in *. destruct t; cbn [children nodes] in *; split; auto.
  - now inversion F.
  - inversion F as [|? ? F1 F2]; subst. inversion F2; auto.
  - now apply nodes_list.
  - now apply nodes_list.
Qed.
Lemma renew_twf b t ts : length ts = length (children t) -> node_ok t -> validate (renew b t ts) = Ok tt -> Forall twf ts -> twf (renew b t ts).
Proof.
  intros L N V F. destruct (renew_facts b t ts L) as (_ & B2 & B3 & _). apply twf_intro; [|now rewrite B3].
  destruct N as (N1 & K & N2 & N3 & N4 & N5 & N6 & _ & N7). unfold node_ok. rewrite B2. split; auto. split.
  { intros k I. specialize (K k I). destruct t; auto; cbn [children List.length] in L;
      [destruct ts as [|y [|]]; try discriminate; exact K|destruct ts as [|y [|y2 [|]]]; try discriminate; exact K]. }
  split; auto. split; auto. split; auto. split; auto. split; [|split; auto].
  - destruct t; cbn [children List.length] in L; try (destruct ts as [|y1 ts]; [|discriminate]); cbn in N6 |- *; auto.
    all: try (inversion N6 as [|? ? P1 N8]; subst; inversion N8; subst; repeat (apply Forall_cons || apply Forall_nil); auto using norm_pwf; fail).
    + destruct ts as [|y [|]]; try discriminate. cbn.
      inversion N6 as [|? ? P1 N8]; subst; inversion N8; subst; repeat (apply Forall_cons || apply Forall_nil); auto using norm_pwf.
    + destruct ts as [|y [|y2 [|]]]; try discriminate. constructor.
  - destruct t; cbn [children List.length] in L; try exact I.
    + destruct ts as [|y [|]]; try discriminate; exact I.
    + destruct ts as [|y [|y2 [|]]]; try discriminate; exact I.
    + cbn. split; auto. now destruct N7.
Qed.
Lemma null_twf : twf bare_null.
Proof. apply twf_intro; [|constructor]. repeat split; cbn; repeat constructor; intros; tauto. Qed.
Lemma opt_twf c xs ts : node_ok (TUnion c xs) -> Forall twf ts -> twf (TUnion (opt_common c) (bare_null :: ts)).
Proof.
  intros (N1 & _ & N2 & N3 & N4 & N5 & N6 & _) F. cbn [get_c] in *. apply twf_intro; cbn [children].
  - assert (K : forall k, pwf (kwarg k PNone (c_extra c))) by (intros k; apply dwf_kwarg; [constructor|now split]).
    unfold node_ok. cbn [get_c opt_common c_extra c_logical c_alias c_doc]. rewrite ent_none.
    repeat split; auto; try (destruct (is_none _); cbn; repeat constructor; cbn; auto; intuition discriminate).
    intros k I. destruct (is_none _); cbn in I; intuition (subst; cbn in *; intuition discriminate).
  - constructor; auto using null_twf.
Qed.
Lemma reference_twf a : ~ In a type_words -> twf (reference a).
Proof.
  intros W. apply twf_intro; [|constructor]. unfold node_ok. cbn. repeat split; repeat constructor; eauto.
Qed.

Lemma flat_map_eq (f : rtype -> list pyval) l l' : Forall2 (fun x y => f y = f x) l l' -> flat_map f l' = flat_map f l.
Proof. induction 1; cbn; congruence. Qed.

Definition node_like nd t := exists b js, nd = entries b t js /\ Forall2 kid_of js (children t).

Lemma kids_read l js : Forall twf l -> Forall (fun t => twf t -> forall nd, dict_of nd t -> exists t', read_as nd t t') l ->
  Forall2 kid_of js l ->
  exists ts, length ts = length l /\ Forall2 reads js ts /\ Forall2 (same_meaning ref) l ts /\
    Forall (fun t => validate t = Ok tt) ts /\ flat_map defined_aliases ts = flat_map defined_aliases l /\ Forall twf ts.
Proof.
  intros W H F. revert W H. induction F as [|j t js l [(nd & E & D) _] F IH]; intros W H.
  - exists []. repeat split; constructor.
  - inversion W; subst. inversion H as [|? ? Ht Hl]; subst. destruct (Ht ltac:(assumption) nd D) as (t' & R1 & R2 & R3 & R4 & R5).
    destruct IH as (ts & L & A1 & A2 & A3 & A4 & A5); auto. exists (t' :: ts). cbn. repeat split; auto.
    + constructor; auto. now apply (reads_doc j nd).
    + congruence.
Qed.

Lemma dict_reads t : twf t -> forall nd, dict_of nd t -> exists t', read_as nd t t'.
Proof.
  induction t as [t IH] using kids_ind. intros W nd D. pose proof (nodes_here _ _ W) as N.
  pose proof (Forall_twf_children _ W) as WK. destruct D as [b t js F|a t H _|c xs js OA NB _ F|c x nd OA XB EA EL ED U NN ND D].
  - destruct (kids_read _ _ WK IH F) as (ts & L & A1 & A2 & A3 & A4 & A5).
    destruct (renew_facts b t ts L) as (B1 & B2 & B3 & B4).
    assert (V : validate (renew b t ts) = Ok tt).
    { apply renew_validate; auto. now destruct N as (_ & _ & _ & _ & _ & _ & _ & V & _). }
    exists (renew b t ts). split; [|split; [|split; [|split]]]; auto.
    + now apply node_reads.
    + apply sm_node; auto. rewrite B2. apply common_same_refl. now rewrite B3.
    + rewrite !defined_app, B3, A4. f_equal. now apply own_alias_eq.
    + now apply renew_twf.
  - exists (reference a). split; [|split; [|split; [|split]]].
    + intros R R' G. cbn in G. apply ret_Ok in G as [-> _].
      apply from_dict_inv. eapply (Parsed _ R R (reference a) _ [("type", PStr a)] R); [reflexivity|discriminate|reflexivity| |reflexivity|reflexivity].
      refine (b_proxy _ _ R c0 a _ (ref_word _ _ H) _); reflexivity.
    + now constructor.
    + reflexivity.
    + cbn. symmetry. eapply ref_def; eauto.
    + apply reference_twf. eapply ref_word; eauto.
  - cbn [children] in *. inversion IH as [|? ? _ IHx]; subst. inversion WK as [|? ? _ Wx]; subst.
    destruct (kids_read _ _ Wx IHx F) as (ts & L & A1 & A2 & A3 & A4 & A5).
    exists (TUnion (opt_common c) (bare_null :: ts)). split; [|split; [|split; [|split]]].
    + apply optA_reads; auto. cbn. f_equal. apply not_true_is_false. intros E. apply existsb_exists in E as (j & I & E).
      apply py_eq_str_inv in E. destruct (F2_In_l _ _ _ _ F I) as (x & Ix & Dx & _).
      assert (x = bare_null); [|congruence]. apply (null_doc j); auto. rewrite Forall_forall in Wx. auto.
    + apply sm_node; auto; [now apply opt_common_same|constructor|].
      constructor; auto. apply sm_node; auto using common_same_refl; constructor.
    + reflexivity.
    + rewrite !defined_app. cbn [children flat_map own_alias get_c]. rewrite A4. reflexivity.
    + eapply opt_twf; [exact N|]; auto.
  - cbn [children] in *. inversion IH as [|? ? _ IH1]; subst. inversion IH1 as [|? ? IHx _]; subst.
    inversion WK as [|? ? _ WK1]; subst. inversion WK1 as [|? ? Wx _]; subst.
    destruct (IHx Wx nd D) as (x' & R1 & R2 & R3 & R4 & R5).
    destruct (dict_type nd x Wx D) as (s & Es & Us).
    exists (TUnion (opt_common c) [bare_null; x']). split; [|split; [|split; [|split]]].
    + apply (optB_reads c nd s); auto. now apply (dict_keys nd x).
    + apply sm_node; auto; [now apply opt_common_same|constructor|].
      repeat (apply Forall2_cons || apply Forall2_nil); auto. apply sm_node; auto using common_same_refl; constructor.
    + reflexivity.
    + rewrite !defined_app. cbn [children flat_map own_alias get_c]. rewrite R4. reflexivity.
    + eapply opt_twf; [exact N|]; auto.
Qed.

(** ** What is registered *)
Definition fresh (K : list string) (defs : list pyval) : Prop :=
  exists names, defs = map PStr names /\ NoDup names /\ forall a, In a names -> ~ In a K /\ dotted_name a.

Lemma reg_fresh_list l : Forall (fun t => forall R, fresh (dkeys R) (defined_aliases t) -> exists R', reg_tree t R = (R', Ok tt)) l ->
  forall R, fresh (dkeys R) (flat_map defined_aliases l) -> exists R', reg_list l R = (R', Ok tt).
Proof.
  induction 1 as [|t l H HL IH]; intros R (names & E & ND & F); [eexists; reflexivity|].
  cbn in E. symmetry in E. apply map_eq_app in E as (n1 & n2 & -> & E1 & E2).
  destruct (H R) as [R1 G1].
  { exists n1. split; auto. split; [now apply NoDup_app_l in ND|]. intros a I. apply F, in_or_app. auto. }
  pose proof (okR_all t _ _ G1) as (E & -> & K & _).
  assert (KE : dkeys E = n1).
  { rewrite <- E1 in K. clear -K. revert n1 K. generalize (dkeys E). induction l as [|x l IH]; intros [|y n] K; try discriminate; auto.
    injection K as -> K. f_equal. auto. }
  destruct (IH (R ++ E)) as [R2 G2].
  { exists n2. split; auto. split; [now apply NoDup_app_r in ND|]. intros a I.
    split; [|apply F, in_or_app; auto]. rewrite dkeys_app, in_app_iff, KE. intros [J|J].
    - destruct (F a) as [X _]; [apply in_or_app; auto|]. auto.
    - revert ND I J. clear. induction n1 as [|x n IH]; cbn; [tauto|]. intros ND I [->|J].
      + inversion ND as [|? ? X _]; subst. apply X, in_or_app. auto.
      + inversion ND; subst. auto. }
  exists R2. cbn. unfold mbind. now rewrite G1.
Qed.
Lemma reg_fresh t : forall R, fresh (dkeys R) (defined_aliases t) -> exists R', reg_tree t R = (R', Ok tt).
Proof.
  induction t as [t IH] using kids_ind. intros R F. rewrite defined_app in F. destruct F as (names & E & ND & F).
  symmetry in E. apply map_eq_app in E as (n1 & n2 & -> & E1 & E2).
  destruct (reg_fresh_list _ IH R) as [R1 G1].
  { exists n1. split; auto. split; [now apply NoDup_app_l in ND|]. intros a I. apply F, in_or_app. auto. }
  pose proof (reg_list_eff (fun _ => True) _ (proj2 (Forall_forall _ _) (fun x _ => okR_all x)) (fun _ _ _ _ => I) _ _ G1) as (E & -> & K & _).
  assert (KE : dkeys E = n1).
  { rewrite <- E1 in K. clear -K. revert n1 K. generalize (dkeys E). induction l as [|x l IH]; intros [|y n] K; try discriminate; auto.
    injection K as -> K. f_equal. auto. }
  rewrite reg_tree_children. unfold mbind. rewrite G1. unfold reg_node.
  destruct (is_none (c_alias (get_c t))) eqn:EN; [eexists; reflexivity|].
  destruct (is_proxy t) eqn:EP; [eexists; reflexivity|]. cbn [negb andb].
  assert (OA : own_alias t = [c_alias (get_c t)]).
  { unfold own_alias. destruct t; try discriminate; cbn in *; destruct (c_alias c); auto; discriminate. }
  rewrite OA in E2. destruct n2 as [|a [|]]; try discriminate. injection E2 as E2.
  eexists. apply register_alias_spec. exists a. rewrite <- E2. destruct (F a) as [X Y]; [apply in_or_app; cbn; auto|].
  repeat split; auto. rewrite dkeys_app, in_app_iff, KE. intros [J|J]; auto.
  apply NoDup_remove_2 in ND. rewrite app_nil_r in ND. auto.
Qed.
End Docs.
