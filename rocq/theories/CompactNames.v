(** The names that alias_dict puts in place of definitions (proofs only). *)
From Coq Require Import String Ascii List ZArith QArith Bool Lia.
From Verif Require Import PyVal PyValFacts RType Regex RegexFacts Registry FromDict ToDict
  FromDictFacts RoundTrip SpecTypes RegistryFacts Nullable NullableFacts Equality SpecCompact
  Compact CompactDocs CompactRead CompactClean CompactMain CompactAlias.
Import ListNotations.
Open Scope nat_scope.
Open Scope string_scope.
Open Scope list_scope.

(** ** Sizes of types *)
Fixpoint tsize (t : rtype) : nat :=
  S match t with
    | TList _ v _ _ => tsize v + 0
    | TMap _ k v => tsize k + (tsize v + 0)
    | TStruct _ fs => (fix go l := match l with [] => 0 | x :: r => tsize x + go r end) fs
    | TUnion _ ts => (fix go l := match l with [] => 0 | x :: r => tsize x + go r end) ts
    | _ => 0
    end.
Fixpoint tsizes (l : list rtype) : nat := match l with [] => 0 | x :: r => tsize x + tsizes r end.
Lemma tsize_kids t : tsize t = S (tsizes (children t)).
Proof. destruct t; reflexivity. Qed.
Lemma tsizes_In x l : In x l -> tsize x <= tsizes l.
Proof. induction l as [|y l IH]; cbn; [tauto|]. intros [->|I]; [lia|]. specialize (IH I). lia. Qed.
Lemma node_size s t : node_of s t -> s = t \/ tsize s < tsize t.
Proof.
  induction 1 as [|t c I N IH]; auto. right. apply tsizes_In in I. rewrite (tsize_kids t). destruct IH as [->|]; lia.
Qed.
Lemma same_size t : forall u, type_same t u -> tsize t = tsize u.
Proof.
  induction t as [t IH] using kids_ind. intros u [_ _ _ F]. rewrite !tsize_kids. f_equal.
  revert IH F. generalize (children t), (children u). intros l l' IH F. revert IH. induction F; intros IH; auto. inversion IH; subst. cbn. f_equal; auto.
Qed.
Lemma label_children t : children (without_label t) = children t.
Proof. destruct t; reflexivity. Qed.
Lemma label_size t : tsize (without_label t) = tsize t.
Proof. now rewrite !tsize_kids, label_children. Qed.

(** ** Equality ignores the registry of references *)
Lemma forget_children u : children (forget u) = map forget (children u).
Proof. destruct u; reflexivity. Qed.
Lemma rt_eq_forget t : forall u, rt_eq t (forget u) = true <-> rt_eq t u = true.
Proof.
  induction t as [t IH] using kids_ind. intros u. rewrite !rt_eq_step. unfold same_step.
  assert (E1 : type_name (forget u) = type_name u) by (destruct u; reflexivity).
  assert (E2 : get_c (forget u) = get_c u) by (destruct u; reflexivity).
  assert (E3 : params (forget u) = params u) by (destruct u; reflexivity).
  rewrite E1, E2, E3, forget_children.
  assert (E4 : all2 rt_eq (children t) (map forget (children u)) = true <-> all2 rt_eq (children t) (children u) = true).
  { clear -IH. revert IH. generalize (children t), (children u). induction l as [|x l IHl]; intros [|y l'] IH; cbn; try tauto.
    inversion IH; subst. rewrite !andb_true_iff, H1, (IHl l') by auto. tauto. }
  tauto.
Qed.

(** ** Labels *)
Lemma label_common c c' : common_same c c' ->
  common_same (mkC (c_logical c) PNone PNone (ddel "default" (c_extra c))) (mkC (c_logical c') PNone PNone (ddel "default" (c_extra c'))).
Proof.
  intros (L & _ & _ & X). split; [exact L|]. split; [constructor|]. split; [constructor|]. cbn.
  inversion X as [|? ? ? ? A| | |d e K V]; subst; [inversion A|]. apply vs_dict.
  - intros k. rewrite !ddel_keys, K. tauto.
  - intros k v w. rewrite !dget_ddel. destruct (String.eqb k "default"); [discriminate|]. apply V.
Qed.
Lemma label_same ref s s1 : same_meaning ref s s1 -> is_proxy s1 = false -> same_meaning ref (without_label s) (without_label s1).
Proof.
  intros [u T C P F|a] X; [|discriminate]. apply sm_node.
  - destruct s, u; try discriminate; reflexivity.
  - pose proof (label_common _ _ C) as L. destruct s, u; try discriminate; exact L.
  - destruct s, u; try discriminate; exact P.
  - rewrite !label_children. exact F.
Qed.
Lemma label_awf s : awf s -> awf (without_label s).
Proof.
  intros A. apply awf_inv in A as [A F]. apply awf_intro; [|now rewrite label_children].
  destruct A as [(X1 & X2 & X3 & X4) X]. split; [|destruct s; exact X].
  assert (Y : cwf (mkC (c_logical (get_c s)) PNone PNone (ddel "default" (c_extra (get_c s))))).
  { repeat split; cbn; auto; try constructor; apply (dwf_ddel "default") in X4; apply X4. }
  destruct s; exact Y.
Qed.

(** ** Corresponding nodes *)
Lemma awf_node s t : node_of s t -> awf t -> awf s.
Proof. intros N. apply (nodes_node_of _ _ _ N). Qed.
Lemma same_node ref t1 s1 : node_of s1 t1 -> forall t, same_meaning ref t t1 -> exists s, node_of s t /\ same_meaning ref s s1.
Proof.
  induction 1 as [|t1 c1 I N IH]; intros t S; [exists t; split; [constructor|exact S]|].
  destruct S as [u _ _ _ F|a]; [|destruct I]. destruct (F2_In_r _ _ _ _ F I) as (c & Ic & S).
  destruct (IH c S) as (s & Ns & Ss). exists s. split; auto. eapply node_child; eauto.
Qed.
Lemma same_alias ref s s1 a : same_meaning ref s s1 -> is_proxy s1 = false -> c_alias (get_c s1) = PStr a ->
  is_proxy s = false /\ c_alias (get_c s) = PStr a.
Proof.
  intros [u T (_ & C & _) P F|b] X E; [|discriminate]. split.
  - destruct s, u; try discriminate; reflexivity.
  - rewrite E in C. inversion C as [|? ? ? ? A B| | |]; subst; auto. inversion B.
Qed.

(** ** Built-in names *)
Lemma builtin_leaf a b : In (a, b) builtin_aliases -> children b = [] /\ is_proxy b = false /\ is_null b = false /\
  own_alias b = [] /\ c_alias (get_c b) = PNone /\ ~ In a type_words /\ awf b.
Proof.
  intros I. cbn in I. repeat destruct I as [[= <- <-]|I]; try destruct I; (split; [reflexivity|]); (split; [reflexivity|]); (split; [reflexivity|]); (split; [reflexivity|]);
    (split; [reflexivity|]); (split; [cbn; intuition discriminate|]).
  all: apply awf_intro; [|constructor]; repeat split; cbn; repeat constructor; cbn; intuition discriminate.
Qed.
Lemma same_leaf t b : type_same t b -> children b = [] -> is_proxy b = false -> c_alias (get_c b) = PNone -> defined_aliases t = [].
Proof.
  intros [T (_ & C & _) _ F] E P A. rewrite E in F. inversion F as [E'|]. rewrite defined_app, <- E'. cbn. rewrite A in C.
  inversion C as [E2|? ? ? ? ? B| | |]; subst; [|inversion B]. unfold own_alias. rewrite <- E2. destruct t; reflexivity.
Qed.
Fixpoint has_dot (s : string) : bool := match s with EmptyString => false | String c r => Ascii.eqb c "."%char || has_dot r end.
Lemma has_dot_app s r : has_dot (s ++ String "."%char r) = true.
Proof. induction s as [|c s IH]; cbn; auto. rewrite IH. apply orb_true_r. Qed.
Lemma dotted_has a : dotted_name a -> has_dot a = true.
Proof.
  intros ([|x [|y l]] & L & _ & ->); try (cbn in L; lia). apply (has_dot_app x).
Qed.
Lemma dotted_word a : dotted_name a -> ~ In a type_words.
Proof. intros D I. apply dotted_has in D. cbn in I. repeat destruct I as [<-|I]; try destruct I; discriminate. Qed.
Lemma dotted_builtin a : dotted_name a -> ~ In a (dkeys builtin_aliases).
Proof. intros D I. apply dotted_has in D. cbn in I. repeat destruct I as [<-|I]; try destruct I; discriminate. Qed.

(** ** Names for parts of one type *)
Section Names.
Variable root : rtype.
Hypothesis root_twf : twf root.
Hypothesis root_dots : forall s a, node_of s root -> is_proxy s = false -> c_alias (get_c s) = PStr a -> dotted_name a.
Notation ref := (names_in root).

Lemma ref_word a t : ref a t -> ~ In a type_words.
Proof.
  intros [(b & I & _)|s t1 s1 N P A _ _ _ _]; [now apply builtin_leaf in I|]. apply dotted_word. eauto.
Qed.
Lemma ref_def a t : ref a t -> defined_aliases t = [].
Proof.
  intros [(b & I & S)|s t1 s1 N P A D _ _ _]; auto. apply builtin_leaf in I as (C & P & _ & _ & A & _). eauto using same_leaf.
Qed.

Definition entry_good (a : string) (e : rtype) : Prop :=
  In (a, e) builtin_aliases \/
  exists s s1, node_of s root /\ is_proxy s = false /\ c_alias (get_c s) = PStr a /\ same_meaning ref s s1 /\
    is_proxy s1 = false /\ awf s1 /\ forget e = forget (without_label s1).
Definition reg_good (R : registry) : Prop := forall a e, In (a, e) R -> entry_good a e.
Lemma builtin_good : reg_good builtin_aliases.
Proof. intros a e I. now left. Qed.

Lemma find_alias_In R t a : find_alias R t = Some a -> exists e, In (a, e) R /\ rt_eq t e = true.
Proof.
  unfold find_alias. destruct (find _ R) as [[a' e]|] eqn:E; [|discriminate]. intros [= ->]. apply find_some in E as [I E]. eauto.
Qed.
Lemma builtin_match x x1 a e : In (a, e) builtin_aliases -> awf x -> awf x1 -> same_meaning ref x x1 -> rt_eq x1 e = true -> builtin_ref a x.
Proof.
  intros I W W1 S E. pose proof (builtin_leaf _ _ I) as (C & P & _ & _ & _ & _ & We). exists e. split; auto.
  apply rt_eq_same; auto. apply rt_eq_trans with x1; auto. apply rt_eq_same in E; auto. destruct E as [T _ _ F]. rewrite C in F. inversion F as [F0|].
  apply rt_eq_same; auto. destruct S as [u A1 A2 A3 A4|b]; [|destruct e; try discriminate]. constructor; auto. rewrite <- F0 in *. inversion A4. constructor.
Qed.
Lemma match_names R x x1 a : reg_good R -> defined_aliases x = [] -> awf x -> awf x1 -> same_meaning ref x x1 ->
  find_alias R x1 = Some a -> names_in root a x.
Proof.
  intros G D W W1 S E. apply find_alias_In in E as (e & I & E). destruct (G _ _ I) as [B|(s & s1 & N & P & A & Ss & P1 & Ws & Fe)].
  - apply names_builtin. eapply builtin_match; eauto.
  - apply names_defined with s x1 (without_label s1); auto; [now apply label_same|].
    apply rt_eq_forget in E. rewrite Fe in E. apply (proj1 (rt_eq_forget _ _)) in E. apply rt_eq_same in E; auto. now apply label_awf.
Qed.
End Names.
