(** Accepting and rejecting exclude each other. *)
From Coq Require Import String Ascii List NArith ZArith QArith Bool Lia.
From Verif Require Import PyVal PyValFacts RType Registry SpecTypes SpecJson SpecInstances.
Import ListNotations.
Open Scope nat_scope.
Open Scope string_scope.
Open Scope list_scope.

Scheme accepts_m := Minimality for accepts Sort Prop
  with keyword_m := Minimality for keyword Sort Prop
  with rejects_m := Minimality for rejects Sort Prop
  with refuses_m := Minimality for refuses Sort Prop.
Combined Scheme validity_m from accepts_m, keyword_m, rejects_m, refuses_m.

Lemma two_places {A} (l1 : list A) s l2 : forall m1 a m2 b m3, l1 ++ s :: l2 = m1 ++ a :: m2 ++ b :: m3 ->
  In a (l1 ++ l2) \/ In b (l1 ++ l2).
Proof.
  induction l1 as [|x l1 IH]; intros [|y m1] a m2 b m3 E; cbn in E; injection E as E1 E2.
  - right. cbn. rewrite E2. apply in_or_app. right. now left.
  - left. cbn. rewrite E2. apply in_or_app. right. now left.
  - left. cbn. auto.
  - apply IH in E2. cbn. tauto.
Qed.
Ltac other := match goal with N : ~ In _ keywords |- _ => exfalso; apply N; cbn; tauto end.
Ltac either := match goal with O : _ = "$ref" \/ _ = "$dynamicRef" |- _ => destruct O; discriminate end.

Section Document.
Variable doc : pyval.
Hypothesis one_target : forall r s s', target doc r s -> target doc r s' -> s = s'.

Lemma exclusive_all :
  (forall s v, accepts doc s v -> ~ rejects doc s v) /\
  (forall d k s v, keyword doc d k s v -> ~ refuses doc d k s v) /\
  (forall s v, rejects doc s v -> ~ accepts doc s v) /\
  (forall d k s v, refuses doc d k s v -> ~ keyword doc d k s v).
Proof.
  apply validity_m.
  - intros v R. inversion R.
  - intros d v _ IH R. inversion R as [|? k s ? G RF]; subst. eapply IH; eauto.
  - intros d s v T R. inversion R; subst; try either. congruence.
  - intros d l s v I T R. inversion R; subst; try either. match goal with N : forall s, In (PStr s) l -> _ |- _ => exact (N s I T) end.
  - intros d ps v _ IH R. inversion R; subst; try either. eapply IH; eauto.
  - intros d l v H R. inversion R; subst; try either. eapply H; eauto.
  - intros d s v _ IH R. inversion R; subst; try either. eapply IH; eauto.
  - intros d s v _ IH R. inversion R; subst; try either. eapply IH; eauto.
  - intros d l v I R. inversion R; subst; try either. auto.
  - intros d l1 s l2 v A IHA RR IHR R. inversion R as [| | | | | | |? ? ? N|? m1 a m2 b m3 ? A1 A2 E|]; subst; try either.
    + apply IHA, N. apply in_or_app. right. now left.
    + match goal with E : _ = l1 ++ s :: l2 |- _ => symmetry in E; apply two_places in E as [I|I] end; eapply IHR; eauto.
  - intros d k r s v O T A IH R. destruct O as [-> | ->]; inversion R as [| | | | | | | | |? ? ? s' ? ? T' R']; subst; rewrite (one_target _ _ _ T T') in IH; auto.
  - intros d k s v N R. inversion R; subst; try other. match goal with O : _ \/ _ |- _ => destruct O; subst; other end.
  - intros v A. inversion A.
  - intros d k s v G _ IH A. inversion A; subst. apply IH. auto.
  - intros d s v T K. inversion K; subst; try either; try other. auto.
  - intros d l v T K. inversion K; subst; try either; try other. eapply T; eauto.
  - intros d ps o k s x I G _ IH K. inversion K; subst; try either; try other. apply IH. eauto.
  - intros d l o n I G K. inversion K; subst; try either; try other. match goal with H : forall o n, _ |- _ => exact (H o n eq_refl I G) end.
  - intros d s l x I _ IH K. inversion K; subst; try either; try other. apply IH. eauto.
  - intros d s o k x G N _ IH K. inversion K; subst; try either; try other. apply IH. eauto.
  - intros d l v N K. inversion K; subst; try either; try other. auto.
  - intros d l v _ IH K. inversion K as [| | | | | | |? l1 s l2 ? A|?|]; subst; try either; try other.
    eapply IH; [|exact A]. apply in_or_app. right. now left.
  - intros d l1 s l2 s' l3 v A1 IH1 A2 IH2 K. inversion K as [| | | | | | |? m1 a m2 ? A RR E|?|]; subst; try either; try other.
    match goal with E : _ = _ ++ _ :: _ ++ _ :: _ |- _ => apply two_places in E as [I|I] end; apply RR in I; auto.
  - intros d k r s v O T R IH K. destruct O as [-> | ->]; inversion K as [| | | | | | | |? ? ? s' ? ? T' A'|]; subst; try other; rewrite (one_target _ _ _ T T') in IH; auto.
Qed.
Lemma exclusive s v : accepts doc s v -> rejects doc s v -> False.
Proof. intros A. exact (proj1 exclusive_all s v A). Qed.
End Document.
