(** BigQuery conversion (proofs only). *)
From Coq Require Import String Ascii List NArith ZArith QArith Bool Lia.
From Verif Require Import PyVal PyValFacts RType Registry SpecTypes FromDict Nullable NullableFacts
  Dbapi BigQuery SpecDb DbapiFacts DbapiMore SpecBigQuery.
Import ListNotations.
Open Scope nat_scope.
Open Scope string_scope.
Open Scope list_scope.

Section BqInd.
  Variable P : bq_field -> Prop.
  Hypothesis step : forall f, Forall P (bq_fields f) -> P f.
  Fixpoint bq_ind' (f : bq_field) : P f :=
    step f ((fix all (l : list bq_field) : Forall P l :=
      match l with
      | [] => Forall_nil P
      | x :: r => Forall_cons x (bq_ind' x) (all r)
      end) (bq_fields f)).
End BqInd.

Lemma bq_unfold f : bq_to_field f =
  match bq_scalar f with
  | Some t => bq_finish f t
  | None =>
      if str_in (bq_type f) ["RECORD"; "STRUCT"] then
        rbind (rmap bq_to_field (bq_fields f)) (fun fs => bq_finish f (TStruct c0 fs))
      else Err ValueError
  end.
Proof.
  destruct f as [ty mo nm de df ml pr sc fs].
  change (bq_to_field (BqField ty mo nm de df ml pr sc fs)) with
    (let f := BqField ty mo nm de df ml pr sc fs in
     match bq_scalar f with
     | Some t => bq_finish f t
     | None => if str_in ty ["RECORD"; "STRUCT"] then
         rbind ((fix all (l : list bq_field) : res (list rtype) :=
            match l with
            | [] => Ok []
            | x :: r => rbind (bq_to_field x) (fun t => rbind (all r) (fun ts => Ok (t :: ts)))
            end) fs) (fun fs => bq_finish f (TStruct c0 fs)) else Err ValueError
     end).
  cbv zeta. destruct (bq_scalar _); auto. cbn [bq_type bq_fields].
  destruct (str_in ty ["RECORD"; "STRUCT"]); auto. f_equal.
  induction fs as [|x r IH]; auto. cbn [rmap]. rewrite <- IH. reflexivity.
Qed.

Lemma str_in_iff s l : str_in s l = true <-> In s l.
Proof.
  unfold str_in. rewrite existsb_exists. split.
  - intros (x & I & E). apply String.eqb_eq in E. now subst.
  - intros I. exists s. split; auto. apply String.eqb_refl.
Qed.

Lemma bq_scalar_spec f :
  match bq_scalar f with
  | Some t => fresh_type t /\ is_union t = false /\ children t = [] /\ ~ accepts_null t /\ In (bq_type f) bq_scalar_types
              /\ ~ In (bq_type f) ["RECORD"; "STRUCT"]
  | None => ~ In (bq_type f) bq_scalar_types
  end.
Proof.
  unfold bq_scalar.
  repeat match goal with |- context [str_in (bq_type f) ?l] =>
    let E := fresh "E" in destruct (str_in (bq_type f) l) eqn:E;
    [apply str_in_iff in E | ] end;
  try (split; [fresh_leaf|split; [reflexivity|split; [reflexivity|split; [intros X; exact X|]]]];
       split; cbn in *; [tauto|intuition congruence]).
  assert (N : forall l, str_in (bq_type f) l = false -> ~ In (bq_type f) l).
  { intros l H K. apply str_in_iff in K. congruence. }
  repeat match goal with H : str_in (bq_type f) _ = false |- _ => apply N in H end.
  clear N. cbn in *. intuition.
Qed.

Lemma truthy_str s : s <> "" -> truthy (PStr s) = true.
Proof. destruct s; [congruence|reflexivity]. Qed.

Lemma bq_finish_spec f t : fresh_type t -> is_union t = false ->
  exists r, bq_finish f t = Ok r /\ bq_shape (bq_mode f) t r /\ bq_meta f r.
Proof.
  intros F U. unfold bq_finish.
  assert (G : forall x, bq_shape (bq_mode f) t x ->
     bq_shape (bq_mode f) t (set_extra "name" (bq_name f) x) /\
     bq_shape (bq_mode f) t (set_doc (bq_description f) x) /\
     bq_shape (bq_mode f) t (set_extra "default" (bq_default f) x)).
  { intros x H. unfold set_extra, set_doc.
    inversion H; subst; cbn [get_c set_c]; repeat split; try constructor; auto; rewrite set_set_c; auto. }
  assert (B : exists t2, (if String.eqb (bq_mode f) "NULLABLE"
      then snd (make_nullable (if String.eqb (bq_mode f) "REPEATED" then TList c0 t PNone (PBool true) else t))
      else Ok (if String.eqb (bq_mode f) "REPEATED" then TList c0 t PNone (PBool true) else t)) = Ok t2
      /\ bq_shape (bq_mode f) t t2).
  { destruct (String.eqb_spec (bq_mode f) "NULLABLE") as [E|E].
    - rewrite E. cbn [String.eqb Ascii.eqb eqb].
      change (String.eqb "NULLABLE" "REPEATED") with false. cbv iota.
      pose proof (fresh_no_clash _ F) as NC.
      rewrite (make_nullable_other t NC U), (ft_null _ F), (plain_fresh _ F). cbn [snd].
      eexists. split; [reflexivity|constructor].
    - eexists. split; [reflexivity|]. destruct (String.eqb_spec (bq_mode f) "REPEATED") as [E2|E2].
      + rewrite E2. constructor.
      + constructor; auto. apply set_get_c. }
  destruct B as (t2 & -> & S2). cbn [rbind].
  eexists. split; [reflexivity|].
  set (t3 := if truthy (bq_name f) then set_extra "name" (bq_name f) t2 else t2).
  set (t4 := if truthy (bq_description f) then set_doc (bq_description f) t3 else t3).
  assert (S3 : bq_shape (bq_mode f) t t3) by (unfold t3; destruct (truthy (bq_name f)); [apply G, S2|exact S2]).
  assert (S4 : bq_shape (bq_mode f) t t4) by (clearbody t3; unfold t4; destruct (truthy (bq_description f)); [apply G, S3|exact S3]).
  split; [destruct (truthy (bq_default f)); auto; apply G, S4|].
  assert (DE : forall k d x, extra k (set_doc d x) = extra k x).
  { intros. unfold extra, set_doc. rewrite get_set_c. reflexivity. }
  assert (DD : forall k v x, c_doc (get_c (set_extra k v x)) = c_doc (get_c x)).
  { intros. unfold set_extra. rewrite get_set_c. reflexivity. }
  split.
  - intros s E N. assert (X : extra "name" t4 = Some (PStr s)).
    { assert (Y : extra "name" t3 = Some (PStr s)).
      { unfold t3. rewrite E, truthy_str, extra_set by auto. reflexivity. }
      unfold t4. destruct (truthy (bq_description f)); rewrite ?DE; auto. }
    destruct (truthy (bq_default f)); rewrite ?extra_set; auto.
  - intros s E N. assert (X : c_doc (get_c t4) = PStr s).
    { unfold t4. rewrite E, truthy_str by auto. unfold set_doc. rewrite get_set_c. reflexivity. }
    destruct (truthy (bq_default f)); rewrite ?DD; auto.
  - intros s E N. rewrite E, truthy_str, extra_set by auto. reflexivity.
Qed.

Lemma struct_fresh fs : fresh_type (TStruct c0 fs).
Proof. apply fresh_plain; reflexivity. Qed.

Theorem bq_reads : forall f t, bq_to_field f = Ok t -> reads f t.
Proof.
  induction f as [f IH] using bq_ind'. intros t H. rewrite bq_unfold in H.
  pose proof (bq_scalar_spec f) as SP. destruct (bq_scalar f) as [b|].
  - destruct SP as (F & U & C & N & _ & NR).
    destruct (bq_finish_spec f b F U) as (r & E & S1 & M).
    rewrite E in H. injection H; intros; subst. eapply reads_scalar; eauto.
  - destruct (str_in (bq_type f) ["RECORD"; "STRUCT"]) eqn:R; [|discriminate].
    apply str_in_iff in R.
    destruct (rmap bq_to_field (bq_fields f)) as [fs|] eqn:M; cbn [rbind] in H; [|discriminate].
    destruct (bq_finish_spec f (TStruct c0 fs) (struct_fresh fs) eq_refl) as (r & E & S1 & MT).
    rewrite E in H. injection H; intros; subst. eapply reads_record; eauto.
    clear -IH M. revert fs M. induction IH as [|x l Px IHl IH2]; intros fs M; cbn [rmap] in M.
    + injection M; intros; subst. constructor.
    + destruct (bq_to_field x) as [t|] eqn:E; cbn [rbind] in M; [|discriminate].
      destruct (rmap bq_to_field l) as [ts|]; cbn [rbind] in M; [|discriminate].
      injection M; intros; subst. constructor; auto.
Qed.

(** The conversion succeeds exactly on the supported types. *)
Lemma rmap_ok {A B} (g : A -> res B) l : (exists ys, rmap g l = Ok ys) <-> Forall (fun x => exists y, g x = Ok y) l.
Proof.
  induction l as [|x l IH]; cbn [rmap].
  - split; [constructor|intros _; eauto].
  - split.
    + intros [ys H]. destruct (g x) as [y|] eqn:E; cbn [rbind] in H; [|discriminate].
      destruct (rmap g l) eqn:F; cbn [rbind] in H; [|discriminate].
      constructor; eauto. apply IH. eauto.
    + intros F. inversion F as [|? ? [y E] F']; subst. apply IH in F' as [ys ->]. rewrite E. cbn. eauto.
Qed.
Theorem bq_supported : forall f, (exists t, bq_to_field f = Ok t) <-> supported f.
Proof.
  induction f as [f IH] using bq_ind'. rewrite bq_unfold.
  pose proof (bq_scalar_spec f) as SP. destruct (bq_scalar f) as [b|].
  - destruct SP as (F & U & C & N & IS & NR). split; [intros _; now constructor|].
    intros _. destruct (bq_finish_spec f b F U) as (r & E & _). eauto.
  - destruct (str_in (bq_type f) ["RECORD"; "STRUCT"]) eqn:R.
    + apply str_in_iff in R. split.
      * intros [t H]. destruct (rmap bq_to_field (bq_fields f)) as [fs|] eqn:M; cbn [rbind] in H; [|discriminate].
        apply sup_record; auto. assert (X : exists ys, rmap bq_to_field (bq_fields f) = Ok ys) by eauto.
        apply rmap_ok in X. rewrite Forall_forall in *. intros x I. apply IH; auto.
      * intros H. inversion H as [? I|? I F]; subst; [tauto|].
        assert (X : exists ys, rmap bq_to_field (bq_fields f) = Ok ys).
        { apply rmap_ok. rewrite Forall_forall in *. intros x Ix. apply IH; auto. }
        destruct X as [fs ->]. cbn [rbind].
        destruct (bq_finish_spec f (TStruct c0 fs) (struct_fresh fs) eq_refl) as (r & E & _). eauto.
    + split; [intros [t H]; discriminate|]. intros H. exfalso. inversion H as [? I|? I F]; subst; [tauto|].
      apply str_in_iff in I. congruence.
Qed.

Theorem bq_schema : forall fields t, bq_to_recap fields = Ok t ->
  exists fs, t = TStruct c0 fs /\ Forall2 reads fields fs.
Proof.
  intros fields t H. unfold bq_to_recap in H.
  destruct (rmap bq_to_field fields) as [fs|] eqn:M; cbn [rbind] in H; [|discriminate].
  injection H; intros; subst. exists fs. split; auto. clear H. revert fs M.
  induction fields as [|x l IH]; intros fs M; cbn [rmap] in M.
  - injection M; intros; subst. constructor.
  - destruct (bq_to_field x) as [t|] eqn:E; cbn [rbind] in M; [|discriminate].
    destruct (rmap bq_to_field l) as [ts|]; cbn [rbind] in M; [|discriminate].
    injection M; intros; subst. constructor; auto. now apply bq_reads.
Qed.
Theorem bq_schema_supported : forall fields,
  (exists t, bq_to_recap fields = Ok t) <-> Forall supported fields.
Proof.
  intros fields. unfold bq_to_recap.
  assert (A : (exists t, rbind (rmap bq_to_field fields) (fun fs => Ok (TStruct c0 fs)) = Ok t)
    <-> exists ys, rmap bq_to_field fields = Ok ys).
  { split; [intros [t H]|intros [ys ->]; cbn; eauto]. destruct (rmap bq_to_field fields); [eauto|discriminate]. }
  rewrite A, rmap_ok. split; intros F; rewrite Forall_forall in *; intros x I; apply bq_supported; auto.
Qed.
