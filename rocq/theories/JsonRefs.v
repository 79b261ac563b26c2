(** References in types that were read from JSON schemas (C77). *)
From Coq Require Import String Ascii List NArith ZArith Bool Lia.
From Verif Require Import PyVal PyValFacts RType Registry FromDict FromDictFacts RoundTrip Nullable NullableFacts
  SpecTypes Url BigQueryFacts JsonSchema JsonFacts SpecJson JsonRead.
Import ListNotations.
Open Scope nat_scope.
Open Scope string_scope.
Open Scope list_scope.

Section Strategy.
Variable strategy : string -> res string.

(** A reference has the alias of a known id. *)
Definition knows (J : list string) (s : rtype) : Prop :=
  is_proxy s = true -> exists id a, In id J /\ strategy id = Ok a /\ c_alias (get_c s) = PStr a.
Definition known (J : list string) (t : rtype) : Prop := forall s, shown s t -> knows J s.

Lemma known_node J t : knows J t -> (forall x, In x (shown_children t) -> known J x) -> known J t.
Proof. intros K C s S. inversion S as [|? x I S']; subst; auto. exact (C x I s S'). Qed.
Lemma known_child J t x : known J t -> In x (shown_children t) -> known J x.
Proof. intros K I s S. apply K. econstructor; eauto. Qed.
Lemma known_mono J J' t : incl J J' -> known J t -> known J' t.
Proof. intros I K s S P. destruct (K s S P) as (id & a & X & Y). exists id, a. auto. Qed.
Lemma proxy_name t : is_proxy t = String.eqb (type_name t) "proxy".
Proof. destruct t; reflexivity. Qed.
Lemma shown_like t u : type_name t = type_name u -> children t = children u -> shown_children t = shown_children u.
Proof. destruct t, u; cbn; intros T C; try discriminate; congruence. Qed.
Lemma known_like J t u : type_name t = type_name u -> children t = children u -> c_alias (get_c t) = c_alias (get_c u) -> known J t -> known J u.
Proof.
  intros T C A K. apply known_node.
  - intros P. rewrite <- A. apply (K t (shown_self _)). now rewrite proxy_name, T, <- proxy_name.
  - intros x I. rewrite <- (shown_like t u) in I by auto. eapply known_child; eauto.
Qed.
Lemma known_member J t x : known J t -> In x (members t) -> known J x.
Proof. intros K I. destruct t; cbn in I; try (destruct I as [<-|[]]; exact K). eapply known_child; eauto. Qed.
Lemma known_members J t : (forall x, In x (members t) -> known J x) -> known J t.
Proof.
  intros H. destruct t; try (apply H; now left). apply known_node; [discriminate|exact H].
Qed.
Lemma known_nullable J t f : made_nullable t f -> known J t -> known J f.
Proof.
  intros (_ & _ & _ & ms & F & M) K. apply known_members. intros x I.
  assert (X : forall x, In x ms -> known J x).
  { clear x I M. intros x I. assert (G : forall m, In m (members t) -> known J m) by (intros; eapply known_member; eauto).
    induction F as [|m m' l l' (T & C & _ & A) F IH]; [destruct I|]. destruct I as [<-|I].
    - eapply known_like; eauto. apply G. now left.
    - apply IH; auto. intros; apply G; now right. }
  destruct M as [M|M]; rewrite M in I; auto. destruct I as [<-|I]; auto.
  apply known_node; [discriminate|intros ? []].
Qed.
Lemma known_sets J k v t f : sets k v t f -> known J t -> known J f.
Proof. intros (e & -> & _) K. eapply known_like; [..|exact K]; [now rewrite tname_set|now rewrite kids_set|now rewrite get_set]. Qed.

(** Ids are added when they are met. *)
Definition ids_from (j : pyval) (J J' : list string) : Prop :=
  incl J J' /\ forall id, In id J' -> In id J \/ exists s, has_id j s /\ id = rstrip_char "#" s.
Lemma ids_refl j J : ids_from j J J. Proof. split; [apply incl_refl|auto]. Qed.
Lemma ids_trans j J1 J2 J3 : ids_from j J1 J2 -> ids_from j J2 J3 -> ids_from j J1 J3.
Proof. intros [A B] [C D]. split; [eapply incl_tran; eauto|]. intros id I. destruct (D id I); auto. Qed.
Lemma ids_sub j j' J J' : (forall v, inside v j' -> inside v j) -> ids_from j' J J' -> ids_from j J J'.
Proof. intros S [A B]. split; auto. intros id I. destruct (B id I) as [|(s & (d & I1 & I2) & E)]; auto. right. exists s. split; [exists d|]; auto. Qed.

Lemma head_ids d J J' x : js_head strategy d J = (J', Ok x) -> ids_from (PDict d) J J'.
Proof.
  intros H. apply jbind_Ok in H as (J1 & a & H & E). injection E as <- _. unfold js_id in H.
  destruct (dget "$id" d) as [v|] eqn:I; [|injection H as <- _; apply ids_refl].
  destruct (match dget "$schema" d with Some _ => _ | None => _ end); [discriminate|]. destruct v as [| | | |s| |]; try discriminate.
  injection H as <- _. destruct (str_in _ J); [apply ids_refl|]. split; [intros y; now right|].
  intros id [<-|H]; auto. right. exists s. split; auto. exists d. split; [constructor|exact I].
Qed.
Lemma jmap_inv {A B} (f : A -> JM B) (P : list string -> list string -> Prop) (Q : list string -> B -> Prop) l :
  (forall J, P J J) -> (forall J1 J2 J3, P J1 J2 -> P J2 J3 -> P J1 J3) -> (forall J J' y, P J J' -> Q J y -> Q J' y) ->
  (forall x J J' y, In x l -> f x J = (J', Ok y) -> P J J' /\ Q J' y) ->
  forall J J' ys, jmap f l J = (J', Ok ys) -> P J J' /\ Forall (Q J') ys.
Proof.
  intros R T M. induction l as [|x l IH]; intros S J J' ys H; cbn [jmap] in H; [injection H as <- <-; auto|].
  apply jbind_Ok in H as (J1 & y & H1 & H). apply jbind_Ok in H as (J2 & zs & H2 & H). injection H as <- <-.
  apply S in H1 as [P1 Q1]; [|now left]. apply IH in H2 as [P2 Q2]; [|intros; eapply S; eauto; now right].
  split; [eauto|]. constructor; eauto.
Qed.

Lemma known_kids J t l : is_proxy t = false -> shown_children t = l -> Forall (known J) l -> known J t.
Proof. intros P E F. apply known_node; [congruence|]. rewrite E. now apply Forall_forall. Qed.

Lemma parse_known n : forall j J J' t, js_parse_f strategy n j J = (J', Ok t) -> psize j <= n -> ids_from j J J' /\ known J' t.
Proof.
  induction n as [|n IH]; intros j J J' t H SZ; [discriminate|]. cbn [js_parse_f] in H.
  assert (G : forall d, js_kids (fun y => psize y <= n) d -> (x <- js_head strategy d ;; js_body strategy (js_parse_f strategy n) d x)%jm J = (J', Ok t) ->
    ids_from (PDict d) J J' /\ known J' t).
  { clear j H SZ. intros d (K1 & K2 & K3) H. apply jbind_Ok in H as (J1 & x & HD & H). apply head_ids in HD as I1.
    cut (ids_from (PDict d) J1 J' /\ known J' t); [intros [I2 K]; split; [eapply ids_trans; eauto|exact K]|].
    clear I1 HD J. unfold js_body in H. cbv zeta in H.
    match type of H with context [if String.eqb _ "null" then _ else ?r] => set (ref := r) in H end.
    assert (RR : ref J1 = (J', Ok t) -> ids_from (PDict d) J1 J' /\ known J' t).
    { assert (RF : forall urn : string, (let id := rstrip_char "#" urn in
        if str_in id J1 then (a <- jlift (strategy id) ;; if dmem "alias" x then jfail TypeError
          else jret (TProxy (mkC PNone (PStr a) (kwarg "doc" PNone x) (ddel "doc" x)) None))%jm J1
        else (J1, Err Unmodelled)) = (J', Ok t) -> ids_from (PDict d) J1 J' /\ known J' t).
      { intros urn. cbv zeta. destruct (str_in _ J1) eqn:IN; [|discriminate]. intros E. apply jbind_Ok in E as (J2 & a & SA & E).
        destruct (dmem "alias" x) eqn:M; [discriminate|]. injection E as -> <-. injection SA as -> SA. split; [apply ids_refl|].
        apply known_node; [|intros ? []]. intros _. apply str_in_iff in IN. eauto. }
      unfold ref. destruct (dget "$ref" d) as [v|]; [destruct v|]; try apply RF;
        destruct (dget "$dynamicRef" d) as [w|]; try discriminate; destruct w; try discriminate; apply RF. }
    clearbody ref. destruct (dget "type" d) as [ty|] eqn:T; auto.
    assert (SC : is_proxy t = false -> shown_children t = [] -> J' = J1 -> ids_from (PDict d) J1 J' /\ known J' t).
    { intros P C ->. split; [apply ids_refl|]. eapply known_kids; eauto. }
    destruct ty as [| | | |s|l|e]; auto.
    - destruct (String.eqb s "object" && _).
      + unfold kwarg in H. destruct (dget "properties" d) as [v|] eqn:PE; [|discriminate]. destruct v as [| | | | | |ps]; try discriminate.
        apply jbind_Ok in H as (J2 & fs & F & H). injection H as -> <-.
        apply (jmap_inv _ (ids_from (PDict d)) known) in F as [P F].
        * split; [exact P|]. eapply known_kids; [reflexivity|reflexivity|exact F].
        * apply ids_refl.
        * apply ids_trans.
        * intros ? ? ? [I _]. now apply known_mono.
        * intros [k y] Ja Jb f I Hf. cbn [fst snd] in Hf. apply jbind_Ok in Hf as (Jc & g & Hg & Hf).
          specialize (K2 ps k y eq_refl I). injection Hf as <- Hf.
          assert (KG : ids_from y Ja Jc /\ known Jc g) by (apply IH; [exact Hg|lia]). destruct KG as [IG KG].
          split. { eapply ids_sub; [|exact IG]. intros v V. eapply inside_dict; [apply dget_In; exact PE|]. eapply inside_dict; eauto. }
          unfold js_property in Hf. apply rbind_Ok in Hf as (req & _ & Hf). apply rbind_Ok in Hf as (g' & G' & Hf). injection Hf as <-.
          eapply known_sets; [apply sets_extra|]. destruct req; [now injection G' as <-|].
          apply rbind_Ok in G' as (h & MN & G'). apply property_nullable in MN;
            [|apply (parse_bare strategy y Ja Jc); unfold js_parse; rewrite <- (parse_fuel strategy n) by lia; exact Hg].
          injection G' as <-. eapply known_nullable; eauto.
      + destruct (String.eqb s "array" && _) eqn:AR.
        * apply andb_true_iff in AR as [_ AR]. unfold dmem in AR. unfold kwarg in H. destruct (dget "items" d) as [y|] eqn:IE; [|discriminate].
          apply jbind_Ok in H as (J2 & v & F & H). injection H as -> <-. specialize (K3 y eq_refl).
          apply IH in F as [I K]; [|lia]. split; [|eapply known_kids; [reflexivity|reflexivity|constructor; [exact K|constructor]]].
          eapply ids_sub; [|exact I]. intros w V. eapply inside_dict; [apply dget_In; exact IE|exact V].
        * repeat match type of H with (if String.eqb s ?b then _ else _) _ = _ => destruct (String.eqb s b) end;
            try (injection H as <- <-; apply SC; reflexivity); auto.
          destruct (dget "format" d) as [v|]; [|injection H as <- <-; apply SC; reflexivity].
          destruct v as [| | | |f| |]; try (injection H as <- <-; apply SC; reflexivity).
          destruct (String.eqb f "bytes"); injection H as <- <-; apply SC; reflexivity.
    - apply jbind_Ok in H as (J2 & ts & F & H). injection H as -> <-.
      apply (jmap_inv _ (ids_from (PDict d)) known) in F as [P F].
      + split; [exact P|]. eapply known_kids; [reflexivity|reflexivity|exact F].
      + apply ids_refl.
      + apply ids_trans.
      + intros ? ? ? [I _]. now apply known_mono.
      + intros y Ja Jb f I Hf. specialize (K1 l y eq_refl I). apply IH in Hf as [I' K]; [|lia]. split; auto.
        eapply ids_sub; [|exact I']. intros w V. eapply inside_dict; [apply dget_In; exact T|]. eapply inside_list; eauto. }
  destruct j as [| | | |s|l|d]; try discriminate.
  - apply G in H; [|split; [|split]; intros; discriminate]. destruct H as [[I1 I2] K]. split; auto. split; auto. intros id I. destruct (I2 id I) as [|(s' & (d & D1 & D2) & E)]; auto.
    exfalso. inversion D1 as [E1| |? k j I' D]; subst; [discriminate|]. destruct I' as [[= <- <-]|[]]. inversion D.
  - revert H. repeat match goal with |- (if ?b then _ else _) _ = _ -> _ => destruct b end; discriminate.
  - apply G; auto. eapply kids_impl; [|apply kids_smaller]. cbn beta. intros y L. lia.
Qed.
Lemma refs_known j J J' t : js_to strategy j J = (J', Ok t) -> forall s, shown s t -> is_proxy s = true ->
  exists id a, (In id J \/ exists i, has_id j i /\ id = rstrip_char "#" i) /\ strategy id = Ok a /\ c_alias (get_c s) = PStr a.
Proof.
  intros H s S P. apply jbind_Ok in H as (J1 & t1 & H & E). apply parse_known in H as [[_ I] K]; [|apply le_n].
  assert (ET : t1 = t /\ J1 = J') by (destruct t1; inversion E; auto). destruct ET as [-> ->].
  destruct (K s S P) as (id & a & X & Y & Z). exists id, a. auto.
Qed.
End Strategy.
