(** Facts about the JSON Schema reader. *)
From Coq Require Import String Ascii List NArith ZArith QArith Bool Lia.
From Verif Require Import PyVal PyValFacts RType Registry FromDict FromDictFacts RoundTrip Nullable NullableFacts
  SpecTypes Url JsonSchema.
Import ListNotations.
Open Scope nat_scope.
Open Scope string_scope.
Open Scope list_scope.

Lemma jbind_Ok {A B} (m : JM A) (f : A -> JM B) J J' y : jbind m f J = (J', Ok y) ->
  exists J1 x, m J = (J1, Ok x) /\ f x J1 = (J', Ok y).
Proof. unfold jbind. destruct (m J) as [J1 [x|e]]; [eauto|discriminate]. Qed.
Lemma jmap_ext {A B} (f g : A -> JM B) l : (forall x J, In x l -> f x J = g x J) -> forall J, jmap f l J = jmap g l J.
Proof.
  induction l as [|x l IH]; intros H J; cbn [jmap]; auto. unfold jbind. rewrite H by (now left).
  destruct (g x J) as [J1 [y|]]; auto. rewrite IH; auto. intros; apply H; now right.
Qed.
Lemma jmap_Ok {A B} (f : A -> JM B) l : forall J J' ys, jmap f l J = (J', Ok ys) ->
  Forall2 (fun x y => exists J1 J2, f x J1 = (J2, Ok y)) l ys.
Proof.
  induction l as [|x l IH]; intros J J' ys H; cbn [jmap] in H; [injection H as <- <-; constructor|].
  apply jbind_Ok in H as (J1 & y & H1 & H). apply jbind_Ok in H as (J2 & zs & H2 & H). injection H as <- <-.
  constructor; eauto.
Qed.

(** ** Recursion fuel *)
Section Strategy.
Variable strategy : string -> res string.
Notation body := (js_body strategy).
Notation parse := (js_parse strategy).
Notation parse_f := (js_parse_f strategy).

(** The sub-schemas that are read. *)
Definition js_kids (P : pyval -> Prop) (d : list (string * pyval)) : Prop :=
  (forall l x, dget "type" d = Some (PList l) -> In x l -> P x) /\
  (forall ps k x, dget "properties" d = Some (PDict ps) -> In (k, x) ps -> P x) /\
  (forall x, dget "items" d = Some x -> P x).

Lemma kids_smaller d : js_kids (fun x => psize x < psize (PDict d)) d.
Proof.
  rewrite psize_dict. split; [|split].
  - intros l x E I. apply dsize_dget in E. rewrite psize_list in E. apply lsize_In in I. lia.
  - intros ps k x E I. apply dsize_dget in E. rewrite psize_dict in E. apply dsize_In in I. lia.
  - intros x E. apply dsize_dget in E. lia.
Qed.

Lemma body_ext rec1 rec2 d x J : js_kids (fun y => forall J, rec1 y J = rec2 y J) d ->
  body rec1 d x J = body rec2 d x J.
Proof.
  intros (K1 & K2 & K3). unfold js_body, dmem. destruct (dget "type" d) as [ty|] eqn:T; auto.
  destruct ty as [| | | |s|l|e]; auto.
  - destruct (String.eqb s "object" && _) eqn:O.
    + unfold kwarg. destruct (dget "properties" d) as [ps|] eqn:E; auto. destruct ps; auto.
      unfold jbind at 1 3. erewrite jmap_ext; [reflexivity|]. intros [k y] J1 I. cbn [fst snd]. unfold jbind.
      rewrite (K2 _ _ _ eq_refl I). reflexivity.
    + destruct (String.eqb s "array" && _) eqn:A; auto. unfold kwarg. destruct (dget "items" d) as [v|] eqn:E.
      * unfold jbind. rewrite (K3 _ eq_refl). reflexivity.
      * rewrite andb_false_r in A. discriminate.
  - unfold jbind. rewrite (jmap_ext rec1 rec2); auto. intros y J1 I. apply (K1 _ _ eq_refl I).
Qed.
Lemma kids_impl (P Q : pyval -> Prop) d : (forall x, P x -> Q x) -> js_kids P d -> js_kids Q d.
Proof. intros H (A & B & C). split; [|split]; eauto. Qed.

Lemma parse_fuel n : forall m j J, psize j <= n -> psize j <= m -> parse_f n j J = parse_f m j J.
Proof.
  induction n as [|n IH]; intros m j J H1 H2; [pose proof (psize_pos j); lia|].
  destruct m as [|m]; [pose proof (psize_pos j); lia|]. cbn [js_parse_f].
  destruct j as [| | | |s|l|d]; auto.
  { unfold jbind. destruct (js_head strategy _ J) as [J1 [x|e]]; auto. apply body_ext. split; [|split]; intros; discriminate. }
  unfold jbind. destruct (js_head strategy d J) as [J1 [x|e]]; auto. apply body_ext.
  eapply kids_impl; [|apply kids_smaller]. intros y L J2. cbn beta in L. apply IH; lia.
Qed.
Lemma parse_dict d J : parse (PDict d) J = (x <- js_head strategy d ;; body parse d x)%jm J.
Proof.
  unfold js_parse at 1. destruct (psize (PDict d)) as [|n] eqn:E; [pose proof (psize_pos (PDict d)); lia|].
  cbn [js_parse_f]. unfold jbind. destruct (js_head strategy d J) as [J1 [x|e]]; auto. apply body_ext.
  eapply kids_impl; [|apply kids_smaller]. intros y L J2. cbn beta in L. rewrite E in L. apply parse_fuel; lia.
Qed.

(** Termination. *)
Notation jnof J m := (nof (snd (m J))).
Lemma jnof_bind {A B} (m : JM A) (f : A -> JM B) J : nof (snd (m J)) -> (forall a J1, nof (snd (f a J1))) -> nof (snd (jbind m f J)).
Proof. unfold jbind. destruct (m J) as [J1 [a|e]]; cbn; auto. unfold nof. congruence. Qed.
Lemma jnof_map {A B} (f : A -> JM B) l : (forall x J, In x l -> nof (snd (f x J))) -> forall J, nof (snd (jmap f l J)).
Proof.
  induction l as [|x l IH]; intros H J; cbn [jmap]; [discriminate|]. apply jnof_bind; [apply H; now left|].
  intros y J1. apply jnof_bind; [apply IH; intros; apply H; now right|discriminate].
Qed.
Hypothesis strategy_total : forall s, nof (strategy s).
Lemma nof_make_nullable t : nof (snd (make_nullable t)).
Proof.
  unfold make_nullable. destruct (existsb _ _); [discriminate|]. destruct t; try discriminate.
  destruct (dmem _ _); discriminate.
Qed.
Lemma nof_str_in s v : nof (py_str_in s v).
Proof. destruct v; discriminate. Qed.
Lemma nof_property d n f : nof (js_property d n f).
Proof.
  unfold js_property. apply nof_rbind; [apply nof_str_in|]. intros req. apply nof_rbind; [|discriminate].
  destruct req; [discriminate|]. apply nof_rbind; [|discriminate]. destruct (is_nullable f); [discriminate|apply nof_make_nullable].
Qed.
Lemma nof_js_head d J : nof (snd (js_head strategy d J)).
Proof.
  unfold js_head. apply jnof_bind; [|discriminate]. unfold js_id. destruct (dget "$id" d) as [v|]; [|discriminate].
  destruct (match dget "$schema" d with Some _ => _ | None => _ end); [discriminate|].
  destruct v; try discriminate. cbn [snd]. apply nof_rbind; [apply strategy_total|discriminate].
Qed.
Lemma nof_js_body rec d x J : js_kids (fun y => forall J, nof (snd (rec y J))) d -> nof (snd (body rec d x J)).
Proof.
  intros (K1 & K2 & K3). unfold js_body. cbv zeta.
  assert (RF : forall urn : string, nof (snd (let id := rstrip_char "#" urn in
      if str_in id J then (a <- jlift (strategy id) ;; if dmem "alias" x then jfail TypeError
        else jret (TProxy (mkC PNone (PStr a) (kwarg "doc" PNone x) (ddel "doc" x)) None))%jm J
      else (J, Err Unmodelled)))).
  { intros urn. cbv zeta. destruct (str_in _ J); [|discriminate]. apply jnof_bind; [apply strategy_total|].
    intros a J1. destruct (dmem "alias" x); discriminate. }
  set (ref := match dget "$ref" d with Some (PStr urn) => _ | _ => _ end).
  assert (RR : nof (snd (ref J))).
  { unfold ref. destruct (dget "$ref" d) as [v|]; [destruct v|]; try apply RF;
      destruct (dget "$dynamicRef" d) as [w|]; try discriminate; destruct w; try discriminate; apply RF. }
  clearbody ref. unfold dmem. destruct (dget "type" d) as [ty|] eqn:T; auto.
  destruct ty as [| | | |s|l|e]; auto.
  - destruct (String.eqb s "object" && _) eqn:O.
    + unfold kwarg. destruct (dget "properties" d) as [ps|] eqn:E; try discriminate. destruct ps; try discriminate.
      apply jnof_bind; [|discriminate]. apply jnof_map. intros [k y] J1 I. apply jnof_bind; [apply (K2 _ _ _ eq_refl I)|].
      intros f J2. apply nof_property.
    + destruct (String.eqb s "array" && _) eqn:A.
      * unfold kwarg. destruct (dget "items" d) as [v|] eqn:E; [|rewrite andb_false_r in A; discriminate].
        apply jnof_bind; [apply K3; reflexivity|discriminate].
      * repeat match goal with |- nof (snd ((if String.eqb s ?b then _ else _) _)) => destruct (String.eqb s b) end; auto; try discriminate.
        destruct (dget "format" d) as [v|]; try discriminate. destruct v; try discriminate. destruct (String.eqb _ "bytes"); discriminate.
  - apply jnof_bind; [|discriminate]. apply jnof_map. intros y J1 I. apply (K1 _ _ eq_refl I).
Qed.
Lemma nof_js_parse n : forall j J, psize j <= n -> nof (snd (parse_f n j J)).
Proof.
  induction n as [|n IH]; intros j J H; [pose proof (psize_pos j); lia|].
  cbn [js_parse_f]. destruct j as [| | | |s|l|d]; try discriminate.
  - apply jnof_bind; [apply nof_js_head|]. intros x J1. apply nof_js_body.
    split; [|split]; intros; discriminate.
  - repeat match goal with |- nof (snd ((if ?b then _ else _) _)) => destruct b end; discriminate.
  - apply jnof_bind; [apply nof_js_head|]. intros x J1. apply nof_js_body.
    eapply kids_impl; [|apply kids_smaller]. intros y L J2. cbn beta in L. apply IH; lia.
Qed.
Lemma nof_js_to j J : nof (snd (js_to strategy j J)).
Proof.
  unfold js_to. apply jnof_bind; [apply nof_js_parse; auto|]. intros t J1. destruct t; discriminate.
Qed.
End Strategy.
