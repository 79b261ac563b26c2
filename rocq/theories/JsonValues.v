(** Documents that a JSON schema accepts are values of the type that is read from it (C102). *)
From Coq Require Import String Ascii List NArith ZArith QArith Bool Lia.
From Verif Require Import PyVal PyValFacts RType Registry FromDict FromDictFacts RoundTrip Nullable NullableFacts
  SpecTypes Url BigQueryFacts JsonSchema JsonFacts SpecJson JsonRead JsonRefs SpecInstances SpecJsonSchema JsonAccepts.
Import ListNotations.
Open Scope nat_scope.
Open Scope string_scope.
Open Scope list_scope.

Lemma hash_eq s : without_hash s = rstrip_char "#" s.
Proof.
  induction s as [|c r IH]; [reflexivity|]. cbn [without_hash rstrip_char]. rewrite <- IH.
  destruct (Ascii.eqb_spec c "#"%char) as [->|N].
  - destruct (without_hash r); reflexivity.
  - destruct c as [[] [] [] [] [] [] [] []]; try (destruct (without_hash r); reflexivity). congruence.
Qed.

(** ** What the reader does with a schema *)
Section Strategy.
Variable strategy : string -> res string.
Notation parse := (js_parse strategy).

Inductive scalar_read (d x : list (string * pyval)) : string -> rtype -> Prop :=
| sr_bytes : dget "format" d = Some (PStr "bytes") -> scalar_read d x "string" (TBytes (js_common PNone x) PNone (PBool true))
| sr_format f lo : dget "format" d = Some (PStr f) ->
    In (f, lo) [("date", "org.iso.8601.Date"); ("date-time", "org.iso.8601.DateTime"); ("time", "org.iso.8601.Time")] ->
    scalar_read d x "string" (TString (js_common (PStr lo) x) PNone (PBool true))
| sr_string : (forall f, dget "format" d = Some (PStr f) -> ~ In f ["bytes"; "date"; "date-time"; "time"]) ->
    scalar_read d x "string" (TString (js_common PNone x) PNone (PBool true))
| sr_number : scalar_read d x "number" (TFloat (js_common PNone x) (PInt 64))
| sr_integer : scalar_read d x "integer" (TInt (js_common PNone x) (PInt 32) (PBool true))
| sr_boolean : scalar_read d x "boolean" (TBool (js_common PNone x))
| sr_null : scalar_read d x "null" (TNull (js_common PNone x)).
Definition field_read (rec : pyval -> JM rtype) (d : list (string * pyval)) (p : string * pyval) : JM rtype :=
  (f <- rec (snd p) ;; jlift (js_property d (fst p) f))%jm.
Inductive body_read (rec : pyval -> JM rtype) (d x : list (string * pyval)) (J : list string) : list string -> rtype -> Prop :=
| br_types l J' ts : dget "type" d = Some (PList l) -> jmap rec l J = (J', Ok ts) ->
    body_read rec d x J J' (TUnion (js_common PNone x) ts)
| br_object ps J' fs : dget "type" d = Some (PStr "object") -> dget "properties" d = Some (PDict ps) ->
    jmap (field_read rec d) ps J = (J', Ok fs) -> body_read rec d x J J' (TStruct (js_common PNone x) fs)
| br_array y J' t : dget "type" d = Some (PStr "array") -> dget "items" d = Some y -> rec y J = (J', Ok t) ->
    body_read rec d x J J' (TList (js_common PNone x) t PNone (PBool true))
| br_scalar ty t : dget "type" d = Some (PStr ty) -> scalar_read d x ty t -> body_read rec d x J J t
| br_ref k r a : (k = "$ref" \/ k = "$dynamicRef" /\ forall s, dget "$ref" d <> Some (PStr s)) -> dget k d = Some (PStr r) ->
    In (rstrip_char "#" r) J -> strategy (rstrip_char "#" r) = Ok a -> dmem "alias" x = false -> ~ typed d ->
    body_read rec d x J J (TProxy (mkC PNone (PStr a) (kwarg "doc" PNone x) (ddel "doc" x)) None).

Lemma body_inv rec d x J J' t : js_body strategy rec d x J = (J', Ok t) -> body_read rec d x J J' t.
Proof.
  unfold js_body. cbv zeta.
  match goal with |- context [if String.eqb _ "null" then _ else ?r] => set (ref := r) end.
  assert (RR : ~ typed d -> ref J = (J', Ok t) -> body_read rec d x J J' t).
  { intros NT. assert (RF : forall k r, (k = "$ref" \/ k = "$dynamicRef" /\ forall s, dget "$ref" d <> Some (PStr s)) -> dget k d = Some (PStr r) -> (let id := rstrip_char "#" r in
      if str_in id J then (a <- jlift (strategy id) ;; if dmem "alias" x then jfail TypeError
        else jret (TProxy (mkC PNone (PStr a) (kwarg "doc" PNone x) (ddel "doc" x)) None))%jm J
      else (J, Err Unmodelled)) = (J', Ok t) -> body_read rec d x J J' t).
    { intros k r K G. cbv zeta. destruct (str_in _ J) eqn:IN; [|discriminate]. intros E. apply jbind_Ok in E as (J2 & a & SA & E).
      destruct (dmem "alias" x) eqn:M; [discriminate|]. injection E as -> <-. injection SA as -> SA. apply str_in_iff in IN.
      eapply br_ref; eauto. }
    unfold ref. destruct (dget "$ref" d) as [v|] eqn:R1; [destruct v|]; try (apply (RF "$ref"); auto; fail);
      destruct (dget "$dynamicRef" d) as [w|] eqn:R2; try discriminate; destruct w; try discriminate;
      apply (RF "$dynamicRef"); auto; right; split; auto; discriminate. }
  clearbody ref. intros H. unfold typed in RR. destruct (dget "type" d) as [ty|] eqn:T.
  2:{ apply RR; auto. intros [(? & ?)|(? & ? & _)]; discriminate. }
  destruct ty as [| | | |s|l|e]; try (apply RR; auto; intros [(? & ?)|(? & ? & _)]; discriminate).
  2:{ apply jbind_Ok in H as (J2 & ts & F & H). injection H as -> <-. eapply br_types; eauto. }
  destruct (String.eqb s "object" && _) eqn:OB.
  { apply andb_true_iff in OB as [OB _]. apply String.eqb_eq in OB. subst s. unfold kwarg in H. destruct (dget "properties" d) as [v|] eqn:PE; [|discriminate].
    destruct v as [| | | | | |ps]; try discriminate. apply jbind_Ok in H as (J2 & fs & F & H). injection H as -> <-. eapply br_object; eauto. }
  destruct (String.eqb s "array" && _) eqn:AR.
  { apply andb_true_iff in AR as [OB2 AR]. apply String.eqb_eq in OB2. subst s. unfold dmem in AR. unfold kwarg in H. destruct (dget "items" d) as [y|] eqn:IE; [|discriminate].
    apply jbind_Ok in H as (J2 & v & F & H). injection H as -> <-. eapply br_array; eauto. }
  destruct (String.eqb_spec s "string") as [->|Q1].
  { destruct (dget "format" d) as [v|] eqn:FM; [|injection H as <- <-; eapply br_scalar; [exact T|apply sr_string; congruence]].
    destruct v as [| | | |f| |]; try (injection H as <- <-; eapply br_scalar; [exact T|apply sr_string; congruence]).
    destruct (String.eqb_spec f "bytes") as [->|N1]; [injection H as <- <-; eapply br_scalar; [exact T|now apply sr_bytes]|].
    destruct (String.eqb_spec f "date") as [->|N2]; [injection H as <- <-; eapply br_scalar; [exact T|eapply sr_format; [exact FM|cbn; tauto]]|].
    destruct (String.eqb_spec f "date-time") as [->|N3]; [injection H as <- <-; eapply br_scalar; [exact T|eapply sr_format; [exact FM|cbn; tauto]]|].
    destruct (String.eqb_spec f "time") as [->|N4]; [injection H as <- <-; eapply br_scalar; [exact T|eapply sr_format; [exact FM|cbn; tauto]]|].
    injection H as <- <-. eapply br_scalar; [exact T|apply sr_string]. intros f' E. rewrite FM in E. injection E as <-. cbn. intuition. }
  destruct (String.eqb_spec s "number") as [->|Q2]; [injection H as <- <-; eapply br_scalar; [exact T|constructor]|].
  destruct (String.eqb_spec s "integer") as [->|Q3]; [injection H as <- <-; eapply br_scalar; [exact T|constructor]|].
  destruct (String.eqb_spec s "boolean") as [->|Q4]; [injection H as <- <-; eapply br_scalar; [exact T|constructor]|].
  destruct (String.eqb_spec s "null") as [->|Q5]; [injection H as <- <-; eapply br_scalar; [exact T|constructor]|].
  apply RR; auto. intros [(? & ?)|(s' & [= <-] & Y)]; [discriminate|].
  destruct Y as [Y|[[-> Y]|[-> Y]]].
  - cbn in Y. intuition congruence.
  - cbn in OB. unfold dmem in OB. destruct (dget "properties" d); congruence.
  - cbn in AR. unfold dmem in AR. destruct (dget "items" d); congruence.
Qed.
Lemma parse_inv j J J' t : parse j J = (J', Ok t) ->
  exists d J1 x, (j = PDict d \/ exists s, j = PStr s /\ d = [("type", PStr s)]) /\
    js_head strategy d J = (J1, Ok x) /\ body_read parse d x J1 J' t.
Proof.
  intros H. destruct j as [| | | |s|l|d]; try discriminate.
  - unfold js_parse in H. cbn [psize js_parse_f] in H. apply jbind_Ok in H as (J1 & x & HD & H). apply body_inv in H.
    exists [("type", PStr s)], J1, x. split; [eauto|]. split; [exact HD|].
    inversion H as [? ? ? E|? ? ? ? E|? ? ? ? E|ty ? E SR|k ? ? ? E]; subst; try (cbn in E; discriminate E).
    + eapply br_scalar; eauto.
    + destruct H0 as [-> |[-> _]]; discriminate E.
  - unfold js_parse in H. cbn [js_parse_f] in H. exfalso. revert H. destruct (psize (PList l)); [discriminate|]. cbn [js_parse_f].
    repeat match goal with |- (if ?b then _ else _) _ = _ -> _ => destruct b end; discriminate.
  - rewrite parse_dict in H. apply jbind_Ok in H as (J1 & x & HD & H). apply body_inv in H. exists d, J1, x. auto.
Qed.

(** ** Values and attributes *)
Lemma value_set env t c v : value true env t v -> c_alias c = c_alias (get_c t) -> value true env (set_c t c) v.
Proof.
  intros H A. destruct H; cbn [set_c get_c] in *; try (econstructor; eauto; fail).
  - econstructor; eauto; discriminate.
  - eapply v_reference; eauto. congruence.
Qed.
(** [f] has the values of [g], and names as much. *)
Definition covers (g f : rtype) : Prop :=
  (forall env v, value true env g v -> value true env f v) /\
  (forall s a, shown s g -> defines s a -> exists s', shown s' f /\ defines s' a /\ forall env v, value true env s v -> value true env s' v).
Lemma covers_refl t : covers t t.
Proof. split; auto. intros s a S D. exists s. auto. Qed.
Lemma covers_trans a b c : covers a b -> covers b c -> covers a c.
Proof.
  intros [V1 N1] [V2 N2]. split; auto. intros s n S D. apply (N1 s n S) in D as (s1 & S1 & D1 & X1).
  apply (N2 s1 n S1) in D1 as (s2 & S2 & D2 & X2). exists s2. auto 10.
Qed.
Lemma shown_set t c : shown_children (set_c t c) = shown_children t.
Proof. destruct t; reflexivity. Qed.
Lemma proxy_set t c : is_proxy (set_c t c) = is_proxy t.
Proof. destruct t; reflexivity. Qed.
Lemma covers_set t c : c_alias c = c_alias (get_c t) -> covers t (set_c t c).
Proof.
  intros A. split; [intros env v H; now apply value_set|]. intros s a S D. inversion S as [|? x I S']; subst.
  - exists (set_c t c). split; [constructor|]. split.
    + destruct D as [P E]. split; [now rewrite proxy_set|]. rewrite get_set. congruence.
    + intros env v H. now apply value_set.
  - exists s. split; [|auto]. econstructor; [rewrite shown_set; exact I|exact S'].
Qed.
Lemma covers_key k v t : covers t (set_extra_key k v t).
Proof. apply covers_set. reflexivity. Qed.
Lemma covers_member c t ts : In t ts -> covers t (TUnion c ts).
Proof.
  intros I. split.
  - intros env v H. econstructor; eauto. discriminate.
  - intros s a S D. exists s. split; [econstructor; eauto|auto].
Qed.
Lemma nullable_form t g : bare t -> (if is_nullable t then Ok t else snd (make_nullable t)) = Ok g -> covers t g.
Proof.
  intros B. destruct (is_nullable t) eqn:N; [intros [= <-]; apply covers_refl|].
  unfold make_nullable.
  assert (E2 : ddel "name" (ddel "default" (c_extra (get_c t))) = []).
  { destruct (ddel "name" _) as [|[k v] e] eqn:E; auto. exfalso.
    assert (I : In k (dkeys (ddel "name" (ddel "default" (c_extra (get_c t)))))) by (rewrite E; now left).
    apply ddel_keys in I as [I _]. apply ddel_keys in I as [I X]. apply B in I. congruence. }
  cbv zeta. rewrite E2. change (existsb (fun k : string => dmem k (@nil (string * pyval))) ?l) with (existsb (fun _ : string => false) l).
  replace (existsb (fun _ : string => false) ("self" :: "type_" :: ctor_attrs t)) with false by (symmetry; destruct t; reflexivity).
  assert (M : forall c1 c2, c_alias c2 = c_alias (get_c t) -> covers t (TUnion c1 [TNull c0; set_c t c2])).
  { intros c1 c2 A. eapply covers_trans; [apply covers_set; exact A|]. apply covers_member. cbn. auto. }
  destruct t as [c|c|c b s|c b|c b v|c b v|c v l va|c k v|c fs|c s|c ts|c rg]; cbn [is_null set_c] in *; try discriminate N;
    try (intros [= <-]; apply M; reflexivity).
  cbn in N. rewrite N. cbn [dmem dget]. intros [= <-]. clear M. split.
  - intros env v H. inversion H; subst. econstructor; [right; eauto|auto|discriminate].
  - intros s a S D. inversion S as [|? x I S']; subst.
    + eexists. split; [apply shown_self|]. split; [split; [reflexivity|apply D]|].
      intros env v H. inversion H; subst. econstructor; [right; eauto|auto|discriminate].
    + exists s. split; [|auto]. apply shown_child with x; [right; exact I|exact S'].
Qed.
Lemma property_covers d n g f : bare g -> js_property d n g = Ok f ->
  covers g f /\ attr "name" f = Some (PStr n) /\
  (attr "default" f <> None \/ exists l, dget "required" d = Some l /\ py_str_in n l = Ok true).
Proof.
  intros B H. unfold js_property in H. apply rbind_Ok in H as (req & Q & H). apply rbind_Ok in H as (h & G & H). injection H as <-.
  assert (NM : attr "name" (set_extra_key "name" (PStr n) h) = Some (PStr n)).
  { unfold attr, set_extra_key. rewrite get_set. cbn [c_extra]. now rewrite dget_dset, String.eqb_refl. }
  destruct req.
  - injection G as <-. split; [apply covers_key|]. split; [exact NM|]. right. unfold kwarg in Q. destruct (dget "required" d) as [l|]; [eauto|discriminate].
  - apply rbind_Ok in G as (k & K & G). injection G as <-. apply nullable_form in K; auto.
    split; [|split; [exact NM|left]].
    + eapply covers_trans; [exact K|]. eapply covers_trans; [|apply covers_key]. destruct (dmem _ _); [apply covers_refl|apply covers_key].
    + unfold attr, set_extra_key. rewrite get_set. cbn [c_extra]. rewrite dget_dset. change (String.eqb "default" "name") with false. cbv iota.
      destruct (dmem "default" (c_extra (get_c k))) eqn:M.
      * unfold dmem in M. destruct (dget "default" (c_extra (get_c k))); [discriminate|discriminate M].
      * rewrite get_set. cbn [c_extra]. rewrite dget_dset, String.eqb_refl. discriminate.
Qed.

(** ** The ids that are read *)
(** Each id in [J'] was known or belongs to a schema in [j] whose type is named in [t]. *)
Definition named_id (j : pyval) (J' : list string) (t : rtype) (id : string) : Prop :=
  exists d i J1 J2 t0 s a, inside (PDict d) j /\ dget "$id" d = Some (PStr i) /\ id = rstrip_char "#" i /\
    parse (PDict d) J1 = (J2, Ok t0) /\ incl J2 J' /\ strategy id = Ok a /\ shown s t /\ defines s a /\
    forall env v, value true env t0 v -> value true env s v.
Definition ids_named (j : pyval) (J J' : list string) (t : rtype) : Prop :=
  incl J J' /\ forall id, In id J' -> In id J \/ named_id j J' t id.
Lemma named_up j j' J J' t t' id : (forall v, inside v j -> inside v j') -> incl J J' -> 
  (forall s a, shown s t -> defines s a -> exists s', shown s' t' /\ defines s' a /\ forall env v, value true env s v -> value true env s' v) ->
  named_id j J t id -> named_id j' J' t' id.
Proof.
  intros S I C (d & i & J1 & J2 & t0 & s & a & H1 & H2 & H3 & H4 & H5 & H6 & H7 & H8 & H9).
  destruct (C s a H7 H8) as (s' & C1 & C2 & C3). exists d, i, J1, J2, t0, s', a. split; [auto|]. split; [exact H2|]. split; [exact H3|].
  split; [exact H4|]. split; [eapply incl_tran; eauto|]. repeat (split; [auto|]). auto.
Qed.
Lemma head_alias d J J' x lo : js_head strategy d J = (J', Ok x) ->
  (dget "$id" d = None /\ J' = J /\ c_alias (js_common lo x) = PNone) \/
  (exists i a, dget "$id" d = Some (PStr i) /\ J' = (if str_in (rstrip_char "#" i) J then J else rstrip_char "#" i :: J) /\
     strategy (rstrip_char "#" i) = Ok a /\ c_alias (js_common lo x) = PStr a /\ dmem "alias" x = true).
Proof.
  intros H. apply jbind_Ok in H as (J1 & al & H & E). injection E as <- <-. unfold js_id in H.
  assert (K : forall v al', dget "alias" ((match dget "description" d with Some v => [("doc", v)] | None => [] end) ++
           (match dget "default" d with Some v => [("default", v)] | None => [] end) ++ ("alias", v) :: al') = Some v).
  { intros v al'. destruct (dget "description" d), (dget "default" d); reflexivity. }
  destruct (dget "$id" d) as [v|] eqn:I.
  - destruct (match dget "$schema" d with Some _ => _ | None => _ end); [discriminate|]. destruct v as [| | | |s| |]; try discriminate.
    injection H as <- H. apply rbind_Ok in H as (a & SA & H). injection H as <-. right. exists s, a. do 3 (split; [auto|]). split.
    + unfold js_common, kwarg. cbn [c_alias]. now rewrite K.
    + unfold dmem. now rewrite K.
  - injection H as <- <-. left. split; [reflexivity|]. split; [reflexivity|]. unfold js_common, kwarg. cbn [c_alias].
    destruct (dget "description" d), (dget "default" d); reflexivity.
Qed.
Lemma jmap_steps {A B} (f : A -> JM B) (P : list string -> list string -> Prop) (Q : list string -> list string -> A -> B -> Prop) l :
  (forall J, P J J) -> (forall J1 J2 J3, P J1 J2 -> P J2 J3 -> P J1 J3) ->
  (forall x J J' y, In x l -> f x J = (J', Ok y) -> P J J' /\ Q J J' x y) ->
  forall J J' ys, jmap f l J = (J', Ok ys) ->
    P J J' /\ Forall2 (fun x y => exists J1 J2, P J J1 /\ P J2 J' /\ Q J1 J2 x y) l ys.
Proof.
  intros R T. induction l as [|x l IH]; intros S J J' ys H; cbn [jmap] in H; [injection H as <- <-; auto|].
  apply jbind_Ok in H as (J1 & y & H1 & H). apply jbind_Ok in H as (J2 & zs & H2 & H). injection H as <- <-.
  apply S in H1 as [P1 Q1]; [|now left]. apply IH in H2 as [P2 Q2]; [|intros; eapply S; eauto; now right].
  split; [eauto|]. constructor; [exists J, J1; auto|].
  clear - Q2 P1 T. induction Q2 as [|a b l l' (Ja & Jb & X & Y & Z) F IH]; constructor; eauto 10.
Qed.

Lemma jmap_ids {A} (f : A -> JM rtype) (g : A -> pyval) l :
  (forall x J J' y, In x l -> f x J = (J', Ok y) -> ids_named (g x) J J' y) ->
  forall J J' ys, jmap f l J = (J', Ok ys) ->
    incl J J' /\ forall id, In id J' -> In id J \/ exists x y J2, In x l /\ In y ys /\ incl J2 J' /\ named_id (g x) J2 y id.
Proof.
  induction l as [|x l IH]; intros S J J' ys H; cbn [jmap] in H; [injection H as <- <-; split; [apply incl_refl|auto]|].
  apply jbind_Ok in H as (J1 & y & H1 & H). apply jbind_Ok in H as (J2 & zs & H2 & H). injection H as <- <-.
  apply S in H1 as [P1 Q1]; [|now left]. apply IH in H2 as [P2 Q2]; [|intros; eapply S; eauto; now right].
  split; [eapply incl_tran; eauto|]. intros id I. apply Q2 in I as [I|(x' & y' & J3 & X & Y & Z & W)].
  - apply Q1 in I as [I|I]; [auto|]. right. exists x, y, J1. cbn. auto.
  - right. exists x', y', J3. cbn. auto.
Qed.
Lemma field_read_ids d p J J' f : (forall J J' g, parse (snd p) J = (J', Ok g) -> ids_named (snd p) J J' g) ->
  field_read parse d p J = (J', Ok f) -> ids_named (snd p) J J' f.
Proof.
  intros IH H. unfold field_read in H. apply jbind_Ok in H as (J1 & g & G & H). injection H as -> H.
  apply property_covers in H as ((_ & C) & _); [|eapply parse_bare; exact G]. apply IH in G as [I N].
  split; auto. intros id X. apply N in X as [X|X]; auto. right. eapply named_up; [|apply incl_refl|exact C|exact X]; auto.
Qed.
Lemma parse_named n : forall j J J' t, psize j <= n -> parse j J = (J', Ok t) -> ids_named j J J' t.
Proof.
  induction n as [|n IH]; intros j J J' t SZ H; [pose proof (psize_pos j); lia|].
  pose proof H as H0. apply parse_inv in H as (d & J1 & x & JD & HD & BR).
  assert (OWN : forall Jx, (In Jx J1 -> In Jx J \/ (exists i a, j = PDict d /\ dget "$id" d = Some (PStr i) /\ Jx = rstrip_char "#" i /\ strategy Jx = Ok a /\ 
      (forall lo, c_alias (js_common lo x) = PStr a) /\ dmem "alias" x = true)) /\ incl J J1).
  { intros id. split.
    - intros I. pose proof (fun lo => head_alias _ _ _ _ lo HD) as HA.
      destruct (HA PNone) as [(G & -> & _)|(i & a & G & E & SA & A & M)]; [auto|].
      assert (JDD : j = PDict d) by (destruct JD as [|(s & _ & ->)]; [auto|discriminate G]).
      rewrite E in I. destruct (str_in _ J); [auto|]. destruct I as [<-|I]; [|auto]. right. exists i, a. repeat (split; [assumption || reflexivity|]).
      split; [|exact M]. intros lo. destruct (HA lo) as [(G' & _)|(i' & a' & G' & _ & SA' & A' & _)]; [congruence|]. congruence.
    - apply head_ids in HD as [I _]. exact I. }
  assert (INC : incl J J1) by apply (OWN "").
  assert (TOP : forall id, In id J1 -> incl J1 J' ->
     (dmem "alias" x = true -> is_proxy t = false /\ exists lo, c_alias (get_c t) = c_alias (js_common lo x)) -> In id J \/ named_id j J' t id).
  { intros id I I2 PX. apply (OWN id) in I as [I|(i & a & JDD & G & E & SA & A & M)]; auto. right.
    destruct (PX M) as [P (lo & AL)]. exists d, i, J, J', t, t, a. rewrite JDD in *.
    split; [apply inside_self|]. split; [exact G|]. split; [exact E|]. split; [exact H0|]. split; [apply incl_refl|]. split; [exact SA|].
    split; [apply shown_self|]. split; [|auto]. split; [exact P|]. rewrite AL. apply A. }
  destruct BR as [l J' ts T M|ps J' fs T P M|y J' t T P M|ty t T SR|k r a K G I SA DM].
  - destruct JD as [->|(s & -> & ->)]; [|discriminate T]. apply (jmap_ids _ (fun x => x)) in M as [I2 M].
    + split; [eapply incl_tran; eauto|]. intros id I. apply M in I as [I|(y & u & J2 & Y1 & Y2 & Y3 & Y4)].
      * apply TOP; auto. intros _. split; [reflexivity|]. exists PNone. reflexivity.
      * right. eapply named_up; [|exact Y3| |exact Y4].
        { intros v V. eapply inside_dict; [apply dget_In; exact T|]. eapply inside_list; eauto. }
        { intros s b S D. exists s. split; [econstructor; [exact Y2|exact S]|auto]. }
    + intros y Ja Jb u Y U. apply IH; [|exact U]. pose proof (proj1 (kids_smaller d) _ _ T Y). cbn beta in *. lia.
  - destruct JD as [->|(s & -> & ->)]; [|discriminate P]. apply (jmap_ids _ snd) in M as [I2 M].
    + split; [eapply incl_tran; eauto|]. intros id I. apply M in I as [I|(y & u & J2 & Y1 & Y2 & Y3 & Y4)].
      * apply TOP; auto. intros _. split; [reflexivity|]. exists PNone. reflexivity.
      * right. destruct y as [k y]. eapply named_up; [|exact Y3| |exact Y4].
        { intros v V. eapply inside_dict; [apply dget_In; exact P|]. eapply inside_dict; eauto. }
        { intros s b S D. exists s. split; [econstructor; [exact Y2|exact S]|auto]. }
    + intros [k y] Ja Jb u Y U. apply field_read_ids in U; auto. cbn [snd]. intros Jc Jd g. apply IH.
      pose proof (proj1 (proj2 (kids_smaller d)) _ _ _ P Y). cbn beta in *. lia.
  - destruct JD as [->|(s & -> & ->)]; [|discriminate P]. apply IH in M as [I2 M].
    + split; [eapply incl_tran; eauto|]. intros id I. apply M in I as [I|Y4].
      * apply TOP; auto. intros _. split; [reflexivity|]. exists PNone. reflexivity.
      * right. eapply named_up; [|apply incl_refl| |exact Y4].
        { intros v V. eapply inside_dict; [apply dget_In; exact P|exact V]. }
        { intros s b S D. exists s. split; [econstructor; [now left|exact S]|auto]. }
    + pose proof (proj2 (proj2 (kids_smaller d)) _ P). cbn beta in *. lia.
  - split; [exact INC|]. intros id I. apply TOP; auto; [apply incl_refl|]. intros _. destruct SR; cbn; split; eauto.
  - split; [exact INC|]. intros id I'. apply TOP; auto; [apply incl_refl|]. congruence.
Qed.

(** ** Accepted documents *)
Lemma inside_trans a b c : inside a b -> inside b c -> inside a c.
Proof. intros H I. induction I; [exact H|eapply inside_list; eauto|eapply inside_dict; eauto]. Qed.
Lemma small_item l x : small (PList l) -> In x l -> small x.
Proof. intros S I y q D. apply S. eapply in_array; eauto. Qed.
Lemma small_property o k x : small (PDict o) -> dget k o = Some x -> small x.
Proof. intros S I y q D. apply S. eapply in_object; eauto. Qed.
Lemma parse_incl j J J' t : parse j J = (J', Ok t) -> incl J J'.
Proof. intros H. apply (parse_named (psize j)) in H as [I _]; auto. Qed.
Lemma scalar_value env d x ty t v : scalar_read d x ty t -> has_type v ty -> small v -> value true env t v.
Proof.
  intros SR HT S. destruct SR; inversion HT; subst; try (econstructor; cbn; eauto; fail).
  - eapply v_float; [eassumption|]. apply (S v q); [constructor|assumption].
  - eapply v_int; [eassumption|]. apply (S v (inject_Z z)); [constructor|assumption|reflexivity].
Qed.

Definition typed (s v : pyval) : Prop :=
  (exists ty, s = PStr ty /\ has_type v ty) \/ (exists l ty, s = PList l /\ In (PStr ty) l /\ has_type v ty).
Section Root.
Variables (doc : pyval) (Jf : list string) (root : rtype).
Notation env := (names_of root).
Hypothesis ids : proper_ids doc.
Hypothesis final : forall id, In id Jf -> named_id doc Jf root id.
Definition valued (s v : pyval) : Prop :=
  small v -> inside s doc -> forall J1 J2 u, parse s J1 = (J2, Ok u) -> incl J2 Jf -> value true env u v.
Definition kw_valued (d : list (string * pyval)) (k : string) (s v : pyval) : Prop :=
  (k = "type" -> typed s v) /\
  (k = "properties" -> forall ps o n p x, s = PDict ps -> v = PDict o -> In (n, p) ps -> dget n o = Some x -> valued p x) /\
  (k = "required" -> exists l, s = PList l /\ forall o n, v = PDict o -> In (PStr n) l -> dget n o <> None) /\
  (k = "items" -> forall l x, v = PList l -> In x l -> valued s x) /\
  (k = "$ref" \/ k = "$dynamicRef" -> exists r s', s = PStr r /\ target doc r s' /\ valued s' v).
Lemma id_fragment i : ~ fragment i -> rstrip_char "#" i <> "" -> ~ fragment (rstrip_char "#" i).
Proof.
  intros F N (r & E). apply F. destruct i as [|c i]; [now destruct N|]. cbn [rstrip_char] in E.
  destruct (rstrip_char "#" i); [|injection E as -> _; eexists; reflexivity].
  destruct (Ascii.eqb_spec c "#"%char) as [->|]; [discriminate|]. injection E as -> _. eexists; reflexivity.
Qed.
Lemma object_valued d v : (forall k s, dget k d = Some s -> kw_valued d k s v) -> valued (PDict d) v.
Proof.
  intros KW S I J1 J2 u H INC. apply parse_inv in H as (d' & J1' & x & [[= <-]|(s & E & _)] & HD & BR); [|discriminate E].
  assert (TY : forall s, dget "type" d = Some s -> typed s v) by (intros s G; now apply (KW _ _ G)).
  destruct BR as [l J' ts T M|ps J' fs T P M|y J' t T P M|ty t T SR|k r a K G II SA DM].
  - destruct (TY _ T) as [(ty & E & _)|(l' & ty & [= <-] & IL & HT)]; [discriminate E|].
    apply jmap_Ok in M.
    assert (X : exists t J3 J4, In t ts /\ parse (PStr ty) J3 = (J4, Ok t)).
    { clear - M IL. induction M as [|y t l ts (Ja & Jb & Y) M IH]; [destruct IL|]. destruct IL as [->|IL].
      - exists t, Ja, Jb. cbn. auto.
      - destruct (IH IL) as (t' & Jc & Jd & A & B). exists t', Jc, Jd. cbn. auto. }
    destruct X as (t & J3 & J4 & IT & PT). apply parse_inv in PT as (d' & J5 & x' & [E|(s & [= <-] & ->)] & _ & BR); [discriminate E|].
    eapply v_union; [exact IT| |discriminate].
    destruct BR as [? ? ? T'|? ? ? ? P'|? ? ? ? P'|ty' t T' SR|? ? ? [-> |[-> _]] G']; try discriminate.
    injection T' as <-. eapply scalar_value; eauto.
  - destruct (TY _ T) as [(ty & [= <-] & HT)|(l' & ty & E & _)]; [|discriminate E].
    inversion HT; subst. apply (jmap_steps _ (@incl string) (fun Ja Jb p f => exists g, parse (snd p) Ja = (Jb, Ok g) /\ js_property d (fst p) g = Ok f)) in M.
    2:{ apply incl_refl. } 2:{ intros ? ? ?. apply incl_tran. }
    2:{ intros [n p] Ja Jb f IP F. unfold field_read in F. cbn [fst snd] in *. apply jbind_Ok in F as (Jc & g & G & F). injection F as -> F.
        split; [eapply parse_incl; eauto|eauto]. }
    destruct M as [I1 F].
    assert (Y : forall f, In f fs -> exists n p Ja Jb g, In (n, p) ps /\ parse p Ja = (Jb, Ok g) /\ incl Jb J' /\ covers g f /\
       attr "name" f = Some (PStr n) /\ (attr "default" f <> None \/ exists l, dget "required" d = Some l /\ py_str_in n l = Ok true)).
    { clear - F. induction F as [|[n p] f ps fs (Ja & Jb & X1 & X2 & g & X3 & X4) F IH]; [intros ? []|].
      intros f' [<-|IF].
      - apply property_covers in X4 as (C1 & C2 & C3); [|eapply parse_bare; exact X3]. exists n, p, Ja, Jb, g. cbn. auto 10.
      - destruct (IH f' IF) as (n' & p' & Jc & Jd & g' & Z & W). exists n', p', Jc, Jd, g'. split; [now right|exact W]. }
    apply v_struct.
    + intros f IF. destruct (Y f IF) as (n & _ & _ & _ & _ & _ & _ & _ & _ & N & _). eauto.
    + intros f n x0 IF N G. destruct (Y f IF) as (n' & p & Ja & Jb & g & IP & PG & IB & (C & _) & N' & _).
      assert (n' = n) by congruence. subst n'. apply C.
      apply (proj1 (proj2 (KW _ _ P)) eq_refl ps o n p x0 eq_refl eq_refl IP G) with (J1 := Ja) (J2 := Jb); auto.
      * eapply small_property; eauto.
      * eapply inside_trans; [|exact I]. eapply inside_dict; [apply dget_In; exact P|]. eapply inside_dict; [exact IP|constructor].
      * eapply incl_tran; eauto.
    + intros f n IF N G. split; [|discriminate]. destruct (Y f IF) as (n' & p & _ & _ & _ & _ & _ & _ & _ & N' & [D|(l & L & PI)]); auto.
      assert (n' = n) by congruence. subst n'. destruct (proj1 (proj2 (proj2 (KW _ _ L))) eq_refl) as (l' & -> & RQ).
      rewrite str_in_list in PI. injection PI as PI. apply existsb_exists in PI as (z & IZ & EZ). apply py_eq_str in EZ. subst z.
      destruct (RQ o n eq_refl IZ G).
  - destruct (TY _ T) as [(ty & [= <-] & HT)|(l' & ty & E & _)]; [|discriminate E]. inversion HT; subst.
    apply v_list; [exact Logic.I|]. intros z IZ. apply (proj1 (proj2 (proj2 (proj2 (KW _ _ P)))) eq_refl l z eq_refl IZ) with (J1 := J1') (J2 := J'); auto.
    + eapply small_item; eauto.
    + eapply inside_trans; [|exact I]. eapply inside_dict; [apply dget_In; exact P|constructor].
  - destruct (TY _ T) as [(ty' & [= <-] & HT)|(l' & ty' & E & _)]; [|discriminate E]. eapply scalar_value; eauto.
  - assert (K' : k = "$ref" \/ k = "$dynamicRef") by tauto.
    destruct (proj2 (proj2 (proj2 (proj2 (KW _ _ G)))) K') as (r' & s' & [= <-] & TG & VS).
    apply INC in II. destruct (final _ II) as (d0 & i & J3 & J4 & t0 & s & a' & ID & GI & ER & PT & IN4 & SA' & SH & DF & CV).
    assert (a' = a) by congruence. subst a'.
    assert (s' = PDict d0) as ->.
    { destruct TG as [d1 e b s1 E1 E2 TK E3|d1 i1 r1 ID1 GI1 EH].
      - exfalso. assert (NE : rstrip_char "#" ("#/$defs/" ++ b) = String "#" (String "/" (rstrip_char "#" ("$defs/" ++ b)))) by (cbn; destruct (rstrip_char "#" b); reflexivity).
        apply (id_fragment i); [eapply ids; eauto|rewrite <- ER, NE; discriminate|]. rewrite <- ER, NE. eexists; reflexivity.
      - f_equal. apply (proj2 ids d1 d0 i1 i); auto. rewrite <- EH, !hash_eq. exact ER. }
    eapply v_reference; [reflexivity| |apply CV; eapply VS; eauto]. split; auto.
Qed.
Lemma accepts_valued : forall s v, accepts doc s v -> valued s v.
Proof.
  apply (accepts_m doc valued kw_valued (fun _ _ => True) (fun _ _ _ _ => True)); try (intros; exact Logic.I);
    try (intros; split; [|split; [|split; [|split]]]; intros E0; try discriminate E0; try (destruct E0; discriminate); fail).
  - intros v _ _ J1 J2 u H. discriminate H.
  - intros d v _ IH. now apply object_valued.
  - intros d s v HT. split; [|split; [|split; [|split]]]; intros E0; try discriminate E0; try (destruct E0; discriminate). left. eauto.
  - intros d l s v IL HT. split; [|split; [|split; [|split]]]; intros E0; try discriminate E0; try (destruct E0; discriminate). right. eauto.
  - intros d ps v _ IH. split; [|split; [|split; [|split]]]; intros E0; try discriminate E0; try (destruct E0; discriminate).
    intros ps' o n p x [= <-] -> IP G. eapply IH; eauto.
  - intros d l v H. split; [|split; [|split; [|split]]]; intros E0; try discriminate E0; try (destruct E0; discriminate). eauto.
  - intros d s v _ IH. split; [|split; [|split; [|split]]]; intros E0; try discriminate E0; try (destruct E0; discriminate). eauto.
  - intros d k r s v K TG _ IH. split; [|split; [|split; [|split]]]; intros E0; try (subst k; destruct K; discriminate). eauto.
  - intros d k s v N. split; [|split; [|split; [|split]]]; intros E0; exfalso; apply N; try subst k; cbn; tauto || (destruct E0; subst; tauto).
Qed.
End Root.
Theorem accepted_value j J' t v : proper_ids j -> js_to strategy j [] = (J', Ok t) -> accepts j j v -> small v ->
  value true (names_of t) t v.
Proof.
  intros ID H A S. unfold js_to in H. apply jbind_Ok in H as (J1 & t1 & H & E).
  assert (ET : t1 = t /\ J1 = J') by (destruct t1; inversion E; auto). destruct ET as [-> ->].
  assert (F : forall id, In id J' -> named_id j J' t id).
  { pose proof (parse_named _ _ _ _ _ (le_n _) H) as [_ N]. intros id I. destruct (N id I) as [[]|X]. exact X. }
  exact (accepts_valued j J' t ID F j v A S (inside_self _) [] J' t H (incl_refl _)).
Qed.
End Strategy.
