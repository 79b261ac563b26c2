(** Proofs for C125: the JSON schemas of PostgreSQL tables with array columns. *)
From Coq Require Import String Ascii List NArith ZArith QArith Bool Lia.
From Verif Require Import PyVal PyValFacts RType Registry FromDict SpecTypes SpecDb SpecPrinted SpecJson SpecInstances
  Dbapi DbapiFacts DbapiMore Url JsonSchema JsonWrite Commands PrintedFormats JsonReprint TableJson.
Import ListNotations.
Open Scope nat_scope.
Open Scope string_scope.
Open Scope list_scope.

Lemma kw_is_ref doc d r v : keyword doc d "$ref" (PStr r) v -> exists s, target doc r s /\ accepts doc s v.
Proof. intros K. inversion K; subst; eauto. exfalso. match goal with X : ~ In _ keywords |- _ => apply X end. cbn. tauto. Qed.
Lemma kw_get doc d k s v : accepts doc (PDict d) v -> dget k d = Some s -> keyword doc d k s v.
Proof. intros A G. inversion A; subst; auto. Qed.

Theorem array_members namespace cols ns R R' t d i col n :
  Forall2 called cols ns -> NoDup ns -> to_recap (pg_type false namespace) cols R = (R', Ok t) ->
  schema_output FJson t = Ok (ODocument (PDict d)) -> (forall s, ~ has_id (PDict d) s) ->
  nth_error cols i = Some col -> nth_error ns i = Some n -> array_column col ->
  (forall o x, dget n o = Some x -> ~ accepts (PDict d) (PDict d) (PDict o)) /\
  (~ nullable_column col -> forall v, ~ accepts (PDict d) (PDict d) v).
Proof.
  intros CA ND H S NI C N AC.
  destruct (pg_loops namespace cols ns R R' t d i col n CA ND H S C N AC) as (ps & p & PS & HP & RP & DP).
  set (a := array_alias namespace n) in *.
  assert (TD : forall s, target (PDict d) ("#/$defs/" ++ a) s -> s = PDict [("$ref", pointer a)]).
  { intros s T. remember ("#/$defs/" ++ a)%string as r eqn:Er. destruct T as [d' e a' s ED G TK X|d' i' r I G WH].
    - injection ED as <-. cbn in Er. injection Er as ->. unfold definitions in DP. rewrite G in DP. congruence.
    - exfalso. apply (NI i'). exists d'. auto. }
  assert (NO : forall v, ~ accepts (PDict d) (PDict [("$ref", pointer a)]) v) by (eapply loop_rejects; [exact TD|reflexivity]).
  assert (NP : forall v, ~ accepts (PDict d) (PDict p) v).
  { intros v A. destruct (kw_is_ref _ _ _ _ (kw_get _ _ _ _ _ A RP)) as (s & T & B). rewrite (TD _ T) in B. exact (NO _ B). }
  assert (M : forall o x, dget n o = Some x -> ~ accepts (PDict d) (PDict d) (PDict o)).
  { intros o x Hx A. apply (NP x). exact (kw_is_properties _ _ _ _ (kw_get _ _ _ _ _ A PS) o n (PDict p) x eq_refl (dget_In _ _ _ HP) Hx). }
  split; [exact M|]. intros NN v A.
  assert (RQ : required_name d n).
  { destruct (table_required _ cols ns R R' t d i col n (db_postgresql false namespace) CA ND H S C N) as (R1 & R2 & b & f & PB & F & FS & RQ).
    apply RQ. rewrite (optional_column col b f F (strict_scalar _ col R1 R2 b (st_postgresql namespace) PB) FS). exact NN. }
  assert (TY : dget "type" d = Some (PStr "object")).
  { destruct (table_json _ cols ns R R' t (db_postgresql false namespace) CA H) as (bases & fs & d' & ps' & _ & _ & _ & _ & _ & J & T & _).
    unfold schema_output in S. rewrite J in S. injection S as ->. exact T. }
  assert (exists o, v = PDict o) as (o & ->).
  { pose proof (kw_is_type _ _ _ _ (kw_get _ _ _ _ _ A TY)) as HT. inversion HT; eauto. }
  destruct (dget n o) as [x|] eqn:X; [exact (M o x X A)|].
  destruct RQ as (l & RL & IN). exact (kw_is_required _ _ _ _ (kw_get _ _ _ _ _ A RL) o n eq_refl IN X).
Qed.

(** No object within a document has the key "$id". *)
Fixpoint idless (v : pyval) : bool :=
  match v with
  | PList l => forallb idless l
  | PDict d => negb (dmem "$id" d) && forallb (fun kv => idless (snd kv)) d
  | _ => true
  end.
Lemma no_ids v e : idless v = true -> inside (PDict e) v -> dget "$id" e = None.
Proof.
  intros E I. revert E. induction I as [|l j J I IH|d k j J I IH]; cbn [idless]; intros E.
  - apply andb_true_iff in E as [E _]. unfold dmem in E. destruct (dget "$id" e); auto; discriminate.
  - rewrite forallb_forall in E. auto.
  - apply andb_true_iff in E as [_ E]. rewrite forallb_forall in E. apply IH, (E (k, j) J).
Qed.
