(** Specification of the schema registry: a map kept as the history of puts.
    Independent of the storage model (no paths, no files). *)
From Coq Require Import String Ascii List ZArith Sorting.Sorted.
From Verif Require Import PyVal RType.
Import ListNotations.
Open Scope string_scope.
Open Scope list_scope.

(** Successful puts, most recent first: name, version, document. *)
Definition history := list (string * Z * pyval).

Definition valid_name (n : string) : Prop := n <> "" /\ n <> "." /\ n <> "..".

(** The document of the last put for a name and version. *)
Fixpoint stored_doc (h : history) (n : string) (v : Z) : option pyval :=
  match h with
  | [] => None
  | (n', v', d) :: r => if andb (String.eqb n n') (Z.eqb v v') then Some d else stored_doc r n v
  end.

Definition has_version (h : history) (n : string) (v : Z) : Prop := exists d, stored_doc h n v = Some d.
Definition has_name (h : history) (n : string) : Prop := exists v, has_version h n v.

(** The highest version of a name. *)
Definition is_latest (h : history) (n : string) (v : Z) : Prop :=
  has_version h n v /\ forall w, has_version h n w -> (w <= v)%Z.

(** Code point order. *)
Inductive str_lt : string -> string -> Prop :=
| lt_nil c s : str_lt "" (String c s)
| lt_head c d s t : (N_of_ascii c < N_of_ascii d)%N -> str_lt (String c s) (String d t)
| lt_tail c s t : str_lt s t -> str_lt (String c s) (String c t).

(** Operations and what they answer. *)
Inductive op :=
| OPut (n : string) (t : rtype) (v : option Z)
| OGet (n : string) (v : option Z)
| OVersions (n : string)
| OLatest (n : string)
| OLs.

Inductive answer :=
| APut (r : res Z)
| AGet (r : res (option (rtype * Z)))
| AVersions (r : res (option (list Z)))
| ALatest (r : res (option Z))
| ALs (r : res (list string)).

Definition op_name (o : op) : option string :=
  match o with OPut n _ _ | OGet n _ | OVersions n | OLatest n => Some n | OLs => None end.

Section Spec.
  (** How a type is written and how a document is read back. *)
  Variable write : rtype -> res pyval.
  Variable parse : pyval -> res rtype.

  Definition read_back (h : history) (n : string) (v : Z) (r : res (option (rtype * Z))) : Prop :=
    match stored_doc h n v with
    | None => r = Ok None
    | Some d => match parse d with
                | Ok t => r = Ok (Some (t, v))
                | Err e => r = Err e
                end
    end.

  (** One operation of the map. *)
  Inductive spec_step (h : history) : op -> history -> answer -> Prop :=
  | s_put_fail n t v e : write t = Err e -> spec_step h (OPut n t v) h (APut (Err e))
  | s_put n t v d : write t = Ok d -> spec_step h (OPut n t (Some v)) ((n, v, d) :: h) (APut (Ok v))
  | s_put_first n t d : write t = Ok d -> ~ has_name h n ->
      spec_step h (OPut n t None) ((n, 1%Z, d) :: h) (APut (Ok 1%Z))
  | s_put_next n t v d : write t = Ok d -> is_latest h n v ->
      spec_step h (OPut n t None) ((n, (v + 1)%Z, d) :: h) (APut (Ok (v + 1)%Z))
  | s_get n v r : read_back h n v r -> spec_step h (OGet n (Some v)) h (AGet r)
  | s_get_none n : ~ has_name h n -> spec_step h (OGet n None) h (AGet (Ok None))
  | s_get_latest n v r : is_latest h n v -> read_back h n v r -> spec_step h (OGet n None) h (AGet r)
  | s_versions_none n : ~ has_name h n -> spec_step h (OVersions n) h (AVersions (Ok None))
  | s_versions n l : has_name h n -> StronglySorted Z.lt l -> (forall v, In v l <-> has_version h n v) ->
      spec_step h (OVersions n) h (AVersions (Ok (Some l)))
  | s_latest_none n : ~ has_name h n -> spec_step h (OLatest n) h (ALatest (Ok None))
  | s_latest n v : is_latest h n v -> spec_step h (OLatest n) h (ALatest (Ok (Some v)))
  | s_ls l : StronglySorted str_lt l -> (forall n, In n l <-> has_name h n) ->
      spec_step h OLs h (ALs (Ok l)).

  Inductive spec_run : history -> list op -> list answer -> history -> Prop :=
  | sr_nil h : spec_run h [] [] h
  | sr_cons h o h1 a os az h2 : spec_step h o h1 a -> spec_run h1 os az h2 -> spec_run h (o :: os) (a :: az) h2.
End Spec.

(** ** With crashes
    A put interrupted by a crash may leave the name created without the version, or the
    version present but unreadable. *)
Inductive event :=
| Stored (n : string) (v : Z) (d : pyval)
| Damaged (n : string) (v : Z)
| Created (n : string).

Definition event_name (e : event) : string :=
  match e with Stored n _ _ | Damaged n _ | Created n => n end.

(** What is kept for a name and version: nothing, an unreadable text, or a document. *)
Fixpoint entry (h : list event) (n : string) (v : Z) : option (option pyval) :=
  match h with
  | [] => None
  | Stored n' v' d :: r => if andb (String.eqb n n') (Z.eqb v v') then Some (Some d) else entry r n v
  | Damaged n' v' :: r => if andb (String.eqb n n') (Z.eqb v v') then Some None else entry r n v
  | Created _ :: r => entry r n v
  end.

Definition listed (h : list event) (n : string) : Prop := In n (map event_name h).
Definition present (h : list event) (n : string) (v : Z) : Prop := entry h n v <> None.
Definition latest_present (h : list event) (n : string) (v : Z) : Prop :=
  present h n v /\ forall w, present h n w -> (w <= v)%Z.

(** The version the next put of a name gets. *)
Inductive next_version (h : list event) (n : string) : Z -> Prop :=
| nv_first : (forall w, ~ present h n w) -> next_version h n 1%Z
| nv_next v : latest_present h n v -> next_version h n (v + 1)%Z.
Definition target (h : list event) (n : string) (v : option Z) (w : Z) : Prop :=
  match v with Some v => w = v | None => next_version h n w end.

(** The four states a crashed put can leave behind. *)
Inductive crash_effect (h : list event) (n : string) (v : Z) (d : pyval) : list event -> Prop :=
| ce_nothing : crash_effect h n v d h
| ce_created : crash_effect h n v d (Created n :: h)
| ce_damaged : crash_effect h n v d (Damaged n v :: h)
| ce_stored : crash_effect h n v d (Stored n v d :: h).

(** An operation, or a put that is cut off after a number of primitive steps. *)
Inductive cop := Run (o : op) | Crash (n : string) (t : rtype) (v : option Z) (after : nat).

Definition cop_name (c : cop) : option string :=
  match c with Run o => op_name o | Crash n _ _ _ => Some n end.

Section CrashSpec.
  Variable write : rtype -> res pyval.
  Variable parse : pyval -> res rtype.

  Definition answer_of (h : list event) (n : string) (v : Z) : res (option (rtype * Z)) :=
    match entry h n v with
    | None => Ok None
    | Some None => Err JSONDecodeError
    | Some (Some d) => match parse d with Ok t => Ok (Some (t, v)) | Err e => Err e end
    end.

  Inductive cspec_step (h : list event) : cop -> list event -> option answer -> Prop :=
  | cs_crash_fail n t v k e : write t = Err e -> cspec_step h (Crash n t v k) h None
  | cs_crash n t v k d w h' : write t = Ok d -> target h n v w -> crash_effect h n w d h' ->
      cspec_step h (Crash n t v k) h' None
  | cs_put_fail n t v e : write t = Err e -> cspec_step h (Run (OPut n t v)) h (Some (APut (Err e)))
  | cs_put n t v d w : write t = Ok d -> target h n v w ->
      cspec_step h (Run (OPut n t v)) (Stored n w d :: h) (Some (APut (Ok w)))
  | cs_get n v : cspec_step h (Run (OGet n (Some v))) h (Some (AGet (answer_of h n v)))
  | cs_get_none n : (forall w, ~ present h n w) -> cspec_step h (Run (OGet n None)) h (Some (AGet (Ok None)))
  | cs_get_latest n v : latest_present h n v ->
      cspec_step h (Run (OGet n None)) h (Some (AGet (answer_of h n v)))
  | cs_versions_none n : ~ listed h n -> cspec_step h (Run (OVersions n)) h (Some (AVersions (Ok None)))
  | cs_versions n l : listed h n -> StronglySorted Z.lt l -> (forall v, In v l <-> present h n v) ->
      cspec_step h (Run (OVersions n)) h (Some (AVersions (Ok (Some l))))
  | cs_latest_none n : (forall w, ~ present h n w) -> cspec_step h (Run (OLatest n)) h (Some (ALatest (Ok None)))
  | cs_latest n v : latest_present h n v -> cspec_step h (Run (OLatest n)) h (Some (ALatest (Ok (Some v))))
  | cs_ls l : StronglySorted str_lt l -> (forall n, In n l <-> listed h n) ->
      cspec_step h (Run OLs) h (Some (ALs (Ok l))).

  Inductive cspec_run : list event -> list cop -> list (option answer) -> list event -> Prop :=
  | cr_nil h : cspec_run h [] [] h
  | cr_cons h o h1 a os az h2 : cspec_step h o h1 a -> cspec_run h1 os az h2 -> cspec_run h (o :: os) (a :: az) h2.
End CrashSpec.
