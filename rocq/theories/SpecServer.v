(** What the registry endpoints answer, over the map of SpecStorage.v; no files, no handlers. *)
From Coq Require Import String List ZArith Sorting.Sorted.
From Verif Require Import PyVal RType Storage SpecStorage Server.
Import ListNotations.
Open Scope nat_scope.
Open Scope string_scope.
Open Scope list_scope.

Definition media_ok (ct : option string) : Prop :=
  ct = None \/ ct = Some "" \/ ct = Some "application/x-recap+json".

(** The document in a body; text that is not JSON is the name of a type. *)
Definition doc_of (b : body) : option pyval :=
  match b with Json j => Some j | Text s => Some (PStr s) | NotUtf8 => None end.

(** An error: status 500, or the status it carries. *)
Definition error_reply (e : exn) (r : reply) : Prop :=
  r = RFailure e \/ exists c, e = HTTPError c /\ r = RStatus c.

Section Spec.
  (** How a type is written and how a document is read. *)
  Variable write : rtype -> res pyval.
  Variable parse : pyval -> res rtype.

  (** The answer for a name and version. *)
  Inductive shows (h : list event) (n : string) (v : Z) : reply -> Prop :=
  | shows_none : entry h n v = None -> shows h n v (RStatus 404)
  | shows_type d t d' : entry h n v = Some (Some d) -> parse d = Ok t -> write t = Ok d' -> shows h n v (RType d' v)
  | shows_damaged r : entry h n v = Some None -> error_reply JSONDecodeError r -> shows h n v r
  | shows_unreadable d e r : entry h n v = Some (Some d) -> parse d = Err e -> error_reply e r -> shows h n v r
  | shows_unwritable d t e r : entry h n v = Some (Some d) -> parse d = Ok t -> write t = Err e -> error_reply e r ->
      shows h n v r.

  (** Storing a body under a name, as version [v] or the next one. *)
  Inductive stores (h : list event) (n : string) (v : option Z) (b : body) : list event -> reply -> Prop :=
  | stores_bytes r : doc_of b = None -> error_reply ValueError r -> stores h n v b h r
  | stores_invalid j e : doc_of b = Some j -> parse j = Err e -> stores h n v b h (RStatus 400)
  | stores_unwritable j t e r : doc_of b = Some j -> parse j = Ok t -> write t = Err e -> error_reply e r ->
      stores h n v b h r
  | stores_ok j t d w : doc_of b = Some j -> parse j = Ok t -> write t = Ok d -> target h n v w ->
      stores h n v b (Stored n w d :: h) (RVersion w).

  (** [answers h0 h q h' r]: request [q] arrived in state [h0], is answered [r] in state [h], which
      becomes [h']. Only PUT looks at the state of its arrival. *)
  Inductive answers (h0 h : list event) : request -> list event -> reply -> Prop :=
  | an_ls l : StronglySorted str_lt l -> (forall n, In n l <-> listed h n) -> answers h0 h QLs h (RNames l)
  | an_latest_none n : (forall w, ~ present h n w) -> answers h0 h (QLatest n) h (RStatus 404)
  | an_latest n v r : latest_present h n v -> shows h n v r -> answers h0 h (QLatest n) h r
  | an_versions_none n : (forall w, ~ present h n w) -> answers h0 h (QVersions n) h (RStatus 404)
  | an_versions n l : l <> [] -> StronglySorted Z.lt l -> (forall v, In v l <-> present h n v) ->
      answers h0 h (QVersions n) h (RVersions l)
  | an_version n v r : shows h n v r -> answers h0 h (QVersion n v) h r
  | an_post_media n ct b : ~ media_ok ct -> answers h0 h (QPost n ct b) h (RStatus 415)
  | an_post n ct b h' r : media_ok ct -> stores h n None b h' r -> answers h0 h (QPost n ct b) h' r
  | an_put_conflict n v ct b d t : entry h0 n v = Some (Some d) -> parse d = Ok t ->
      answers h0 h (QPut n v ct b) h (RStatus 409)
  | an_put_damaged n v ct b r : entry h0 n v = Some None -> error_reply JSONDecodeError r ->
      answers h0 h (QPut n v ct b) h r
  | an_put_unreadable n v ct b d e r : entry h0 n v = Some (Some d) -> parse d = Err e -> error_reply e r ->
      answers h0 h (QPut n v ct b) h r
  | an_put_media n v ct b : entry h0 n v = None -> ~ media_ok ct -> answers h0 h (QPut n v ct b) h (RStatus 415)
  | an_put n v ct b h' r : entry h0 n v = None -> media_ok ct -> stores h n (Some v) b h' r ->
      answers h0 h (QPut n v ct b) h' r.

  Definition later (h0 h : list event) : Prop := exists p, h = p ++ h0.

  (** The requests [l] answered one at a time, from state [h0]: who got which answer, in order.
      Each arrived in some state since then. *)
  Inductive serial (l : list request) (h0 : list event) : list (nat * reply) -> list event -> Prop :=
  | serial_nil : serial l h0 [] h0
  | serial_step o h i q h1 h' r : serial l h0 o h -> nth_error l i = Some q -> ~ In i (map fst o) ->
      later h0 h1 -> later h1 h -> answers h1 h q h' r -> serial l h0 (o ++ [(i, r)]) h'.
End Spec.
