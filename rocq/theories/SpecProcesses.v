(** Vocabulary for the properties of processes that share a registry directory (C104-C107). *)
From Coq Require Import String List ZArith Bool.
From Verif Require Import PyVal RType ToDict Storage SpecStorage Processes.
Import ListNotations.
Open Scope nat_scope.
Open Scope string_scope.
Open Scope list_scope.

(** Calls about a schema name; a listing of all names is about none. *)
Definition about (m : string) (o : op) : bool :=
  match op_name o with Some n => String.eqb n m | None => false end.
Definition answers_about (m : string) (p : process) : list (op * answer) :=
  filter (fun e => about m (fst e)) (finished p).

(** Call [k] of process [i] is a put of [n] that has got the version [w]: it has returned it, or has
    chosen it and is under way. *)
Definition begun (l : list process) (i k : nat) (n : string) (w : Z) : Prop :=
  exists p t v, nth_error l i = Some p /\
    (nth_error (finished p) k = Some (OPut n t v, APut (Ok w)) \/
     (k = length (finished p) /\ hd_error (todo p) = Some (OPut n t v) /\ exists r, stands p = Putting w r)).
(** Call [k] of process [i] has not begun. *)
Definition not_begun (l : list process) (i k : nat) : Prop :=
  exists p, nth_error l i = Some p /\ (length (finished p) < k \/ (k = length (finished p) /\ stands p = Begin)).
(** Call [k] of process [i] has returned. *)
Definition returned (l : list process) (i k : nat) (o : op) (a : answer) : Prop :=
  exists p, nth_error l i = Some p /\ nth_error (finished p) k = Some (o, a).
(** [d] is the document of a put of [n] among the calls, one that chooses its version or is given [w]. *)
Definition some_put (calls : list (list op)) (n : string) (w : Z) (d : pyval) : Prop :=
  exists l t v, In l calls /\ In (OPut n t v) l /\ to_dict true true t = Ok d /\ (v = None \/ v = Some w).
(** The exception that a call ended with. *)
Definition failure (a : answer) : option exn :=
  match a with
  | APut (Err e) | AGet (Err e) | AVersions (Err e) | ALatest (Err e) | ALs (Err e) => Some e
  | _ => None
  end.
