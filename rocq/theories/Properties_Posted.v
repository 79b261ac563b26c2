(** What GET answers after a POST (C26). *)
From Coq Require Import String List ZArith.
From Verif Require Import PyVal RType Registry FromDict ToDict Storage SpecStorage Server ServerFacts SpecTypes SpecCompact
  ServerTrip Properties_Storage Properties_Compact.
Import ListNotations.
Open Scope nat_scope.
Open Scope string_scope.
Open Scope list_scope.

(** ** C26
    The posted document is written, read, written for the answer and read by the client: two
    replacements of parts by names.  [l] are all requests, resumed in any order; a request that
    has not been resumed has not arrived.
    Missing: types that to_dict cannot express ([compact_ok], [alias_ok], see C14) and the
    names "" and "." and ".." (C20). *)
Theorem C26_get_posted_partial : forall root fs l sched i n ct b v t,
  Forall valid_name root -> reachable root fs -> Forall request_ok l -> valid_name n ->
  match b with Json j => pwf j | _ => True end ->
  nth_error (snd (run_server root sched (accept fs l))) i = Some (QPost n ct b, Done (RVersion v)) ->
  (forall ct' b', ~ In (QPut n v ct' b') l) ->
  body_type b = Ok t -> all_nodes (alias_ok true) t -> all_nodes compact_ok t ->
  exists d t1 t2, serve root (fst (run_server root sched (accept fs l))) (QVersion n v) =
      (fst (run_server root sched (accept fs l)), Done (RType d v)) /\
    same_meaning (names_in t) t t1 /\ snd (from_dict_new d) = Ok t2 /\ same_meaning (names_in t1) t1 t2.
Proof. exact (fun root fs l sched i n ct b v t R => get_denotes root R i n ct b fs l sched v t). Qed.
Print Assumptions C26_get_posted_partial.

(** For every type: what GET reads is the document that to_dict writes for the posted type. *)
Theorem C26_get_document_partial : forall root fs l sched i n ct b v,
  Forall valid_name root -> reachable root fs -> Forall request_ok l -> valid_name n ->
  nth_error (snd (run_server root sched (accept fs l))) i = Some (QPost n ct b, Done (RVersion v)) ->
  (forall ct' b', ~ In (QPut n v ct' b') l) ->
  exists t d, body_type b = Ok t /\ to_dict true true t = Ok d /\
    get root (fst (run_server root sched (accept fs l))) n (Some v) =
      match snd (from_dict_new d) with Ok t' => Ok (Some (t', v)) | Err e => Err e end.
Proof. exact (fun root fs l sched i n ct b v R => get_posted root R i n ct b fs l sched v). Qed.
Print Assumptions C26_get_document_partial.

Definition traffic : list request :=
  [QPost "a" None (Json alias_sample); QPost "a" None (Json (PStr "bool")); QPut "a" 1 None (Json (PStr "int32"));
   QPut "b" 2 None (Text "string")].
Example C26_case : (* the POST gets version 2 because a PUT created version 1 *)
  let s := run_server reg_root [2; 0; 2; 3; 0; 1; 3; 1] (accept disk1 traffic) in
  map snd (snd s) = [Done (RVersion 2%Z); Done (RVersion 3%Z); Done (RVersion 1%Z); Done (RVersion 2%Z)] /\
  exists d, serve reg_root (fst s) (QVersion "a" 2) = (fst s, Done (RType d 2%Z)) /\
    exists t, body_type (Json alias_sample) = Ok t /\ all_nodes (alias_ok true) t /\ all_nodes compact_ok t /\ to_dict true true t = Ok d.
Proof.
  cbv zeta. split; [vm_compute; reflexivity|]. eexists. split; [vm_compute; reflexivity|].
  destruct (from_dict_new alias_sample) as [R' [t|e]] eqn:E; [|vm_compute in E; discriminate].
  exists t. destruct (alias_sample_ok t R' E) as [A B].
  split; [unfold body_type; now rewrite E|]. split; [exact A|]. split; [exact B|].
  vm_compute in E. injection E as _ <-. vm_compute. reflexivity.
Qed.

(** The full statement is false: the documentation of a posted optional union moves to its
    member. Even if any reference were allowed to stand for anything, the answer differs. *)
Theorem C26_get_posted_refuted : exists fs l sched i n ct j v t d t2,
  reachable reg_root fs /\ Forall request_ok l /\ pwf j /\
  nth_error (snd (run_server reg_root sched (accept fs l))) i = Some (QPost n ct (Json j), Done (RVersion v)) /\
  (forall ct' b', ~ In (QPut n v ct' b') l) /\ body_type (Json j) = Ok t /\
  snd (serve reg_root (fst (run_server reg_root sched (accept fs l))) (QVersion n v)) = Done (RType d v) /\
  snd (from_dict_new d) = Ok t2 /\ ~ same_meaning (fun _ _ => True) t t2.
Proof.
  pose (j := union_doc [PStr "null"; PStr "string"] [("default", PNone); ("doc", PStr "x")]).
  exists disk1, [QPost "a" None (Json j)], [0; 0], 0, "a", None, j, 1%Z. do 3 eexists.
  split; [apply disk1_reachable|]. split; [repeat constructor; discriminate|].
  split; [repeat constructor; cbn; intuition discriminate|].
  split; [vm_compute; reflexivity|]. split; [intros ct' b' [H|[]]; discriminate|].
  split; [vm_compute; reflexivity|]. split; [vm_compute; reflexivity|]. split; [vm_compute; reflexivity|].
  assert (K : forall r t u, same_meaning r t u -> is_proxy u = false -> common_same (get_c t) (get_c u))
    by (intros r t u [v _ C _ _|a _] P; [exact C|discriminate]).
  intros S. destruct (K _ _ _ S eq_refl) as (_ & _ & C & _). cbn in C. inversion C as [|? ? ? ? A| | |]. inversion A.
Qed.
Print Assumptions C26_get_posted_refuted.
