(** Property theorems for processes that share the directory of a registry (C104-C107). *)
From Coq Require Import String Ascii List ZArith Bool Lia.
From Verif Require Import PyVal RType Registry FromDict ToDict Quote QuoteFacts Storage SpecStorage Server
  StorageFacts StorageMore ServerFacts CrashFacts Processes SpecProcesses ProcessFacts ProcessProps ProcessNames ProcessAlone.
Import ListNotations.
Open Scope nat_scope.
Open Scope string_scope.
Open Scope list_scope.

(** A registry below /srv, two types, and the lengths of the texts of their documents. *)
Definition shared_root : path := ["srv"; "registry"].
Definition shared_disk0 : fsys := [(["srv"], Dir); (["srv"; "notes.txt"], File (Full (PStr "keep")))].
Definition shared_disk : fsys := fst (init shared_root shared_disk0).
Definition short_type : rtype := TInt c0 (PInt 24) (PBool true).
Definition long_type : rtype := TString c0 (PInt 80) (PBool true).
Definition text_size (d : pyval) : nat :=
  match d with PDict [(_, PStr s); (k, _)] => length (list_ascii_of_string s) + length (list_ascii_of_string k) + 20 | _ => 20 end.

Lemma shared_root_valid : Forall valid_name shared_root.
Proof. repeat constructor; discriminate. Qed.
Lemma shared_reachable : reachable shared_root shared_disk.
Proof.
  exists shared_disk0, []. split; [|split; [constructor|reflexivity]]. split; [|split].
  - repeat constructor; simpl; intuition discriminate.
  - intros q H. destruct q; [congruence|]. reflexivity.
  - intros p q c E. destruct p as [|a [|b p]]; simpl in *; try discriminate.
    + injection E as <- _. discriminate.
    + injection E as <- <- E. destruct p; discriminate.
Qed.
Lemma shared_root_exists : root_exists shared_root shared_disk.
Proof.
  intros p q E. unfold shared_root in E. destruct p as [|a p]; [reflexivity|]. injection E as <- E.
  destruct p as [|b p]; [reflexivity|]. injection E as <- E. destruct p; [reflexivity|discriminate].
Qed.

Lemma shared_calls_ok n m : valid_name n -> valid_name m -> forall t1 v1 t2 v2,
  Forall (Forall op_ok) [[OPut n t1 v1]; [OPut m t2 v2]].
Proof. intros N M t1 v1 t2 v2. repeat (constructor; auto). Qed.
Lemma valid_a : valid_name "a".
Proof. repeat split; discriminate. Qed.
Lemma valid_b : valid_name "b".
Proof. repeat split; discriminate. Qed.

(** ** C104
    The calls about one name run as if there were no calls about others: there is an execution of
    those calls alone with the same answers and the same registry content for that name. *)
Theorem C104_names : forall root size fs calls sched m,
  Forall valid_name root -> reachable root fs -> Forall (Forall op_ok) calls -> valid_name m ->
  exists sched',
    let r := run root size sched (system_of fs calls) in
    let r' := run root size sched' (system_of fs (map (filter (about m)) calls)) in
    map (answers_about m) (snd r) = map finished (snd r') /\
    versions root (fst (fst r)) m = versions root (fst (fst r')) m /\
    latest root (fst (fst r)) m = latest root (fst (fst r')) m /\
    forall v, get root (fst (fst r)) m v = get root (fst (fst r')) m v.
Proof.
  exact (fun root size fs calls sched m R RE OK V =>
    names_apart root R size m V fs calls sched (reachable_root root R fs RE) OK).
Qed.
Print Assumptions C104_names.

(** A process with a name to itself gets the answers that it gets on its own, and leaves the name as
    it would on its own. *)
Theorem C104_own_name : forall root size fs calls sched m i p ops,
  Forall valid_name root -> reachable root fs -> Forall (Forall op_ok) calls -> valid_name m ->
  nth_error calls i = Some ops ->
  (forall j l o, j <> i -> nth_error calls j = Some l -> In o l -> about m o = false) ->
  let s := run root size sched (system_of fs calls) in
  nth_error (snd s) i = Some p ->
  let mine := filter (about m) ops in
  map snd (answers_about m p) = firstn (length (answers_about m p)) (snd (run_ops root fs mine)) /\
  (todo p = [] -> let fs' := fst (run_ops root fs mine) in
     length (answers_about m p) = length mine /\
     versions root (fst (fst s)) m = versions root fs' m /\ latest root (fst (fst s)) m = latest root fs' m /\
     forall v, get root (fst (fst s)) m v = get root fs' m v).
Proof.
  exact (fun root size fs calls sched m i p ops R RE OK V N U =>
    own_name root R size m fs calls sched i p ops V (reachable_root root R fs RE) OK N U).
Qed.
Print Assumptions C104_own_name.

(** Two processes take turns with every access. *)
Fixpoint turns (k : nat) : list nat := match k with 0 => [] | S k => 0 :: 1 :: turns k end.
Definition two_names : list (list op) :=
  [[OPut "a" short_type None; OPut "a" long_type None; OGet "a" None; OLs];
   [OPut "b" long_type (Some 4%Z); OGet "b" None; OVersions "b"]].
Example C104_case :
  Forall (Forall op_ok) two_names /\
  map (answers_about "b") (snd (run shared_root text_size (turns 20) (system_of shared_disk two_names))) =
  [[]; [(OPut "b" long_type (Some 4%Z), APut (Ok 4%Z)); (OGet "b" None, AGet (Ok (Some (long_type, 4%Z))));
        (OVersions "b", AVersions (Ok (Some [4%Z])))]] /\
  map (answers_about "a") (snd (run shared_root text_size (turns 20) (system_of shared_disk two_names))) =
  [[(OPut "a" short_type None, APut (Ok 1%Z)); (OPut "a" long_type None, APut (Ok 2%Z));
    (OGet "a" None, AGet (Ok (Some (long_type, 2%Z))))]; []] /\
  (forall j l o, j <> 0 -> nth_error two_names j = Some l -> In o l -> about "a" o = false).
Proof.
  split; [repeat (constructor; [repeat (constructor; [repeat split; discriminate|]); repeat constructor|]); constructor|].
  split; [vm_compute; reflexivity|]. split; [vm_compute; reflexivity|].
  intros [|[|[|j]]] l o NE H IN; try discriminate; [congruence|]. injection H as <-. simpl in IN. intuition; subst; reflexivity.
Qed.

(** ** C105
    Proved: a put that begins after another put of the name has returned gets a greater version; a
    version that is given is the one returned.  Missing: puts that overlap. *)
Theorem C105_order_partial : forall root size fs calls before later i k j k' n t v w t' w',
  Forall valid_name root -> reachable root fs -> Forall (Forall op_ok) calls ->
  let s1 := run root size before (system_of fs calls) in
  let s2 := run root size later s1 in
  returned (snd s1) i k (OPut n t v) (APut (Ok w)) -> not_begun (snd s1) j k' ->
  returned (snd s2) j k' (OPut n t' None) (APut (Ok w')) -> (w < w')%Z.
Proof.
  exact (fun root size fs calls before later i k j k' n t v w t' w' R =>
    order_kept root R size fs calls before later i k j k' n t v w t' w').
Qed.
Print Assumptions C105_order_partial.

Theorem C105_given : forall root size fs calls sched i k n t v w,
  Forall valid_name root -> reachable root fs -> Forall (Forall op_ok) calls ->
  returned (snd (run root size sched (system_of fs calls))) i k (OPut n t (Some v)) (APut (Ok w)) -> w = v.
Proof. exact (fun root size fs calls sched i k n t v w R => given_version root R size fs calls sched i k n t v w). Qed.
Print Assumptions C105_given.

Definition two_puts : list (list op) := [[OPut "a" short_type None]; [OPut "a" long_type None]].
(** Both choose a version before either writes; then each does the rest. *)
Definition overlapping : list nat := [0; 1] ++ repeat 0 6 ++ repeat 1 6.

(** The full statement: two puts that choose their versions return different ones. *)
Theorem C105_distinct_refuted :
  ~ (forall root size fs calls sched i k j k' n t v w t' w',
       Forall valid_name root -> reachable root fs -> Forall (Forall op_ok) calls ->
       let s := run root size sched (system_of fs calls) in
       returned (snd s) i k (OPut n t v) (APut (Ok w)) -> returned (snd s) j k' (OPut n t' None) (APut (Ok w')) ->
       (i, k) <> (j, k') -> v = None -> w <> w').
Proof.
  intros H. refine (H shared_root text_size shared_disk two_puts overlapping 0 0 1 0 "a" short_type None 1%Z long_type 1%Z
    shared_root_valid shared_reachable (shared_calls_ok _ _ valid_a valid_a _ _ _ _) _ _ _ eq_refl eq_refl).
  - eexists. split; vm_compute; reflexivity.
  - eexists. split; vm_compute; reflexivity.
  - discriminate.
Qed.
Print Assumptions C105_distinct_refuted.

(** One put after the other: versions 1 and 2. *)
Example C105_case :
  let s1 := run shared_root text_size (repeat 0 7) (system_of shared_disk two_puts) in
  let s2 := run shared_root text_size (repeat 1 7) s1 in
  returned (snd s1) 0 0 (OPut "a" short_type None) (APut (Ok 1%Z)) /\ not_begun (snd s1) 1 0 /\
  returned (snd s2) 1 0 (OPut "a" long_type None) (APut (Ok 2%Z)).
Proof.
  split; [|split].
  - eexists. split; vm_compute; reflexivity.
  - eexists. split; [vm_compute; reflexivity|]. right. split; reflexivity.
  - eexists. split; vm_compute; reflexivity.
Qed.

(** ** C106
    What a get returns was readable at the start, or is the document of a put of that name among the
    calls, with that version or one that chose its version. *)
Theorem C106_get : forall root size fs calls sched i k n v t w,
  Forall valid_name root -> reachable root fs -> Forall (Forall op_ok) calls ->
  returned (snd (run root size sched (system_of fs calls))) i k (OGet n v) (AGet (Ok (Some (t, w)))) ->
  (v = None \/ v = Some w) /\
  (get root fs n (Some w) = Ok (Some (t, w)) \/ exists d, some_put calls n w d /\ snd (from_dict_new d) = Ok t).
Proof. exact (fun root size fs calls sched i k n v t w R => get_sound root R size fs calls sched i k n v t w). Qed.
Print Assumptions C106_get.

(** Calls do not fail because of other processes, but for gets that find an unfinished or mixed text. *)
Theorem C106_failures : forall root size fs calls sched i k o a e,
  Forall valid_name root -> reachable root fs -> Forall (Forall op_ok) calls ->
  returned (snd (run root size sched (system_of fs calls))) i k o a -> failure a = Some e ->
  match o with
  | OPut n t v => to_dict true true t = Err e
  | OGet n v => e = JSONDecodeError \/ (exists w, get root fs n (Some w) = Err e) \/
                exists w d, some_put calls n w d /\ snd (from_dict_new d) = Err e
  | _ => False
  end.
Proof. exact (fun root size fs calls sched i k o a e R => failures_sound root R size fs calls sched i k o a e). Qed.
Print Assumptions C106_failures.

(** A get between the open and the write of a put, and the same get afterwards. *)
Definition put_and_gets : list (list op) := [[OPut "a" short_type (Some 7%Z)]; [OGet "a" None; OGet "a" None; OGet "b" None]].
Example C106_case :
  map (fun p => map snd (finished p))
    (snd (run shared_root text_size (repeat 0 5 ++ [1; 1] ++ repeat 0 2 ++ repeat 1 3) (system_of shared_disk put_and_gets))) =
  [[APut (Ok 7%Z)]; [AGet (Err JSONDecodeError); AGet (Ok (Some (short_type, 7%Z))); AGet (Ok None)]].
Proof. vm_compute. reflexivity. Qed.

(** ** C107
    Proved if no other put of the name gets the version: the document of a put that has returned is
    the one that is stored, and every get that begins later returns it. *)
Theorem C107_stored_partial : forall root size fs calls sched i k n t v w d,
  Forall valid_name root -> reachable root fs -> Forall (Forall op_ok) calls -> valid_name n ->
  let s := run root size sched (system_of fs calls) in
  returned (snd s) i k (OPut n t v) (APut (Ok w)) -> (forall i' k', begun (snd s) i' k' n w -> (i', k') = (i, k)) ->
  to_dict true true t = Ok d ->
  get root (fst (fst s)) n (Some w) = match snd (from_dict_new d) with Ok t' => Ok (Some (t', w)) | Err e => Err e end.
Proof. exact (fun root size fs calls sched i k n t v w d R => put_kept root R size fs calls sched i k n t v w d). Qed.
Print Assumptions C107_stored_partial.

Theorem C107_read_partial : forall root size fs calls before later i k j k' n t v w d a,
  Forall valid_name root -> reachable root fs -> Forall (Forall op_ok) calls ->
  let s1 := run root size before (system_of fs calls) in
  let s2 := run root size later s1 in
  returned (snd s1) i k (OPut n t v) (APut (Ok w)) -> not_begun (snd s1) j k' ->
  returned (snd s2) j k' (OGet n (Some w)) a ->
  (forall i' k', begun (snd s2) i' k' n w -> (i', k') = (i, k)) -> to_dict true true t = Ok d ->
  a = AGet (match snd (from_dict_new d) with Ok t' => Ok (Some (t', w)) | Err e => Err e end).
Proof.
  exact (fun root size fs calls before later i k j k' n t v w d a R =>
    put_read root R size fs calls before later i k j k' n t v w d a).
Qed.
Print Assumptions C107_read_partial.

(** The full statement is false: of two overlapping puts without versions one is lost. *)
Theorem C107_stored_refuted :
  ~ (forall root size fs calls sched i k n t w d,
       Forall valid_name root -> reachable root fs -> Forall (Forall op_ok) calls -> valid_name n ->
       let s := run root size sched (system_of fs calls) in
       returned (snd s) i k (OPut n t None) (APut (Ok w)) -> to_dict true true t = Ok d ->
       get root (fst (fst s)) n (Some w) = match snd (from_dict_new d) with Ok t' => Ok (Some (t', w)) | Err e => Err e end).
Proof.
  intros H. specialize (H shared_root text_size shared_disk two_puts overlapping 0 0 "a" short_type 1%Z
    (PDict [("type", PStr "int"); ("bits", PInt 24)]) shared_root_valid shared_reachable
    (shared_calls_ok _ _ valid_a valid_a _ _ _ _) valid_a).
  cbv zeta in H. assert (R : returned (snd (run shared_root text_size overlapping (system_of shared_disk two_puts))) 0 0
    (OPut "a" short_type None) (APut (Ok 1%Z))) by (eexists; split; vm_compute; reflexivity).
  specialize (H R eq_refl). vm_compute in H. discriminate.
Qed.
Print Assumptions C107_stored_refuted.

(** Nor does one of them stay: if the longer text is written first, neither can be read, though both
    puts have returned. *)
Definition mixing : list nat := [0; 1] ++ repeat 0 4 ++ repeat 1 6 ++ repeat 0 2.
Theorem C107_readable_refuted :
  ~ (forall root size fs calls sched i k n t v w,
       Forall valid_name root -> reachable root fs -> Forall (Forall op_ok) calls -> valid_name n ->
       let s := run root size sched (system_of fs calls) in
       returned (snd s) i k (OPut n t v) (APut (Ok w)) -> (forall p, In p (snd s) -> todo p = []) ->
       get root (fst (fst s)) n (Some w) <> Err JSONDecodeError).
Proof.
  intros H. refine (H shared_root text_size shared_disk two_puts mixing 0 0 "a" short_type None 1%Z
    shared_root_valid shared_reachable (shared_calls_ok _ _ valid_a valid_a _ _ _ _) valid_a _ _ _).
  - eexists. split; vm_compute; reflexivity.
  - intros p IN. vm_compute in IN. destruct IN as [<-|[<-|[]]]; reflexivity.
  - vm_compute. reflexivity.
Qed.
Print Assumptions C107_readable_refuted.

(** A put with a version of its own beside another put of the name. *)
Definition two_versions : list (list op) := [[OPut "a" short_type (Some 3%Z)]; [OPut "a" long_type (Some 4%Z); OGet "a" (Some 3%Z)]].
Example C107_case :
  let s := run shared_root text_size (turns 9) (system_of shared_disk two_versions) in
  returned (snd s) 0 0 (OPut "a" short_type (Some 3%Z)) (APut (Ok 3%Z)) /\
  returned (snd s) 1 1 (OGet "a" (Some 3%Z)) (AGet (Ok (Some (short_type, 3%Z)))) /\
  (forall i k, begun (snd s) i k "a" 3%Z -> (i, k) = (0, 0)).
Proof.
  split; [|split].
  - eexists. split; vm_compute; reflexivity.
  - eexists. split; vm_compute; reflexivity.
  - intros i k (p & t & v & N & H). vm_compute in N. destruct i as [|[|[|i]]]; simpl in N; try discriminate; injection N as <-.
    + destruct k as [|k]; [reflexivity|]. destruct H as [H|(_ & [=] & _)]. destruct k; discriminate.
    + destruct H as [H|(_ & [=] & _)]. destruct k as [|[|k]]; try discriminate. destruct k; discriminate.
Qed.
