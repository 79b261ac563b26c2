(** Property theorems for the registry storage and its HTTP endpoints (C17-C25). *)
From Coq Require Import String Ascii List ZArith Bool Lia Sorting.Sorted.
From Verif Require Import PyVal RType Registry FromDict ToDict Quote QuoteFacts Storage SpecStorage Server
  StorageFacts StorageMore ServerFacts CrashFacts.
Import ListNotations.
Open Scope nat_scope.
Open Scope string_scope.
Open Scope list_scope.

(** A disk with other data on it, a registry root, and two types to store. *)
Definition reg_root : path := ["srv"; "registry"].
Definition disk0 : fsys := [(["srv"], Dir); (["srv"; "notes.txt"], File (Full (PStr "keep")))].
Definition disk1 : fsys := fst (init reg_root disk0).
Definition int24_type : rtype := TInt c0 (PInt 24) (PBool true).
Definition text_type : rtype := TString c0 (PInt 80) (PBool true).
Definition odd_name : string := "a/b c+%".

Lemma reg_root_valid : Forall valid_name reg_root.
Proof. repeat constructor; discriminate. Qed.
Lemma disk0_fresh : fresh_root reg_root disk0.
Proof.
  split; [|split].
  - repeat constructor; simpl; intuition discriminate.
  - intros q H. destruct q; [congruence|]. reflexivity.
  - intros p q c E. destruct p as [|a [|b p]]; simpl in *; try discriminate.
    + injection E as <- _. discriminate.
    + injection E as <- <- E. destruct p; discriminate.
Qed.
Lemma disk1_reachable : reachable reg_root disk1.
Proof. exists disk0, []. split; [apply disk0_fresh|]. split; [constructor|reflexivity]. Qed.

(** ** C17 *)
Theorem C17_registry_is_a_map : forall root fs0 ops,
  Forall valid_name root -> fresh_root root fs0 -> Forall op_ok ops ->
  exists fs1 h, init root fs0 = (fs1, Ok tt) /\
    spec_run (to_dict true true) (fun d => snd (from_dict_new d)) [] ops (snd (run_ops root fs1 ops)) h.
Proof.
  exact (fun root fs0 ops R F OK =>
    match init_inv root fs0 F with
    | ex_intro _ fs1 (conj E HI) =>
        match refine_run root R ops fs1 [] HI OK with
        | ex_intro _ h (conj _ SR) => ex_intro _ fs1 (ex_intro _ h (conj E SR))
        end
    end).
Qed.
Print Assumptions C17_registry_is_a_map.

Example C17_case :
  snd (run_ops reg_root disk1
    [OPut odd_name int24_type (Some 5%Z); OPut odd_name text_type None; OPut "z" text_type (Some (-3)%Z);
     OPut odd_name text_type (Some 5%Z); OGet odd_name (Some 5%Z); OGet odd_name (Some 6%Z); OVersions odd_name;
     OLatest "z"; OGet "y" None; OLs]) =
  [APut (Ok 5%Z); APut (Ok 6%Z); APut (Ok (-3)%Z); APut (Ok 5%Z); AGet (Ok (Some (text_type, 5%Z)));
   AGet (Ok (Some (text_type, 6%Z))); AVersions (Ok (Some [5; 6]%Z)); ALatest (Ok (Some (-3)%Z)); AGet (Ok None);
   ALs (Ok [odd_name; "z"])].
Proof. vm_compute. reflexivity. Qed.
(** The excluded names do break the map: a schema named "." shows up as another schema. *)
Example C17_dot_name :
  snd (run_ops reg_root disk1 [OPut "." int24_type None; OLs]) = [APut (Ok 1%Z); ALs (Ok ["1.json"])].
Proof. vm_compute. reflexivity. Qed.

(** ** C18 *)
Theorem C18_fresh_version : forall root fs n t fs' v,
  Forall valid_name root -> reachable root fs -> valid_name n -> put root fs n t None = (fs', Ok v) ->
  (forall u, get root fs n (Some u) <> Ok None -> (u < v)%Z) /\
  ((v = 1%Z /\ forall u, get root fs n (Some u) = Ok None) \/ get root fs n (Some (v - 1)%Z) <> Ok None).
Proof. exact (fun root fs n t fs' v R => put_assigns root R fs n t fs' v). Qed.
Print Assumptions C18_fresh_version.

Theorem C18_counts_up : forall root fs n ts,
  Forall valid_name root -> reachable root fs -> valid_name n ->
  Forall (fun t => exists d, to_dict true true t = Ok d) ts -> versions root fs n = Ok None ->
  snd (run_ops root fs (map (fun t => OPut n t None) ts)) =
  map (fun i => APut (Ok (Z.of_nat i))) (seq 1 (length ts)).
Proof. exact (fun root fs n ts R => put_sequence root R ts fs n). Qed.
Print Assumptions C18_counts_up.

Example C18_case :
  snd (put reg_root (fst (put reg_root disk1 "a" int24_type (Some 7%Z))) "a" text_type None) = Ok 8%Z /\
  snd (run_ops reg_root disk1 (map (fun t => OPut "a" t None) [int24_type; text_type; int24_type])) =
  [APut (Ok 1%Z); APut (Ok 2%Z); APut (Ok 3%Z)].
Proof. split; vm_compute; reflexivity. Qed.

(** ** C19
    For any disk, not only those a registry has built; also when the put is cut off. *)
Theorem C19_isolation : forall root fs n m t v u,
  Forall valid_name root -> valid_name n -> valid_name m -> n <> m ->
  let fs' := fst (put root fs n t v) in
  get root fs' m u = get root fs m u /\ versions root fs' m = versions root fs m /\
  latest root fs' m = latest root fs m.
Proof.
  exact (fun root fs n m t v u R V Vm NE =>
    match put_is_crash root fs n t v with
    | ex_intro _ k E =>
        let X := eq_trans (f_equal (view (dir_path root m)) E) (crash_isolated root R k fs n m t v V Vm NE) in
        conj (get_view root R m u _ _ Vm X) (conj (versions_view root m _ _ Vm X) (latest_view root m _ _ Vm X))
    end).
Qed.
Print Assumptions C19_isolation.

Theorem C19_presence : forall root fs n m t v,
  Forall valid_name root -> root_exists root fs -> valid_name n -> n <> m ->
  exists l l', ls root fs = Ok l /\ ls root (fst (put root fs n t v)) = Ok l' /\ (In m l <-> In m l').
Proof.
  exact (fun root fs n m t v R E V NE =>
    match put_is_crash root fs n t v with
    | ex_intro _ k Ek => eq_ind_r (fun f => exists l l', ls root fs = Ok l /\ ls root f = Ok l' /\ (In m l <-> In m l'))
                           (crash_ls root R k fs n m t v E V NE) Ek
    end).
Qed.
Print Assumptions C19_presence.

Example C19_case :
  let fs := fst (put reg_root disk1 "a%2Fb" int24_type (Some 2%Z)) in
  let fs' := fst (put reg_root fs "a/b" text_type (Some 2%Z)) in
  get reg_root fs' "a%2Fb" (Some 2%Z) = Ok (Some (int24_type, 2%Z)) /\
  get reg_root fs' "a/b" (Some 2%Z) = Ok (Some (text_type, 2%Z)) /\ ls reg_root fs' = Ok ["a%2Fb"; "a/b"].
Proof. vm_compute. repeat split; reflexivity. Qed.

(** ** C20
    Writes: nothing outside the root changes.  Reads: two disks with the same entries below
    the root give the same answers.  Proved for names other than "", "." and "..". *)
Theorem C20_confined_partial : forall root c fs,
  Forall valid_name root -> root_exists root fs -> cop_ok c ->
  (forall p, is_under root p = false -> fget p (fst (run_cop root fs c)) = fget p fs) /\
  (forall fs2, root_exists root fs2 -> view root fs = view root fs2 ->
     snd (run_cop root fs c) = snd (run_cop root fs2 c) /\
     view root (fst (run_cop root fs c)) = view root (fst (run_cop root fs2 c))).
Proof.
  exact (fun root c fs R E OK =>
    conj (fun p U => op_outside root R c fs p E OK U) (fun fs2 E2 V => op_confined root R c fs fs2 E E2 V OK)).
Qed.
Print Assumptions C20_confined_partial.

(** The full statement is false: the name ".." stays unquoted. *)
Theorem C20_confined_refuted :
  ~ (forall root n t v fs p, Forall valid_name root -> reachable root fs -> is_under root p = false ->
       fget p (fst (put root fs n t v)) = fget p fs).
Proof.
  exact (fun H => 
    match eq_trans (eq_sym (H reg_root ".." int24_type (Some 1%Z) disk1 ["srv"; "1.json"] reg_root_valid disk1_reachable eq_refl))
                   (eq_refl : fget ["srv"; "1.json"] (fst (put reg_root disk1 ".." int24_type (Some 1%Z))) =
                              Some (File (Full (PDict [("type", PStr "int"); ("bits", PInt 24)])))) in _ = r
      return match r with Some _ => False | None => True end with eq_refl => I end).
Qed.
Print Assumptions C20_confined_refuted.

Example C20_case :
  fget ["srv"; "registry"; "a%2F..%2F.."; "1.json"] (fst (put reg_root disk1 "a/../.." int24_type None)) =
    Some (File (Full (PDict [("type", PStr "int"); ("bits", PInt 24)]))) /\
  fget ["srv"; "notes.txt"] (fst (put reg_root disk1 "a/../.." int24_type None)) = Some (File (Full (PStr "keep"))).
Proof. split; vm_compute; reflexivity. Qed.

(** ** C21 *)
Theorem C21_quote_reversible : forall n, unquote_plus (quote_plus n) = n.
Proof. exact unquote_quote. Qed.
Print Assumptions C21_quote_reversible.
Theorem C21_quote_one_component : forall n, ~ has_char "/" (quote_plus n).
Proof. exact quote_no_slash. Qed.
Print Assumptions C21_quote_one_component.

Example C21_case : quote_plus odd_name = "a%2Fb+c%2B%25" /\ unquote_plus "a%2Fb+c%2B%25" = odd_name.
Proof. split; vm_compute; reflexivity. Qed.

(** ** C22 *)
Theorem C22_crash_keeps_others : forall root k fs n t v w m u,
  Forall valid_name root -> valid_name n -> valid_name m ->
  put_version root fs n v = Ok w -> (m, u) <> (n, w) ->
  get root (put_crash root k fs n t v) m (Some u) = get root fs m (Some u).
Proof. exact (fun root k fs n t v w m u R => crash_other root R k fs n t v w m u). Qed.
Print Assumptions C22_crash_keeps_others.

(** Whole executions with crashes anywhere: the registry behaves as a map in which a
    crashed put did nothing, created the name, left the version unreadable, or took effect. *)
Theorem C22_executions_with_crashes : forall root fs0 ops,
  Forall valid_name root -> fresh_root root fs0 -> Forall cop_ok ops ->
  exists fs1 h, init root fs0 = (fs1, Ok tt) /\
    cspec_run (to_dict true true) (fun d => snd (from_dict_new d)) [] ops (snd (run_cops root fs1 ops)) h.
Proof.
  exact (fun root fs0 ops R F OK =>
    match init_inv root fs0 F with
    | ex_intro _ fs1 (conj E HI) =>
        match crefine_run root R ops fs1 [] HI OK with
        | ex_intro _ h (conj _ SR) => ex_intro _ fs1 (ex_intro _ h (conj E SR))
        end
    end).
Qed.
Print Assumptions C22_executions_with_crashes.

Example C22_case :
  snd (run_cops reg_root disk1
    [Run (OPut "a" int24_type None); Crash "a" text_type None 4; Crash "b" text_type None 3; Crash "c" text_type None 9;
     Run (OGet "a" (Some 1%Z)); Run (OGet "a" (Some 2%Z)); Run OLs; Run (OVersions "b"); Run (OGet "c" None)]) =
  [Some (APut (Ok 1%Z)); None; None; None; Some (AGet (Ok (Some (int24_type, 1%Z))));
   Some (AGet (Err JSONDecodeError)); Some (ALs (Ok ["a"; "b"; "c"])); Some (AVersions (Ok (Some [])));
   Some (AGet (Ok (Some (text_type, 1%Z))))].
Proof. vm_compute. reflexivity. Qed.

(** ** C23
    False at one point of a put: between opening the file for writing (the old text is gone)
    and the end of the write.  True at every other point, and another put repairs it. *)
Theorem C23_latest_readable_partial : forall root k fs n t v,
  Forall valid_name root -> reachable root fs -> valid_name n ->
  get root (put_crash root k fs n t v) n None = get root fs n None \/
  get root (put_crash root k fs n t v) n None = get root (fst (put root fs n t v)) n None \/
  (k = length root + 2 /\ get root (put_crash root k fs n t v) n None = Err JSONDecodeError).
Proof. exact (fun root k fs n t v R => crash_latest root R k fs n t v). Qed.
Print Assumptions C23_latest_readable_partial.

Theorem C23_put_repairs : forall root fs n t d,
  Forall valid_name root -> reachable root fs -> valid_name n -> to_dict true true t = Ok d ->
  exists fs' w, put root fs n t None = (fs', Ok w) /\
    get root fs' n None = match snd (from_dict_new d) with Ok t' => Ok (Some (t', w)) | Err e => Err e end.
Proof. exact (fun root fs n t d R => put_recovers root R fs n t d). Qed.
Print Assumptions C23_put_repairs.

Theorem C23_latest_readable_refuted :
  exists root k fs n t v, Forall valid_name root /\ reachable root fs /\ valid_name n /\
    get root fs n None = Ok (Some (int24_type, 1%Z)) /\
    get root (fst (put root fs n t v)) n None = Ok (Some (t, 2%Z)) /\
    get root (put_crash root k fs n t v) n None = Err JSONDecodeError.
Proof.
  exists reg_root, 4, (fst (put reg_root disk1 "a" int24_type None)), "a", text_type, None.
  split; [apply reg_root_valid|]. split.
  - exists disk0, [Run (OPut "a" int24_type None)].
    split; [apply disk0_fresh|]. split; [repeat constructor; discriminate|reflexivity].
  - split; [repeat split; discriminate|]. vm_compute. repeat split; reflexivity.
Qed.
Print Assumptions C23_latest_readable_refuted.

Example C23_case : (* overwriting an old version loses only that version *)
  let fs := fst (run_ops reg_root disk1 [OPut "a" int24_type None; OPut "a" text_type None]) in
  get reg_root (put_crash reg_root 4 fs "a" text_type (Some 1%Z)) "a" None = Ok (Some (text_type, 2%Z)) /\
  get reg_root (put_crash reg_root 3 fs "a" int24_type None) "a" None = Ok (Some (text_type, 2%Z)) /\
  get reg_root (put_crash reg_root 5 fs "a" int24_type None) "a" None = Ok (Some (int24_type, 3%Z)).
Proof. vm_compute. repeat split; reflexivity. Qed.

(** ** C24 *)
Theorem C24_distinct_versions : forall root fs l sched i j n v w ct ct' b b',
  Forall valid_name root -> reachable root fs -> Forall request_ok l -> i <> j ->
  nth_error (snd (run_server root sched (accept fs l))) i = Some (QPost n ct b, Done (RVersion v)) ->
  nth_error (snd (run_server root sched (accept fs l))) j = Some (QPost n ct' b', Done (RVersion w)) ->
  v <> w.
Proof. exact (fun root fs l sched i j n v w ct ct' b b' R => distinct_versions root R fs l sched i j n v w ct ct' b b'). Qed.
Print Assumptions C24_distinct_versions.

Definition requests : list request :=
  [QPost "a" None (Json (PStr "int32")); QPost "a" (Some media_type) (Text "string64");
   QPut "a" 2 None (Json (PStr "bool")); QPost "a" (Some "text/plain") (Json (PStr "bool"))].
Example C24_case :
  map snd (snd (run_server reg_root [2; 0; 1; 3; 1; 2; 0] (accept disk1 requests))) =
  [Done (RVersion 3%Z); Done (RVersion 1%Z); Done (RVersion 2%Z); Done (RStatus 415%Z)].
Proof. vm_compute. reflexivity. Qed.

(** ** C25
    A PUT that finds the version stored when it starts is answered 409 (or fails, if the
    stored text is unreadable) and never touches the disk; a request that is not interleaved
    with others never changes a stored document. *)
Theorem C25_put_conflict_partial : forall root fs n v ct b l,
  get root fs n (Some v) <> Ok None -> resume root fs (QPut n v ct b) Start = (fs, l) ->
  (forall t, get root fs n (Some v) = Ok (Some (t, v)) -> l = Done (RStatus 409)) /\
  (forall fs', resume root fs' (QPut n v ct b) l = (fs', l)).
Proof. exact put_check. Qed.
Print Assumptions C25_put_conflict_partial.

Theorem C25_sequential_partial : forall root fs q m u,
  Forall valid_name root -> reachable root fs -> request_ok q -> valid_name m ->
  get root fs m (Some u) <> Ok None ->
  get root (fst (serve root fs q)) m (Some u) = get root fs m (Some u).
Proof. exact (fun root fs q m u R => serve_keeps root R fs q m u). Qed.
Print Assumptions C25_sequential_partial.

(** With overlap it is false: both PUTs answer 200 and the first document is lost. *)
Theorem C25_overlap_refuted :
  exists l sched1 sched2 fs1 fs2 st1 st2, Forall request_ok l /\
    run_server reg_root sched1 (accept disk1 l) = (fs1, st1) /\
    nth_error st1 0 = Some (QPut "a" 1 None (Json (PStr "int32")), Done (RVersion 1%Z)) /\
    get reg_root fs1 "a" (Some 1%Z) <> Ok None /\
    run_server reg_root sched2 (fs1, st1) = (fs2, st2) /\
    nth_error st2 1 = Some (QPut "a" 1 None (Json (PStr "bool")), Done (RVersion 1%Z)) /\
    get reg_root fs2 "a" (Some 1%Z) <> get reg_root fs1 "a" (Some 1%Z).
Proof.
  exists [QPut "a" 1 None (Json (PStr "int32")); QPut "a" 1 None (Json (PStr "bool"))], [0; 1; 0], [1].
  do 4 eexists. split; [repeat constructor; discriminate|].
  split; [vm_compute; reflexivity|]. split; [vm_compute; reflexivity|]. split; [vm_compute; discriminate|].
  split; [vm_compute; reflexivity|]. split; [vm_compute; reflexivity|]. vm_compute. discriminate.
Qed.
Print Assumptions C25_overlap_refuted.

Example C25_case :
  let fs := fst (serve reg_root disk1 (QPut "a" 4 None (Json (PStr "int32")))) in
  snd (serve reg_root disk1 (QPut "a" 4 None (Json (PStr "int32")))) = Done (RVersion 4%Z) /\
  snd (serve reg_root fs (QPut "a" 4 None (Json (PStr "bool")))) = Done (RStatus 409%Z) /\
  snd (serve reg_root fs (QVersion "a" 4)) = Done (RType (PStr "int32") 4%Z).
Proof. vm_compute. repeat split; reflexivity. Qed.
