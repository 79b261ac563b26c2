(** The answers of the registry endpoints (C88). *)
From Coq Require Import String List ZArith.
From Verif Require Import PyVal RType Registry FromDict ToDict Storage SpecStorage StorageFacts Server ServerFacts SpecServer ServerSerial
  Properties_Storage Properties_Compact Properties_Posted.
Import ListNotations.
Open Scope nat_scope.
Open Scope string_scope.
Open Scope list_scope.

(** ** C88
    The registry was used through [os] (operations and crashed puts) before the server started;
    [l] are all requests, resumed in any order. Names are other than "", "." and ".." (C20). *)
Theorem C88_serial : forall root fs0 os l sched,
  Forall valid_name root -> fresh_root root fs0 -> Forall cop_ok os -> Forall request_ok l ->
  exists az h o h',
    cspec_run (to_dict true true) (fun d => snd (from_dict_new d)) [] os az h /\
    snd (run_cops root (fst (init root fs0)) os) = az /\
    serial (to_dict true true) (fun d => snd (from_dict_new d)) l h o h' /\
    forall i r, In (i, r) o <-> exists q,
      nth_error (snd (run_server root sched (accept (fst (run_cops root (fst (init root fs0)) os)) l))) i = Some (q, Done r).
Proof. exact serial_answers. Qed.
Print Assumptions C88_serial.

(** One request on its own. *)
Theorem C88_alone : forall root fs0 os q,
  Forall valid_name root -> fresh_root root fs0 -> Forall cop_ok os -> request_ok q ->
  let fs := fst (run_cops root (fst (init root fs0)) os) in
  exists az h h' r, cspec_run (to_dict true true) (fun d => snd (from_dict_new d)) [] os az h /\
    snd (serve root fs q) = Done r /\
    answers (to_dict true true) (fun d => snd (from_dict_new d)) h h q h' r.
Proof. exact serve_answers. Qed.
Print Assumptions C88_alone.

Definition all_kinds : list request :=
  [QLatest "a"; QPost "a" (Some "text/plain") (Json (PStr "bool")); QPost "a" (Some "") (Json (PStr "bool")); QPost "a" None (Json (PDict [("bits", PInt 1)]));
   QPut "a" 5 (Some "application/x-recap+json") (Text "int32"); QPut "a" 5 None (Json (PStr "int64")); QPut "a" 5 None NotUtf8;
   QPost "a" None NotUtf8; QVersions "a"; QVersion "a" 1; QVersion "a" 2; QLatest "a"; QLs; QVersions "b";
   QPost "a" None (Json (list_of (list_of (PDict [("type", PStr "int"); ("bits", PInt 7); ("alias", PStr "com.x.I")]))))].
(** Request 4 arrived before request 5 was stored, and overwrites it. *)
Example C88_case :
  map snd (snd (run_server reg_root [0; 1; 2; 3; 2; 3; 4; 5; 5; 6; 4; 7; 7; 8; 9; 10; 11; 12; 13; 14; 14] (accept disk1 all_kinds))) =
  map Done [RStatus 404; RStatus 415; RVersion 1; RStatus 400; RVersion 5; RVersion 5; RStatus 409; RFailure ValueError;
            RVersions [1; 5]%Z; RType (PStr "bool") 1; RStatus 404; RType (PStr "int32") 5; RNames ["a"]; RStatus 404; RFailure ValueError]%Z.
Proof. vm_compute. reflexivity. Qed.
Example C88_case_ok : Forall request_ok all_kinds.
Proof. repeat constructor; discriminate. Qed.
