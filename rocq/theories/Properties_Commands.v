(** C92-C94: files, registry subjects and media types. *)
From Coq Require Import String Ascii List NArith ZArith Bool.
From Verif Require Import PyVal Url SpecUrl Settings Clients Dbapi Browse SpecBrowse SpecDriver Commands SpecCommands UrlFacts CommandsFacts.
Import ListNotations.
Open Scope nat_scope.
Open Scope string_scope.
Open Scope list_scope.

(** ** C92 *)
Theorem C92_named_file_partial : forall ip margs p u urls strict method,
  plain_path p -> p <> "/" -> u = p \/ u = ("file://" ++ p)%string -> In (urls, strict) files_allowed ->
  exists q, request ip margs urls method u strict = Ok (Filesystem, [("scheme", PStr "file")], [PStr q])
    /\ as_posix q = as_posix p
    /\ (forall k, file_kind q = Ok k <-> file_of_kind k p)
    /\ ((forall k, ~ file_of_kind k p) -> file_kind q = Err ValueError).
Proof.
  intros ip margs p u urls strict method P N U I. exists (p ++ "/")%string.
  split; [now apply file_request|]. split; [destruct P as (A & B & _); now apply posix_slash|].
  rewrite kind_slash. split; [intros k; apply file_kind_iff|apply file_kind_other].
Qed.
Print Assumptions C92_named_file_partial.

(** A relative path loses its first character and is looked up from the root; percent escapes are
    not decoded; a query parameter "url" replaces the path. *)
Theorem C92_refuted : forall ip margs,
  request ip margs [] "schema" "schemas/user.avsc" false
    = Ok (Filesystem, [("scheme", PStr "file")], [PStr "/chemas/user.avsc/"])
  /\ request ip margs [] "schema" "file:///my%20schemas/user.avsc" false
    = Ok (Filesystem, [("scheme", PStr "file")], [PStr "/my%20schemas/user.avsc/"])
  /\ request ip margs [] "schema" "/schemas/user.avsc?url=/etc/other.json" false
    = Ok (Filesystem, [("scheme", PStr "file")], [PStr "/etc/other.json/"]).
Proof. intros ip margs. repeat split. Qed.
Print Assumptions C92_refuted.

(** A host in the URL is no part of the place where the file is looked for but its first directory,
    so file://localhost/data/user.avsc is not the local file. *)
Theorem C92_host_refuted : forall ip margs loc p urls strict method,
  location ip loc -> loc <> "" -> plain_path p -> In (urls, strict) files_allowed ->
  request ip margs urls method ("file://" ++ loc ++ p) strict
    = Ok (Filesystem, [("scheme", PStr "file")], [PStr ("/" ++ loc ++ p ++ "/")]).
Proof.
  intros ip margs loc p urls strict method (A & B & C & D & E) N P I. apply file_host_request; auto.
  destruct loc; [contradiction|reflexivity].
Qed.
Print Assumptions C92_host_refuted.
Example C92_host_case : location (fun _ => true) "localhost" /\ plain_path "/data/user.avsc"
  /\ as_posix "/localhost/data/user.avsc/" = "/localhost/data/user.avsc".
Proof. repeat split. now exists None. Qed.

Example C92_example : plain_path "/data/./user.events.AVSC"
  /\ file_of_kind KAvro "/data/./user.events.AVSC" /\ as_posix "/data/./user.events.AVSC" = "/data/user.events.AVSC"
  /\ file_kind "/data/user.Proto3/" = Ok KProtobuf /\ file_kind "/data/.avsc" = Err ValueError
  /\ file_kind "/data/user.avsc.bak" = Err ValueError.
Proof.
  split; [repeat split; reflexivity|]. split; [|repeat split].
  exists "user.events", "AVSC". split; [reflexivity|]. split; [discriminate|]. now left.
Qed.

(** ** C93 *)
Theorem C93_subjects_partial : forall S s k text,
  kv_subject s -> (dget s S = Some (schema_type k, text) <-> registry_schema S s = Ok (k, text)).
Proof.
  intros S s k text K. rewrite <- (subject_named s K) at 1. split; [apply registry_kind|apply registry_type].
Qed.
Print Assumptions C93_subjects_partial.

(** Any other name is a topic, whose value schema is returned. *)
Theorem C93_topics : forall S t,
  ~ kv_subject t -> registry_schema S t = registry_schema S (t ++ "-value").
Proof.
  intros S t N. unfold registry_schema. rewrite subject_topic by auto.
  rewrite (subject_named (t ++ "-value")); auto. exists t. now right.
Qed.
Print Assumptions C93_topics.

(** A listed subject of any other form cannot be read: the answer is an error, or another schema. *)
Theorem C93_refuted : forall s, ~ kv_subject s ->
  exists S, In s (registry_ls S) /\ registry_schema S s = Err KeyError
    /\ exists S', dget s S' = Some ("AVRO", PStr "mine") /\ registry_schema S' s = Ok (KJson, PStr "other").
Proof.
  intros s N. assert (D : String.eqb (s ++ "-value") s = false).
  { destruct (String.eqb_spec (s ++ "-value") s) as [E|]; auto. now apply app_self in E. }
  exists [(s, ("AVRO", PStr "mine"))]. split; [now left|]. split.
  - apply registry_unknown. rewrite subject_topic by auto. cbn [dget]. now rewrite D.
  - exists [(s, ("AVRO", PStr "mine")); ((s ++ "-value")%string, ("JSON", PStr "other"))].
    split; [cbn [dget]; now rewrite String.eqb_refl|].
    apply (registry_kind _ _ KJson). rewrite subject_topic by auto. cbn [dget]. now rewrite D, String.eqb_refl.
Qed.
Print Assumptions C93_refuted.

Definition registered : subjects :=
  [("orders-key", ("AVRO", PStr "k")); ("orders-value", ("PROTOBUF", PStr "v")); ("com.acme.Order", ("JSON", PStr "r"))].
Example C93_example : kv_subject "orders-key" /\ registry_schema registered "orders-key" = Ok (KAvro, PStr "k")
  /\ ~ kv_subject "orders" /\ registry_schema registered "orders" = Ok (KProtobuf, PStr "v")
  /\ registry_schema registered "com.acme.Order" = Err KeyError.
Proof.
  split; [exists "orders"; now left|]. split; [reflexivity|]. split; [|split; reflexivity].
  intros [a [E|E]].
  - assert (X : ends_with "-key" "orders" = true) by (apply ends_iff; eauto). discriminate.
  - assert (X : ends_with "-value" "orders" = true) by (apply ends_iff; eauto). discriminate.
Qed.

(** ** C94 *)
Theorem C94_formats_partial :
  (forall ct f, In (ct, f) media_types -> requested_format (Some ct) = Ok f)
  /\ (forall ct, ct <> "" -> (forall f, ~ In (ct, f) media_types) -> requested_format (Some ct) = Err (HTTPError 415))
  /\ requested_format None = Ok FRecap /\ requested_format (Some "") = Ok FRecap.
Proof. split; [exact format_known|]. split; [exact format_other|]. split; reflexivity. Qed.
Print Assumptions C94_formats_partial.

(** A supported media type is refused when parameters follow it, or in capital letters. *)
Theorem C94_refuted : forall ct f params, In (ct, f) media_types ->
  requested_format (Some (ct ++ ";" ++ params)%string) = Err (HTTPError 415)
  /\ exists ct', lower ct' = ct /\ requested_format (Some ct') = Err (HTTPError 415).
Proof.
  intros ct f params I. split.
  - apply format_other.
    + cbn in I. repeat destruct I as [I|I]; try contradiction; injection I as <- <-; discriminate.
    + intros g J. assert (H : has ";" (ct ++ ";" ++ params) = true).
      { rewrite has_app. cbn. apply orb_true_r. }
      remember (ct ++ ";" ++ params)%string as x. clear - J H. cbn in J.
      repeat destruct J as [J|J]; try contradiction; injection J as <- <-; discriminate.
  - cbn in I. repeat destruct I as [I|I]; try contradiction; injection I as <- <-.
    + exists "Application/avro+json". split; reflexivity.
    + exists "Application/schema+json". split; reflexivity.
    + exists "Application/x-protobuf". split; reflexivity.
    + exists "Application/x-recap+json". split; reflexivity.
Qed.
Print Assumptions C94_refuted.

Example C94_example : requested_format (Some "application/x-protobuf") = Ok FProtobuf
  /\ requested_format (Some "application/json") = Err (HTTPError 415)
  /\ requested_format (Some "application/x-recap+json; charset=utf-8") = Err (HTTPError 415).
Proof. repeat split. Qed.
