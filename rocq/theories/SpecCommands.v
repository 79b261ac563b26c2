(** Vocabulary for the file and registry properties (C92-C94), independent of recap/clients. *)
From Coq Require Import String Ascii List NArith ZArith Bool.
From Verif Require Import PyVal Url SpecUrl Commands.
Import ListNotations.
Open Scope nat_scope.
Open Scope string_scope.
Open Scope list_scope.

(** The file name extensions of each kind of schema, as their users name them. *)
Definition extensions (k : kind) : list string :=
  match k with
  | KAvro => ["avsc"; "avro"; "avdl"; "avpr"]
  | KJson => ["json"; "jsonschema"; "jsons"]
  | KProtobuf => ["proto"; "protobuf"; "protos"; "proto3"; "proto2"]
  end.

(** The file name of [p] is a stem, a dot, and an extension of [k] in any letter case. *)
Definition file_of_kind (k : kind) (p : string) : Prop :=
  exists stem ext, path_name p = (stem ++ "." ++ ext)%string /\ stem <> "" /\ In (lower ext) (extensions k).

(** An absolute path without a query, a fragment or a control character that URLs drop. *)
Definition plain_path (p : string) : Prop :=
  starts_slash p = true /\ starts_slashes p = false
  /\ has "#" p = false /\ has "?" p = false /\ clean p = true.

(** Configurations under which the local file system may be read. *)
Definition files_allowed : list (list string * bool) :=
  [([], false); (["file:///"], false); (["file:///"], true)].

(** A subject that names the key or the value schema of a topic. *)
Definition kv_subject (s : string) : Prop :=
  exists topic, s = (topic ++ "-key")%string \/ s = (topic ++ "-value")%string.
(** The schema type that the registry reports for each kind. *)
Definition schema_type (k : kind) : string :=
  match k with KAvro => "AVRO" | KJson => "JSON" | KProtobuf => "PROTOBUF" end.

(** The media type of each output format. *)
Definition media_types : list (string * format) :=
  [("application/avro+json", FAvro); ("application/schema+json", FJson);
   ("application/x-protobuf", FProtobuf); ("application/x-recap+json", FRecap)].
