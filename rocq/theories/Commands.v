(** What is done with the schema that a client returned: recap/commands.py:9-25 and 44-91, the
    media types of recap/server/gateway.py:20-33, and the choice of a converter in
    recap/clients/fs.py:43-60 and recap/clients/confluent_registry.py:63-84.
    Simplifications: generating proto text from the proto AST (proto_schema_parser) and printing
    JSON (rich) are not modelled; a schema in Protobuf is given by its AST. *)
From Coq Require Import String Ascii List NArith ZArith QArith Bool.
From Verif Require Import PyVal RType Registry FromDict ToDict Url Avro JsonSchema Proto.
Import ListNotations.
Open Scope nat_scope.
Open Scope string_scope.
Open Scope list_scope.

(** SchemaFormat, commands.py:9-17 *)
Inductive format := FAvro | FJson | FProtobuf | FRecap.

(** FORMAT_MAP, commands.py:20-25 *)
Definition format_map : list (string * format) :=
  [("application/schema+json", FJson); ("application/avro+json", FAvro);
   ("application/x-protobuf", FProtobuf); ("application/x-recap+json", FRecap)].

Inductive output := ODocument (d : pyval) | OProto (file : list felement).

(** commands.py:61-91.  Every converter is new, so it knows the built-in aliases only. *)
Definition schema_output (f : format) (t : rtype) : res output :=
  match f with
  | FAvro => rbind (avro_from builtin_aliases t) (fun d => Ok (ODocument d))
  | FJson => rbind (js_from builtin_aliases t) (fun d => Ok (ODocument (PDict d)))
  | FProtobuf => rbind (pr_from t) (fun l => Ok (OProto l))
  | FRecap =>
      rbind (to_dict true true t) (fun d =>
        match d with PDict _ => Ok (ODocument d) | _ => Err ValueError end)
  end.

(** The format that a gateway request asks for, gateway.py:26-33: no or an empty content type
    means Recap, an unknown one is answered with status 415. *)
Definition requested_format (content_type : option string) : res format :=
  let ct := match content_type with
            | Some (String c r) => String c r
            | _ => "application/x-recap+json"
            end in
  match dget ct format_map with Some f => Ok f | None => Err (HTTPError 415) end.

(** ** FilesystemClient, clients/fs.py *)
(** Path(p).name, of fs.py:36 and 44 *)
Definition path_name (p : string) : string := last (path_parts p) "".
(** fs.py:44, Path(p).suffix in Python 3.11: the last dot must have text on both sides. *)
Definition path_suffix (p : string) : string :=
  let '(stem, found, ext) := rpartition "." (path_name p) in
  if (found && nonempty stem && nonempty ext)%bool then ("." ++ ext)%string else "".

(** fs.py:44, strip(".") *)
Fixpoint lstrip_dots (s : string) : string :=
  match s with
  | String "." r => lstrip_dots r
  | _ => s
  end.
Fixpoint rstrip_dots (s : string) : string :=
  match s with
  | EmptyString => EmptyString
  | String c r =>
      match rstrip_dots r with
      | EmptyString => if Ascii.eqb c "." then EmptyString else String c EmptyString
      | r' => String c r'
      end
  end.

(** The converter that reads a schema. *)
Inductive kind := KAvro | KJson | KProtobuf.

(** fs.py:43-60 without reading the file *)
Definition file_kind (path : string) : res kind :=
  let suffix := rstrip_dots (lstrip_dots (lower (path_suffix path))) in
  if str_in suffix ["avsc"; "avro"; "avdl"; "avpr"] then Ok KAvro
  else if str_in suffix ["json"; "jsonschema"; "jsons"] then Ok KJson
  else if str_in suffix ["proto"; "protobuf"; "protos"; "proto3"; "proto2"] then Ok KProtobuf
  else Err ValueError.

(** ** ConfluentRegistryClient, clients/confluent_registry.py *)
(** s.endswith(p) *)
Fixpoint ends_with (p s : string) : bool :=
  (String.eqb s p || match s with EmptyString => false | String _ r => ends_with p r end)%bool.

(** The registry server: the latest schema of every subject, with its type.  Asking for an unknown
    subject raises SchemaRegistryError, which is not part of /repo; it is [KeyError] here. *)
Definition subjects := list (string * (string * pyval)).
(** confluent_registry.py:60-61 *)
Definition registry_ls (S : subjects) : list string := dkeys S.
(** confluent_registry.py:64-65, the subject that is asked for *)
Definition subject_name (s : string) : string :=
  if (ends_with "-key" s || ends_with "-value" s)%bool then s else (s ++ "-value")%string.
(** confluent_registry.py:66-84, without the conversion *)
Definition registry_schema (S : subjects) (s : string) : res (kind * pyval) :=
  match dget (subject_name s) S with
  | None => Err KeyError
  | Some (ty, text) =>
      if String.eqb ty "AVRO" then Ok (KAvro, text)
      else if String.eqb ty "JSON" then Ok (KJson, text)
      else if String.eqb ty "PROTOBUF" then Ok (KProtobuf, text)
      else Err ValueError
  end.
