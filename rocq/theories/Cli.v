(** The command line and the gateway: recap/cli.py:11-40, recap/server/gateway.py and the functions of
    recap/commands.py:28-91 that both call.
    Simplifications: what a client does is a parameter.  Typer's parsing of arguments, rich's layout and
    the response classes of FastAPI are not modelled; [serve] (cli.py:43-55) starts uvicorn. *)
From Coq Require Import String Ascii List NArith ZArith QArith Bool.
From Verif Require Import PyVal RType Registry Url Settings Clients Proto Commands.
Import ListNotations.
Open Scope nat_scope.
Open Scope string_scope.
Open Scope list_scope.

(** What a command writes to the terminal: nothing, a JSON document (rich.print_json) or the text of a
    proto file. *)
Inductive printed := Silence | Json (v : pyval) | ProtoText (file : list felement).

Section Run.
  Variables (ip : string -> bool) (margs : list string) (urls : list string).
  (** The results of the methods ls and schema of the client that is made with the given arguments. *)
  Variables (client_ls : client -> dict -> list pyval -> res (list string)) (client_schema : client -> dict -> list pyval -> res rtype).

  (** commands.ls, commands.py:28-41 *)
  Definition cmd_ls (url : option string) (strict : bool) : res (list string) :=
    match url with
    | Some (String c r) =>
        rbind (request ip margs urls "ls" (String c r) strict) (fun q => let '(c, kw, args) := q in client_ls c kw args)
    | _ => safe_urls ip urls
    end.
  (** commands.schema, commands.py:44-91 *)
  Definition cmd_schema (url : string) (f : format) (strict : bool) : res output :=
    rbind (request ip margs urls "schema" url strict) (fun q =>
      let '(c, kw, args) := q in rbind (client_schema c kw args) (schema_output f)).

  (** cli.ls, cli.py:11-18: an empty list is falsy *)
  Definition cli_ls (url : option string) : res printed :=
    rbind (cmd_ls url false) (fun l =>
      match l with [] => Ok Silence | _ => Ok (Json (PList (map PStr l))) end).
  (** cli.schema, cli.py:21-40.  A text is printed as it is; only proto files are texts that
      commands.schema returns, and a document that is one is left out. *)
  Definition cli_schema (url : string) (f : format) : res printed :=
    rbind (cmd_schema url f false) (fun o =>
      match o with
      | ODocument (PDict d) => Ok (Json (PDict d))
      | ODocument (PStr _) => Err Unmodelled
      | ODocument _ => Err ValueError
      | OProto file => Ok (ProtoText file)
      end).

  (** gateway.ls, gateway.py:8-17; commands.ls never returns None *)
  Definition gateway_ls (url : option string) : res (list string) := cmd_ls url true.
  (** gateway.schema, gateway.py:20-33; the text of a proto file is answered as a JSON string *)
  Definition gateway_schema (url : string) (content_type : option string) : res output :=
    rbind (requested_format content_type) (fun f => cmd_schema url f true).
End Run.
