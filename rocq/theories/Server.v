(** The registry HTTP endpoints: recap/server/registry.py.
    Handlers are coroutines on one event loop: they run without interruption between await
    points.  The only await point is the reading of the request body (line 99).  The storage
    dependency (get_storage, lines 13-17) only re-creates the existing root directory and is
    left out, as are routing, response validation and the text of error messages. *)
From Coq Require Import String List ZArith.
From Verif Require Import PyVal RType Registry FromDict ToDict Storage.
Import ListNotations.
Open Scope nat_scope.
Open Scope string_scope.
Open Scope list_scope.

(** A request body: JSON text (given by its value), other UTF-8 text, or other bytes. *)
Inductive body := Json (j : pyval) | Text (s : string) | NotUtf8.

Inductive request :=
| QLs
| QLatest (n : string)
| QVersions (n : string)
| QVersion (n : string) (v : Z)
| QPost (n : string) (ct : option string) (b : body)
| QPut (n : string) (v : Z) (ct : option string) (b : body).

Inductive reply :=
| RNames (l : list string)
| RVersions (l : list Z)
| RType (d : pyval) (v : Z)
| RVersion (v : Z)
| RStatus (code : Z)      (* HTTPException *)
| RFailure (e : exn).     (* uncaught exception: status 500 *)

(** Where a handler stands. *)
Inductive local := Start | Reading | Done (r : reply).

Definition media_type : string := "application/x-recap+json".

(** registry.py:91-97. *)
Definition content_type_ok (ct : option string) : bool :=
  match ct with
  | None => true
  | Some s => String.eqb s "" || String.eqb s media_type
  end.

(** _request_to_type after the body was read, registry.py:99-115. *)
Definition body_type (b : body) : res rtype :=
  match b with
  | NotUtf8 => Err ValueError (* UnicodeDecodeError *)
  | Json j => match snd (from_dict_new j) with Ok t => Ok t | Err _ => Err (HTTPError 400) end
  | Text s => match snd (from_dict_new (PStr s)) with Ok t => Ok t | Err _ => Err (HTTPError 400) end
  end.

Definition failure (e : exn) : reply := match e with HTTPError c => RStatus c | e => RFailure e end.

Section Server.
  Variable root : path.

  (** Answer with a type and its version, registry.py:30-34 and 54-58. *)
  Definition type_reply (r : res (option (rtype * Z))) : reply :=
    match r with
    | Err e => failure e
    | Ok None => RStatus 404
    | Ok (Some (t, v)) => match to_dict true true t with Ok d => RType d v | Err e => failure e end
    end.

  (** The end of post (line 69) and put (line 87). *)
  Definition finish_put (fs : fsys) (n : string) (b : body) (v : option Z) : fsys * local :=
    match body_type b with
    | Err e => (fs, Done (failure e))
    | Ok t => match put root fs n t v with
              | (fs', Ok w) => (fs', Done (RVersion w))
              | (fs', Err e) => (fs', Done (failure e))
              end
    end.

  (** Run a handler from where it stands to its next await point or its end. *)
  Definition resume (fs : fsys) (q : request) (l : local) : fsys * local :=
    match l with
    | Done r => (fs, Done r)
    | Start =>
        match q with
        | QLs => (* lines 20-22 *)
            (fs, Done (match ls root fs with Ok l => RNames l | Err e => failure e end))
        | QLatest n => (fs, Done (type_reply (get root fs n None))) (* lines 25-34 *)
        | QVersions n => (* lines 37-45 *)
            (fs, Done (match versions root fs n with
                       | Ok (Some (v :: vs)) => RVersions (v :: vs)
                       | Ok _ => RStatus 404
                       | Err e => failure e
                       end))
        | QVersion n v => (fs, Done (type_reply (get root fs n (Some v)))) (* lines 48-58 *)
        | QPost n ct b => (* lines 61-67, 91-99 *)
            if content_type_ok ct then (fs, Reading) else (fs, Done (RStatus 415))
        | QPut n v ct b => (* lines 72-85, 91-99 *)
            match get root fs n (Some v) with
            | Err e => (fs, Done (failure e))
            | Ok (Some _) => (fs, Done (RStatus 409))
            | Ok None => if content_type_ok ct then (fs, Reading) else (fs, Done (RStatus 415))
            end
        end
    | Reading =>
        match q with
        | QPost n _ b => finish_put fs n b None
        | QPut n v _ b => finish_put fs n b (Some v)
        | _ => (fs, Reading)
        end
    end.

  (** A server: the disk and the requests in flight. *)
  Definition server := (fsys * list (request * local))%type.

  (** The event loop resumes handler [i]. *)
  Fixpoint resume_nth (i : nat) (fs : fsys) (l : list (request * local)) : server :=
    match l, i with
    | [], _ => (fs, [])
    | (q, s) :: r, 0 => let (fs', s') := resume fs q s in (fs', (q, s') :: r)
    | c :: r, S i => let (fs', r') := resume_nth i fs r in (fs', c :: r')
    end.

  Fixpoint run_server (sched : list nat) (s : server) : server :=
    match sched with
    | [] => s
    | i :: r => run_server r (resume_nth i (fst s) (snd s))
    end.

  Definition accept (fs : fsys) (l : list request) : server := (fs, map (fun q => (q, Start)) l).

  (** One request on its own. *)
  Definition serve (fs : fsys) (q : request) : fsys * local :=
    let (fs1, l) := resume fs q Start in resume fs1 q l.
End Server.
