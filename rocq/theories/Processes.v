(** Several processes that share the directory of one registry: recap/storage/registry.py as in
    Storage.v, cut into its accesses to the file system.  Between two accesses of one process any
    number of accesses of others may take place; a process that crashes is one that makes no more.
    Simplifications: each access (a listing, one mkdir, an open, reading a whole file, writing a whole
    text) is atomic; a text is written to a file at once, from its start on. *)
From Coq Require Import String List ZArith Bool.
From Verif Require Import PyVal RType Registry FromDict ToDict Storage SpecStorage.
Import ListNotations.
Open Scope nat_scope.
Open Scope string_scope.
Open Scope list_scope.

(** The tree and the lengths of the texts in its files. *)
Definition disk := (fsys * list (path * nat))%type.
Fixpoint text_len (p : path) (l : list (path * nat)) : nat :=
  match l with
  | [] => 0
  | (q, n) :: r => if path_eqb p q then n else text_len p r
  end.

Section Processes.
  Variable root : path. (* self.root_path, registry.py:12 *)
  (** The length of the text that json.dump writes for a document, registry.py:61. *)
  Variable size : pyval -> nat.

  (** An access.  Opening a file truncates it (registry.py:60).  Writing (registry.py:61, flushed when
      the file is closed) overwrites the start of whatever text others have written since then; the
      end of a longer text stays, and there is no JSON document that ends like that. *)
  Definition access (s : step) (d : disk) : res disk :=
    let (fs, lens) := d in
    match s with
    | Mkdir _ => (fs' <- exec s fs ;; Ok (fs', lens))%res
    | OpenW p => (fs' <- exec s fs ;; Ok (fs', (p, 0) :: lens))%res
    | Write p j =>
        if Nat.leb (text_len p lens) (size j)
        then Ok (fset p (File (Full j)) fs, (p, size j) :: lens)
        else Ok (fset p (File Trunc) fs, lens)
    end.

  (** Where a call stands: not begun, a put with its version and the accesses left, or a get that
      has found the latest version. *)
  Inductive phase := Begin | Putting (v : Z) (left : list step) | Getting (v : Z).

  (** The next access of a call, registry.py:15-83. *)
  Definition advance (d : disk) (o : op) (ph : phase) : disk * (phase + answer) :=
    let fs := fst d in
    match o, ph with
    | OPut n t v, Begin =>
        match put_plan root fs n t v with
        | Err e => (d, inr (APut (Err e)))
        | Ok (w, steps) => (d, inl (Putting w steps))
        end
    | OPut _ _ _, Putting w (s :: r) =>
        match access s d with
        | Err e => (d, inr (APut (Err e)))
        | Ok d' => (d', inl (Putting w r))
        end
    | OPut _ _ _, Putting w [] => (d, inr (APut (Ok w)))
    | OGet n None, Begin =>
        match versions root fs n with
        | Err e => (d, inr (AGet (Err e)))
        | Ok None | Ok (Some []) => (d, inr (AGet (Ok None)))
        | Ok (Some l) => match max_list l with
                         | Some m => (d, inl (Getting m))
                         | None => (d, inr (AGet (Ok None)))
                         end
        end
    | OGet n None, Getting v => (d, inr (AGet (get_version root fs n v)))
    | OGet n (Some v), Begin => (d, inr (AGet (get_version root fs n v)))
    | OVersions n, Begin => (d, inr (AVersions (versions root fs n)))
    | OLatest n, Begin => (d, inr (ALatest (latest root fs n)))
    | OLs, Begin => (d, inr (ALs (ls root fs)))
    | _, _ => (d, inl ph)
    end.

  (** A process makes its calls one after the other. *)
  Record process := mkProc { todo : list op; stands : phase; finished : list (op * answer) }.
  Definition begin (l : list op) : process := mkProc l Begin [].
  Definition proceed (d : disk) (p : process) : disk * process :=
    match todo p with
    | [] => (d, p)
    | o :: r =>
        match advance d o (stands p) with
        | (d', inl ph) => (d', mkProc (o :: r) ph (finished p))
        | (d', inr a) => (d', mkProc r Begin (finished p ++ [(o, a)]))
        end
    end.

  Definition system := (disk * list process)%type.
  Fixpoint proceed_nth (i : nat) (d : disk) (l : list process) : system :=
    match l, i with
    | [], _ => (d, [])
    | p :: r, 0 => let (d', p') := proceed d p in (d', p' :: r)
    | p :: r, S i => let (d', r') := proceed_nth i d r in (d', p :: r')
    end.
  (** The processes make accesses in the order of the schedule. *)
  Fixpoint run (sched : list nat) (s : system) : system :=
    match sched with
    | [] => s
    | i :: r => run r (proceed_nth i (fst s) (snd s))
    end.
  (** Processes with the calls [calls] on the disk [fs]. *)
  Definition system_of (fs : fsys) (calls : list (list op)) : system := ((fs, []), map begin calls).
End Processes.
