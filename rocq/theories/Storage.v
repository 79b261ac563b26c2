(** RegistryStorage: recap/storage/registry.py, on a model of a POSIX-like file system
    reached through fsspec. *)
From Coq Require Import String Ascii List ZArith QArith Bool DecimalString.
From Verif Require Import PyVal RType Registry FromDict ToDict Quote.
Import ListNotations.
Open Scope nat_scope.
Open Scope string_scope.
Open Scope list_scope.

(** ** File system
    A path is the list of its components below "/".  A file holds either a complete
    JSON text (represented by its value: json.load after json.dump is the identity) or
    a truncated text, left behind by a crash, that does not parse. *)
Definition path := list string.
Inductive content := Full (j : pyval) | Trunc.
Inductive node := Dir | File (c : content).
Definition fsys := list (path * node).

Fixpoint path_eqb (p q : path) : bool :=
  match p, q with
  | [], [] => true
  | x :: p', y :: q' => String.eqb x y && path_eqb p' q'
  | _, _ => false
  end.

Fixpoint fget (p : path) (fs : fsys) : option node :=
  match fs with
  | [] => None
  | (q, n) :: r => if path_eqb p q then Some n else fget p r
  end.
Fixpoint fset (p : path) (n : node) (fs : fsys) : fsys :=
  match fs with
  | [] => [(p, n)]
  | (q, m) :: r => if path_eqb p q then (q, n) :: r else (q, m) :: fset p n r
  end.

Definition node_at (p : path) (fs : fsys) : option node :=
  match p with [] => Some Dir | _ => fget p fs end.

(** Resolution of "", "." and ".." components (lexically). *)
Fixpoint norm_acc (acc : path) (p : path) : path :=
  match p with
  | [] => rev acc
  | x :: r =>
      if String.eqb x "" || String.eqb x "." then norm_acc acc r
      else if String.eqb x ".." then norm_acc (tl acc) r
      else norm_acc (x :: acc) r
  end.
Definition norm (p : path) : path := norm_acc [] p.

(** Primitive steps of a put. *)
Inductive step := Mkdir (p : path) | OpenW (p : path) | Write (p : path) (j : pyval).

Definition exec (s : step) (fs : fsys) : res fsys :=
  match s with
  | Mkdir p =>
      match node_at p fs with
      | Some Dir => Ok fs
      | Some (File _) => Err NotADirectoryError
      | None => Ok (fset p Dir fs)
      end
  | OpenW p =>
      match node_at (removelast p) fs with
      | Some Dir =>
          match node_at p fs with
          | Some Dir => Err IsADirectoryError
          | _ => Ok (fset p (File Trunc) fs)
          end
      | Some (File _) => Err NotADirectoryError
      | None => Err FileNotFoundError
      end
  | Write p j => Ok (fset p (File (Full j)) fs)
  end.

(** Steps run in order; an exception keeps the effects of the steps before it. *)
Fixpoint exec_all (l : list step) (fs : fsys) : fsys * res unit :=
  match l with
  | [] => (fs, Ok tt)
  | s :: r => match exec s fs with Ok fs' => exec_all r fs' | Err e => (fs, Err e) end
  end.

(** All non-empty prefixes, shortest first. *)
Fixpoint prefixes (p : path) : list path :=
  match p with
  | [] => []
  | x :: r => [x] :: map (cons x) (prefixes r)
  end.
(** fs.mkdirs(path, exist_ok=True). *)
Definition mkdirs (p : path) : list step := map Mkdir (prefixes p).

Fixpoint strip (p q : path) : option path :=
  match p, q with
  | [], _ => Some q
  | x :: p', y :: q' => if String.eqb x y then strip p' q' else None
  | _, _ => None
  end.
Definition child_names (p : path) (fs : fsys) : list string :=
  flat_map (fun e => match strip p (fst e) with Some [x] => [x] | _ => [] end) fs.

(** fs.ls(path), last components only; on a file, the file itself. *)
Definition listdir (p : path) (fs : fsys) : res (list string) :=
  match node_at p fs with
  | Some Dir => Ok (child_names p fs)
  | Some (File _) => Ok [last p ""]
  | None => Err FileNotFoundError
  end.

(** ** sorted() and max() *)
Section Sort.
  Context {A : Type} (leb : A -> A -> bool).
  Fixpoint insert (x : A) (l : list A) : list A :=
    match l with
    | [] => [x]
    | y :: r => if leb x y then x :: y :: r else y :: insert x r
    end.
  Fixpoint sorted (l : list A) : list A :=
    match l with [] => [] | x :: r => insert x (sorted r) end.
End Sort.

(** Code point order of strings (byte order of UTF-8). *)
Fixpoint str_leb (a b : string) : bool :=
  match a, b with
  | EmptyString, _ => true
  | String _ _, EmptyString => false
  | String x a', String y b' =>
      if Ascii.eqb x y then str_leb a' b' else N.ltb (N_of_ascii x) (N_of_ascii y)
  end.

Definition max_list (l : list Z) : option Z :=
  match l with [] => None | x :: r => Some (fold_left Z.max r x) end.

(** ** Version numbers in file names *)
(** str(version). *)
Definition dec (v : Z) : string := NilZero.string_of_int (Z.to_int v).
(** int(text); only plain decimal texts, the only ones registry files have. *)
Definition python_int (s : string) : res Z :=
  match NilZero.int_of_string s with
  | Some i => Ok (Z.of_int i)
  | None => Err ValueError
  end.

(** Path(file).stem: text before the last dot, unless that dot is first or last. *)
Fixpoint rfind_dot (s : string) (pos : nat) (found : option nat) : option nat :=
  match s with
  | EmptyString => found
  | String c r => rfind_dot r (S pos) (if Ascii.eqb c "." then Some pos else found)
  end.
Definition stem (s : string) : string :=
  match rfind_dot s 0 None with
  | Some i => if Nat.ltb 0 i && Nat.ltb i (String.length s - 1) then String.substring 0 i s else s
  | None => s
  end.

(** ** RegistryStorage *)
Section Storage.
  Variable root : path. (* self.root_path, registry.py:12 *)

  Definition file_name (v : Z) : string := (dec v ++ ".json")%string.
  (** registry.py:55, 67. *)
  Definition dir_path (name : string) : path := norm (root ++ [quote_plus name]).
  (** registry.py:37, 60. *)
  Definition file_path (name : string) (v : Z) : path :=
    norm (root ++ [quote_plus name; file_name v]).

  (** RegistryStorage.__init__, registry.py:11-13. *)
  Definition init (fs : fsys) : fsys * res unit := exec_all (mkdirs root) fs.

  (** ls, registry.py:15-21. *)
  Definition ls (fs : fsys) : res (list string) :=
    (l <- listdir root fs ;; Ok (sorted str_leb (map unquote_plus l)))%res.

  (** versions, registry.py:65-77. *)
  Definition versions (fs : fsys) (name : string) : res (option (list Z)) :=
    match listdir (dir_path name) fs with
    | Err FileNotFoundError => Ok None
    | Err e => Err e
    | Ok l => (vs <- rmap (fun x => python_int (stem x)) l ;; Ok (Some (sorted Z.leb vs)))%res
    end.

  (** latest, registry.py:79-83. *)
  Definition latest (fs : fsys) (name : string) : res (option Z) :=
    (vs <- versions fs name ;;
     match vs with
     | None | Some [] => Ok None
     | Some l => Ok (max_list l)
     end)%res.

  (** open and json.load, registry.py:37-38. *)
  Definition read (p : path) (fs : fsys) : res pyval :=
    match node_at p fs with
    | Some (File (Full j)) => Ok j
    | Some (File Trunc) => Err JSONDecodeError
    | Some Dir => Err IsADirectoryError
    | None => Err FileNotFoundError
    end.

  (** registry.py:36-42 for a given version. *)
  Definition get_version (fs : fsys) (name : string) (v : Z) : res (option (rtype * Z)) :=
    match read (file_path name v) fs with
    | Err FileNotFoundError => Ok None
    | Err e => Err e
    | Ok j => (t <- snd (from_dict_new j) ;; Ok (Some (t, v)))%res
    end.

  (** get, registry.py:23-42.  max(versions) is evaluated on a non-empty list. *)
  Definition get (fs : fsys) (name : string) (v : option Z) : res (option (rtype * Z)) :=
    match v with
    | Some v => get_version fs name v
    | None =>
        (vs <- versions fs name ;;
         match vs with
         | None | Some [] => Ok None
         | Some l => match max_list l with
                     | Some m => get_version fs name m
                     | None => Ok None
                     end
         end)%res
    end.

  (** The version chosen by put, registry.py:52-53. *)
  Definition put_version (fs : fsys) (name : string) (v : option Z) : res Z :=
    match v with
    | Some v => Ok v
    | None =>
        (l <- latest fs name ;;
         Ok ((match l with Some z => z | None => 0 end) + 1)%Z)%res
    end.

  (** Version and file-system steps of put, registry.py:44-63. *)
  Definition put_plan (fs : fsys) (name : string) (t : rtype) (v : option Z) : res (Z * list step) :=
    (v <- put_version fs name v ;;
     d <- to_dict true true t ;;
     Ok (v, mkdirs (dir_path name) ++ [OpenW (file_path name v); Write (file_path name v) d]))%res.

  (** put, registry.py:44-63. *)
  Definition put (fs : fsys) (name : string) (t : rtype) (v : option Z) : fsys * res Z :=
    match put_plan fs name t v with
    | Err e => (fs, Err e)
    | Ok (v, steps) =>
        match exec_all steps fs with
        | (fs', Ok _) => (fs', Ok v)
        | (fs', Err e) => (fs', Err e)
        end
    end.

  (** put interrupted by a crash after [k] steps. *)
  Definition put_crash (k : nat) (fs : fsys) (name : string) (t : rtype) (v : option Z) : fsys :=
    match put_plan fs name t v with
    | Err _ => fs
    | Ok (_, steps) => fst (exec_all (firstn k steps) fs)
    end.
End Storage.
