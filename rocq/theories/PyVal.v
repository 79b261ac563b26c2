(** Base layer: results, exceptions and JSON-like Python values.

    This file models no function of /repo itself; it fixes how Python data that
    recap/types.py and recap/converters/*.py manipulate is represented
    (dicts in insertion order, [==], [in], truthiness, [<] on mixed values). *)
From Coq Require Import String Ascii List ZArith QArith Bool Lia.
Import ListNotations.
Open Scope nat_scope.
Open Scope string_scope.
Open Scope list_scope.

(** Python exceptions that the modelled code can raise.  [OutOfFuel] marks
    exhausted recursion fuel of the model, [Unmodelled] a Python object outside
    the model; messages are not modelled. *)
Inductive exn :=
| TypeError | ValueError | AssertionError | AttributeError | KeyError
| IndexError | FileNotFoundError | IsADirectoryError | NotADirectoryError
| JSONDecodeError | HTTPError (code : Z) | OverflowError
| Unmodelled | OutOfFuel.

Inductive res (A : Type) :=
| Ok (a : A)
| Err (e : exn).
Arguments Ok {A} a.
Arguments Err {A} e.

Definition rbind {A B} (x : res A) (f : A -> res B) : res B :=
  match x with Ok a => f a | Err e => Err e end.

Declare Scope res_scope.
Delimit Scope res_scope with res.
Notation "x <- e ;; f" := (rbind e (fun x => f))
  (at level 61, e at next level, right associativity) : res_scope.

Definition is_ok {A} (r : res A) : bool :=
  match r with Ok _ => true | Err _ => false end.

Fixpoint rmap {A B} (f : A -> res B) (l : list A) : res (list B) :=
  match l with
  | [] => Ok []
  | x :: xs =>
      match f x with
      | Err e => Err e
      | Ok y => match rmap f xs with
                | Err e => Err e
                | Ok ys => Ok (y :: ys)
                end
      end
  end.

(** ** Python dicts with string keys, in insertion order *)
Section Dict.
  Context {V : Type}.
  Definition dict_of := list (string * V).

  Fixpoint dget (k : string) (d : list (string * V)) : option V :=
    match d with
    | [] => None
    | (k', v) :: d' => if String.eqb k k' then Some v else dget k d'
    end.

  Definition dmem (k : string) (d : list (string * V)) : bool :=
    match dget k d with Some _ => true | None => false end.

  (** [d[k] = v]: keeps the position of an existing key, appends otherwise. *)
  Fixpoint dset (k : string) (v : V) (d : list (string * V)) : list (string * V) :=
    match d with
    | [] => [(k, v)]
    | (k', v') :: d' => if String.eqb k k' then (k', v) :: d' else (k', v') :: dset k v d'
    end.

  (** [d.pop(k, ...)], the remaining dict. *)
  Definition ddel (k : string) (d : list (string * V)) : list (string * V) :=
    filter (fun kv => negb (String.eqb k (fst kv))) d.

  (** [d | e], [{**d, **e}], [d.update(e)]. *)
  Definition dupd (d e : list (string * V)) : list (string * V) :=
    fold_left (fun acc kv => dset (fst kv) (snd kv) acc) e d.

  Definition dkeys (d : list (string * V)) : list string := map fst d.
End Dict.

Definition str_in (s : string) (l : list string) : bool := existsb (String.eqb s) l.

(** ** Values *)
Inductive pyval :=
| PNone
| PBool (b : bool)
| PInt (z : Z)
| PFloat (q : Q)
| PStr (s : string)
| PList (l : list pyval)
| PDict (d : list (string * pyval)).

Fixpoint pyval_ind' (P : pyval -> Prop)
    (HNone : P PNone) (HBool : forall b, P (PBool b)) (HInt : forall z, P (PInt z))
    (HFloat : forall q, P (PFloat q)) (HStr : forall s, P (PStr s))
    (HList : forall l, Forall P l -> P (PList l))
    (HDict : forall d, Forall (fun kv => P (snd kv)) d -> P (PDict d))
    (v : pyval) : P v :=
  match v with
  | PNone => HNone
  | PBool b => HBool b
  | PInt z => HInt z
  | PFloat q => HFloat q
  | PStr s => HStr s
  | PList l =>
      HList l ((fix go (l : list pyval) : Forall P l :=
                  match l with
                  | [] => Forall_nil _
                  | x :: xs =>
                      Forall_cons _ (pyval_ind' P HNone HBool HInt HFloat HStr HList HDict x) (go xs)
                  end) l)
  | PDict d =>
      HDict d ((fix go (d : list (string * pyval)) : Forall (fun kv => P (snd kv)) d :=
                  match d with
                  | [] => Forall_nil _
                  | x :: xs =>
                      Forall_cons x
                        (pyval_ind' P HNone HBool HInt HFloat HStr HList HDict (snd x)) (go xs)
                  end) d)
  end.

(** Python numbers: bool is a subclass of int; int and float compare exactly. *)
Definition num_of (v : pyval) : option Q :=
  match v with
  | PBool true => Some 1%Q
  | PBool false => Some 0%Q
  | PInt z => Some (inject_Z z)
  | PFloat q => Some q
  | _ => None
  end.

(** Python [a == b]. *)
Fixpoint py_eq (a b : pyval) {struct a} : bool :=
  match a with
  | PNone => match b with PNone => true | _ => false end
  | PBool _ | PInt _ | PFloat _ =>
      match num_of a, num_of b with
      | Some x, Some y => Qeq_bool x y
      | _, _ => false
      end
  | PStr s => match b with PStr s' => String.eqb s s' | _ => false end
  | PList l =>
      match b with
      | PList l' =>
          (fix go (l l' : list pyval) : bool :=
             match l, l' with
             | [], [] => true
             | x :: xs, y :: ys => py_eq x y && go xs ys
             | _, _ => false
             end) l l'
      | _ => false
      end
  | PDict d =>
      match b with
      | PDict d' =>
          Nat.eqb (length d) (length d') &&
          (fix go (d : list (string * pyval)) : bool :=
             match d with
             | [] => true
             | (k, v) :: r =>
                 match dget k d' with
                 | Some w => py_eq v w
                 | None => false
                 end && go r
             end) d
      | _ => false
      end
  end.

(** Dict equality of two attribute dicts (same as [py_eq] on [PDict]). *)
Definition dict_eq (d d' : list (string * pyval)) : bool := py_eq (PDict d) (PDict d').

(** Python truthiness. *)
Definition truthy (v : pyval) : bool :=
  match v with
  | PNone => false
  | PBool b => b
  | PInt z => negb (Z.eqb z 0)
  | PFloat q => negb (Qeq_bool q 0)
  | PStr s => negb (String.eqb s "")
  | PList l => match l with [] => false | _ => true end
  | PDict d => match d with [] => false | _ => true end
  end.

Definition is_none (v : pyval) : bool := match v with PNone => true | _ => false end.

(** [v < z] and [v > z] for an integer literal [z]: TypeError on non-numbers. *)
Definition py_lt_z (v : pyval) (z : Z) : res bool :=
  match num_of v with
  | Some q => Ok (negb (Qle_bool (inject_Z z) q))
  | None => Err TypeError
  end.
Definition py_gt_z (v : pyval) (z : Z) : res bool :=
  match num_of v with
  | Some q => Ok (negb (Qle_bool q (inject_Z z)))
  | None => Err TypeError
  end.

(** Substring test: [needle in hay] for strings. *)
Fixpoint substr_in (needle hay : string) : bool :=
  String.prefix needle hay ||
  match hay with
  | EmptyString => false
  | String _ h => substr_in needle h
  end.

(** [s in v] for a string literal [s]. *)
Definition py_str_in (s : string) (v : pyval) : res bool :=
  match v with
  | PList l => Ok (existsb (fun x => py_eq x (PStr s)) l)
  | PStr h => Ok (substr_in s h)
  | PDict d => Ok (dmem s d)
  | _ => Err TypeError
  end.

Fixpoint chars (s : string) : list string :=
  match s with
  | EmptyString => []
  | String c r => String c EmptyString :: chars r
  end.

(** [for x in v].  Simplification: strings iterate per byte, Python per code point. *)
Definition py_iter (v : pyval) : res (list pyval) :=
  match v with
  | PList l => Ok l
  | PStr s => Ok (map PStr (chars s))
  | PDict d => Ok (map (fun kv => PStr (fst kv)) d)
  | _ => Err TypeError
  end.

(** Size of a value; used as recursion fuel. *)
Fixpoint psize (v : pyval) : nat :=
  match v with
  | PList l => S ((fix go (l : list pyval) := match l with [] => 0 | x :: r => psize x + go r end) l)
  | PDict d =>
      S ((fix go (d : list (string * pyval)) :=
            match d with [] => 0 | (_, x) :: r => S (psize x) + go r end) d)
  | _ => 1
  end.

Definition lsize (l : list pyval) : nat := fold_right (fun x n => psize x + n) 0 l.
Definition dsize (d : list (string * pyval)) : nat :=
  fold_right (fun kv n => S (psize (snd kv)) + n) 0 d.

(** Representation invariant: dict keys are unique at every depth. *)
Inductive pwf : pyval -> Prop :=
| pwf_none : pwf PNone
| pwf_bool b : pwf (PBool b)
| pwf_int z : pwf (PInt z)
| pwf_float q : pwf (PFloat q)
| pwf_str s : pwf (PStr s)
| pwf_list l : Forall pwf l -> pwf (PList l)
| pwf_dict d : NoDup (dkeys d) -> Forall (fun kv => pwf (snd kv)) d -> pwf (PDict d).
