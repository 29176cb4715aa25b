(** Python values used by the model: ids, lists, dicts, outcomes, loops.

    Nothing here models a particular function of the repository; these are the
    pieces of Python semantics that the other files rely on. *)
From Coq Require Export String List Bool Arith Lia PeanoNat.
Export ListNotations.
#[global] Open Scope list_scope.

(** Node ids, filter names, event names: Python strings. *)
Definition id := string.

Notation "x =? y" := (String.eqb x y) : string_scope.
#[global] Open Scope string_scope.
#[global] Open Scope nat_scope.
#[global] Open Scope list_scope.

(** [x in l] for a list of strings. *)
Definition mem (x : id) (l : list id) : bool := existsb (String.eqb x) l.

(** [l.remove(x)] when it is known that the element is there (or guarded by an
    [if x in l]); removes the first occurrence. *)
Fixpoint remove1 (x : id) (l : list id) : list id :=
  match l with
  | [] => []
  | y :: t => if String.eqb x y then t else y :: remove1 x t
  end.

(** [list.index]: position of the first occurrence. *)
Fixpoint index_of (x : id) (l : list id) : option nat :=
  match l with
  | [] => None
  | y :: t => if String.eqb x y then Some 0 else option_map S (index_of x t)
  end.

(** Elements of a list without duplicates (first occurrences), i.e. [set(l)]
    before an iteration order is chosen. *)
Fixpoint dedup (l : list id) : list id :=
  match l with
  | [] => []
  | x :: t => if mem x t then dedup t else x :: dedup t
  end.

(** [set(a) - set(b)] before an iteration order is chosen. *)
Definition set_diff (a b : list id) : list id :=
  filter (fun x => negb (mem x b)) (dedup a).

(** Dicts: association lists in insertion order. [dset] keeps the position of an
    existing key, as Python does. *)
Section Dict.
  Context {V : Type}.
  Definition dict := list (id * V).

  Fixpoint dget (k : id) (d : dict) : option V :=
    match d with
    | [] => None
    | (k', v) :: t => if String.eqb k k' then Some v else dget k t
    end.

  Fixpoint dset (k : id) (v : V) (d : dict) : dict :=
    match d with
    | [] => [(k, v)]
    | (k', v') :: t => if String.eqb k k' then (k, v) :: t else (k', v') :: dset k v t
    end.

  Fixpoint ddel (k : id) (d : dict) : dict :=
    match d with
    | [] => []
    | (k', v') :: t => if String.eqb k k' then t else (k', v') :: ddel k t
    end.

  Definition dmem (k : id) (d : dict) : bool :=
    match dget k d with Some _ => true | None => false end.

  Definition dkeys (d : dict) : list id := map fst d.
End Dict.
Arguments dict : clear implicits.

(** Python exceptions that the modelled code can raise. *)
Inductive exn :=
| KeyError | ValueError | IndexError | TypeError | AttributeError
| UnboundLocalError | AssertionError
| Circular            (* raise Exception('... circular relationship ...') *)
| PyException.        (* any other raise Exception(...) *)

(** Outcome of a call: a value, an exception, or "the budget given to an
    unbounded loop was used up", which stands for non-termination. *)
Inductive res (A : Type) :=
| Ok (a : A)
| Err (e : exn)
| Diverge.
Arguments Ok {A}. Arguments Err {A}. Arguments Diverge {A}.

(** A [while] loop. [loop k step s] performs up to [2^k] steps. *)
Inductive ctl (S R : Type) :=
| Go (s : S)
| Stop (r : R).
Arguments Go {S R}. Arguments Stop {S R}.

Fixpoint loop {S R : Type} (k : nat) (step : S -> ctl S R) (s : S) : ctl S R :=
  match k with
  | 0 => step s
  | Datatypes.S k' =>
      match loop k' step s with
      | Stop r => Stop r
      | Go s' => loop k' step s'
      end
  end.

(** Budget exponent for loops that walk the paths of a graph with [n] nodes. *)
Definition walk_budget (n : nat) : nat := S n * S n + 2.
