(** Vocabulary of the property theorems about methods of nodes called by other
    threads. Definitions only. *)
From Coq Require Import Permutation.
From Verif Require Import Base MainTree Spec Queue SpecQueue NodeThreads.

(** A queue in which nothing waits and nothing runs. *)
Definition at_rest (c : @system request mtree) : Prop :=
  fst c = None /\ running (snd c) = None /\ waiting (snd c) = [] /\ handler (snd c) = None /\ sources (snd c) = [].

(** The steps of the program. *)
Definition steps_on (l : list nstep) (c : @system request mtree) : @system request mtree := fold_left (fun c s => nstep_on s c) l c.
Definition tree_in (c : @system request mtree) : mtree := app (snd c).

(** The same tree, with the pending relations in any order. *)
Definition alike (t t' : mtree) : Prop := nodes t' = nodes t /\ rootc t' = rootc t /\ Permutation (pend t') (pend t).

(** The calls of the property: all except set_parents_enabled(False), and moves to
    the id of the root. *)
Definition sound_elsewhere (o : mop) : Prop :=
  match o with
  | SetParentsEnabled _ false => False
  | SetParent _ p | MoveNode _ p => p <> Some main_root
  | _ => True
  end.

(** What the listeners hear when requests are executed one after the other. *)
Fixpoint reports (l : list request) (t : mtree) : list event :=
  match l with
  | [] => []
  | r :: rest => events (op_of r) t ++ reports rest (after (op_of r) t)
  end.

(** The calls that do not take parents or children away one after the other. *)
Definition one_change (o : mop) : Prop :=
  match o with
  | SetParent _ _ | MoveNode _ _ | SetParentsEnabled _ false | SetChildrenEnabled _ false => False
  | _ => True
  end.
