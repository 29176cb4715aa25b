(** Vocabulary of the property theorems about what a call leaves alone. Definitions only. *)
From Verif Require Import Base MainTree FTree.

(** The node whose parents a call may change, for the calls about one relation. *)
Definition about (o : mop) : option id :=
  match o with
  | NewRelationship _ c | BreakRelationship _ c | AddChild _ c => Some c
  | AddParent n _ | SetParent n _ | RemoveParent n _ | MoveNode n _ | TreeAddParent n _ => Some n
  | _ => None
  end.

(** No signal of [l] says that the path [q] came or went. *)
Definition undisturbed (q : list id) (l : list sig) : Prop := forall n, ~ In (SDeleted n q) l /\ ~ In (SAdded n q) l.
