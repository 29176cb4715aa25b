(** Vocabulary of the property theorems about functions of the application that
    raise while the tree announces a change. Definitions only. *)
From Verif Require Import Base MainTree Spec Filters FTree ViewCount Api Stopped.

(** A listener that went through some events in order without raising. *)
Inductive went (ord : nat -> list id -> list id) (b : bank) : list event -> listener -> listener -> Prop :=
| went_nil : forall l, went ord b [] l l
| went_cons : forall e es l l1 l2, notify ord b e l = (l1, Ok tt) -> went ord b es l1 l2 -> went ord b (e :: es) l l2.

(** The last thing that a call announces is its outcome; it announces one thing only. *)
Definition ends_with (o : mop) (t : mtree) (e : event) : Prop :=
  exists pre, events o t = pre ++ [e] /\ ev_tree e = after o t.
Definition one_event (o : mop) (t : mtree) (e : event) : Prop := events o t = [e] /\ ev_tree e = after o t.
