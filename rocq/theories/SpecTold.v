(** Vocabulary of the property theorems about modified signals. Definitions only. *)
From Verif Require Import Base MainTree FTree SpecView.

(** The signals [l] are those for the beginnings of the paths of the view [s] that
    end with the node [n]: a modified signal for each place of [n] and for each node
    above it, and no others. *)
Definition announces (s : ft) (n : id) (l : list sig) : Prop :=
  forall y, In y l <-> exists q x m, y = SModified x (q ++ [x]) /\ view_path s (q ++ x :: m) /\ last (x :: m) "" = n.
