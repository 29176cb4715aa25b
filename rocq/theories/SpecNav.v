(** Vocabulary of the property theorems about walking through a view. Definitions
    only. *)
From Verif Require Import Base MainTree Filters FTree SpecView.

(** [listing s d l ls]: [ls] are the lines of a depth-first listing of the nodes [l]
    of the view and of what is below them, each line with its depth; the nodes [l]
    have depth [d]. *)
Inductive listing (s : ft) (d : nat) : list id -> list (nat * id) -> Prop :=
| listing_nil : listing s d [] []
| listing_cons : forall c l l1 l2, listing s (S d) (kids s c) l1 -> listing s d l l2 ->
    listing s d (c :: l) ((d, c) :: l1 ++ l2).

(** The parents of a node of the view, without the root. *)
Definition proper_parents (s : ft) (n : id) : list id := filter (fun p => negb (String.eqb p (froot s))) (pars s n).
