(** Vocabulary for what calls do to node objects and to the list of nodes.
    Definitions only. *)
From Verif Require Import Base MainTree.

(** The data of a node object of the tree. *)
Definition data_at (t : mtree) (x : id) : option nat := option_map data (dget x (nodes t)).

(** [below t d l ls]: [ls] are the lines of a depth-first listing of the nodes [l]
    and of what is below them, each line with its depth; the nodes [l] have depth
    [d]. *)
Inductive below (t : mtree) (d : nat) : list id -> list (nat * id) -> Prop :=
| below_nil : below t d [] []
| below_cons : forall c l l1 l2, below t (S d) (get_children t c) l1 -> below t d l l2 ->
    below t d (c :: l) ((d, c) :: l1 ++ l2).

(** What an event says, without the tree at that moment. *)
Definition kind_id (e : event) : ekind * id := (ev_kind e, ev_id e).
