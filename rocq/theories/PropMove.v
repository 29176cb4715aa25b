(** Property theorems about moving nodes (C11, C59). Nothing else in this file. *)
From Verif Require Import Base MainTree Spec SpecMove Witness MoveFacts MoveWitness.

(** C11. What a move under a node of the tree does, exactly: which parents stay,
    when it is refused, and that nothing else changes. *)
Theorem C11_move_exact : forall t, reach calm t -> forall n p, has_node t n = true -> has_node t p = true -> p <> n ->
  let t' := after (MoveNode n (Some p)) t in
  let kept := survivors p (get_parents t n) in
  (anc t n p -> outcome (MoveNode n (Some p)) t = Err Circular /\ get_parents t' n = kept) /\
  (~ anc t n p -> outcome (MoveNode n (Some p)) t = Ok tt /\ get_parents t' n = add_last p kept) /\
  get_all_nodes t' = get_all_nodes t /\ (forall x, x <> n -> get_parents t' x = get_parents t x).
Proof. exact move_exact. Qed.
Print Assumptions C11_move_exact.
Example C11_exact_example : reach calm many_parents /\ get_parents many_parents "n" = ["a"; "b"; "c"; "d"; "e"] /\
  get_parents (after (MoveNode "n" (Some "z")) many_parents) "n" = ["b"; "d"; "z"] /\
  get_parents (after (MoveNode "n" (Some "b")) many_parents) "n" = ["b"; "d"] /\
  get_parents (after (MoveNode "n" (Some "c")) many_parents) "n" = ["b"; "c"; "e"].
Proof. exact many_example. Qed.

(** C11. Moving a node that is not there, or under itself, does nothing. *)
Theorem C11_move_idle : forall t n p, has_node t n = false \/ p = Some n ->
  after (MoveNode n p) t = t /\ outcome (MoveNode n p) t = Ok tt /\ events (MoveNode n p) t = [].
Proof. exact move_idle. Qed.
Print Assumptions C11_move_idle.
Example C11_idle_example : has_node diamond "nowhere" = false /\ has_node diamond "d" = true /\ get_parents diamond "d" = ["b"; "c"].
Proof. exact (conj eq_refl (conj eq_refl eq_refl)). Qed.

(** C59. A move that is refused leaves the tree as it was, for a node at the top.
    What is missing: nodes with parents, for which it is false (below). *)
Theorem C59_refused_partial : forall t, reach calm t -> forall n p, has_node t n = true -> has_node t p = true ->
  get_parents t n = [] -> outcome (MoveNode n (Some p)) t <> Ok tt -> same_tree t (after (MoveNode n (Some p)) t).
Proof. exact refused_top. Qed.
Print Assumptions C59_refused_partial.
Example C59_example : reach calm diamond /\ get_parents diamond "a" = [] /\ outcome (MoveNode "a" (Some "d")) diamond = Err Circular.
Proof. exact (conj diamond_calm (conj eq_refl eq_refl)). Qed.

(** C59 fails for a node with a parent: a move under one of its own descendants
    raises, and the node has lost its parent. *)
Theorem C59_refused_refuted : exists t n p, reach calm t /\ has_node t n = true /\ has_node t p = true /\
  outcome (MoveNode n (Some p)) t = Err Circular /\
  get_parents t n <> [] /\ get_parents (after (MoveNode n (Some p)) t) n = [] /\ ~ In n (root_children t) /\
  In n (root_children (after (MoveNode n (Some p)) t)).
Proof. exact refused_loses. Qed.
Print Assumptions C59_refused_refuted.
