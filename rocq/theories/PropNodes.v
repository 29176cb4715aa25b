(** Property of methods of nodes called by other threads. *)
From Verif Require Import Base MainTree Spec NodeThreads SpecNodes Witness ViewWitness NodeDone NodeTold NodeCases Queue SpecQueue.

(** C86. When another thread calls a method of a node or of the tree while nothing
    waits, and the main loop then turns as often as requests were left, the tree is
    the one that the creating thread would have made by the same call; pending
    relations may be in another order. Missing: set_parents_enabled(False), moves to
    the id of the root, and calls made while requests wait. *)
Theorem C86_same_partial : forall c o k, at_rest c -> reach calm (tree_in c) -> sound_elsewhere o ->
  length (snd (thread_op o (tree_in c))) <= k ->
  alike (after o (tree_in c)) (tree_in (steps_on (NOther o :: repeat NTurn k) c)).
Proof. exact elsewhere_alike. Qed.
Print Assumptions C86_same_partial.
Example C86_same_example : at_rest (start family) /\ reach calm (tree_in (start family)) /\ sound_elsewhere (SetParent "d" (Some "b")) /\
  snd (thread_op (SetParent "d" (Some "b")) family) = [RBreak "a" "d"; RNew "b" "d"] /\
  get_parents (tree_in (steps_on (NOther (SetParent "d" (Some "b")) :: repeat NTurn 2) (start family))) "d" = ["c"; "b"].
Proof. exact move_case. Qed.

(** C86. And the listeners hear from the requests that the call left what they hear
    when the creating thread makes it. Missing: calls that take several relations
    away; there the listeners find the trees on the way, which differ. *)
Theorem C86_told_partial : forall o t, one_change o ->
  reports (snd (thread_op o t)) (fst (thread_op o t)) = events o t.
Proof. exact elsewhere_told. Qed.
Print Assumptions C86_told_partial.
Example C86_told_example : one_change (SetData "a" 5) /\ snd (thread_op (SetData "a" 5) family) = [RModify "a"] /\
  map ev_name (events (SetData "a" 5) family) = ["a"].
Proof. exact told_case. Qed.

(** C86 is false of set_parents_enabled(False): the node ends without a parent and
    is not among the children of the root. *)
Theorem C86_flags_refuted : exists t n, reach calm t /\ outcome (SetParentsEnabled n false) t = Ok tt /\ In n (rootc (after (SetParentsEnabled n false) t)) /\
  forall k, length (snd (thread_op (SetParentsEnabled n false) t)) <= k ->
    let t' := tree_in (steps_on (NOther (SetParentsEnabled n false) :: repeat NTurn k) (start t)) in
    has_node t' n = true /\ get_parents t' n = [] /\ ~ In n (rootc t').
Proof. exact flag_lost. Qed.
Print Assumptions C86_flags_refuted.

(** Until the main loop turns, the creating thread finds half of the change: it can
    make a circle, and no exception says so. *)
Theorem C86_circle_refuted : exists t n p, reach calm t /\ In p (get_parents t n) /\
  let t' := tree_in (steps_on [NOther (RemoveParent n p); NCall (NewRelationship n p)] (start t)) in
  outcome (NewRelationship n p) (fst (thread_op (RemoveParent n p) t)) = Ok tt /\ In n (get_children t' p) /\ In p (get_children t' n).
Proof. exact made_circle. Qed.
Print Assumptions C86_circle_refuted.

(** And a node that another thread took from under a parent is deleted with that
    parent. *)
Theorem C86_between_refuted : exists t n p, reach calm t /\ get_parents t n = [p] /\
  has_node (after (DelNode p true) (after (RemoveParent n p) t)) n = true /\
  forall k, has_node (tree_in (steps_on (NOther (RemoveParent n p) :: NCall (DelNode p true) :: repeat NTurn k) (start t))) n = false.
Proof. exact cut_undone. Qed.
Print Assumptions C86_between_refuted.

(** A parent added between the two halves of add_parent is never related to the
    node, though either order of the two calls relates them. *)
Theorem C86_race_refuted : exists t n p, reach calm t /\ has_node t n = true /\ has_node t p = false /\
  let t' := after (put p 1 None) t in let '(t2, rs) := late_add_parent n p t t' in
  has_node t2 n = true /\ has_node t2 p = true /\ rs = [] /\ ~ In p (get_parents t2 n) /\ In (Some p, n) (pend t2) /\
  In p (get_parents (after (AddParent n (Some p)) t') n) /\ In p (get_parents (after (put p 1 None) (after (AddParent n (Some p)) t)) n).
Proof. exact added_late. Qed.
Print Assumptions C86_race_refuted.
