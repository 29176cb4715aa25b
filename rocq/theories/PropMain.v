(** Properties of the main tree. *)
From Verif Require Import Base MainTree Spec MainThm MainLaws MainPaths MainPend Witness OddIds.

(** C01. Whatever calls are made, whether they raise or not and even if listeners
    raise, no node is its own ancestor. *)
Theorem C01_acyclic : forall t, reachx any_fresh t -> forall x, ~ ancestor t x x.
Proof. exact acyclic. Qed.
Print Assumptions C01_acyclic.
Example C01_example : reachx any_fresh diamond /\ ancestor diamond "a" "d".
Proof. exact (conj diamond_any diamond_ancestor). Qed.

(** C02. Every call returns or raises, with any ids. What is missing: the recursive
    deletion in a tree with a node called "". *)
Theorem C02_calls_terminate_partial : forall t, reachx any_fresh t -> forall o, fresh_add o ->
  (forall n, o = DelNode n true -> has_node t "" = false) -> outcome o t <> Diverge.
Proof. exact calls_end. Qed.
Print Assumptions C02_calls_terminate_partial.
Example C02_example : reachx any_fresh ring /\ has_node ring "" = true /\ outcome (DelNode "a" false) ring = Ok tt /\
  reachx any_fresh diamond /\ outcome (NewRelationship "d" "a") diamond = Err Circular /\ outcome (DelNode "a" true) diamond = Ok tt.
Proof. exact ring_end. Qed.

(** C02 fails there: relations with the empty id are made without a check, and the
    recursion has no end (Python stops it with a RecursionError). *)
Theorem C02_refuted : exists t o, reachx any_fresh t /\ fresh_add o /\ outcome o t = Diverge.
Proof. exact ring_hangs. Qed.
Print Assumptions C02_refuted.

(** C03. In every history, the tree refuses a relation between two of its nodes
    exactly when the child is an ancestor of the parent. *)
Theorem C03_refused_iff_circular : forall t, reachx any_fresh t -> forall p c, p <> "" -> c <> "" -> p <> c ->
  has_node t p = true -> has_node t c = true ->
  (outcome (NewRelationship p c) t = Err Circular <-> anc t c p) /\
  (outcome (NewRelationship p c) t = Ok tt <-> ~ anc t c p).
Proof. exact refused_iff. Qed.
Print Assumptions C03_refused_iff_circular.
Example C03_example : reachx any_fresh diamond /\ outcome (NewRelationship "d" "a") diamond = Err Circular
  /\ anc diamond "a" "d".
Proof. exact (conj diamond_any (conj eq_refl diamond_anc)). Qed.

(** C03. An accepted relation is stored, and nothing else changes. *)
Theorem C03_accepted_exact : forall t, reachx any_fresh t -> forall p c, p <> "" -> c <> "" -> p <> c ->
  has_node t p = true -> has_node t c = true -> outcome (NewRelationship p c) t = Ok tt ->
  let t' := after (NewRelationship p c) t in
  get_all_nodes t' = get_all_nodes t /\
  (forall x, parents t' x = if String.eqb x c then add_last p (parents t x) else parents t x) /\
  (forall x, childs t' x = if String.eqb x p then add_last c (childs t x) else childs t x).
Proof. exact new_rel_exact. Qed.
Print Assumptions C03_accepted_exact.
Example C03_accepted_example : reachx any_fresh diamond /\ outcome (NewRelationship "a" "d") diamond = Ok tt
  /\ parents (after (NewRelationship "a" "d") diamond) "d" = ["b"; "c"; "a"].
Proof. exact (conj diamond_any (conj eq_refl eq_refl)). Qed.

(** C03. The four ways to ask for a relation behave alike; a refused one leaves
    the tree as it was. What is missing: histories that disable parents or
    children, that catch an exception of an addition or a deletion, or that use
    again an id which is still listed as a child. *)
Theorem C03_request_refused_partial : forall t, reach calm t -> forall p c o, asks p c o ->
  has_node t p = true -> has_node t c = true -> p <> c ->
  (outcome o t = Err Circular <-> anc t c p) /\ (outcome o t = Ok tt <-> ~ anc t c p) /\
  (outcome o t = Err Circular -> same_tree t (after o t)).
Proof. exact ask_refused. Qed.
Print Assumptions C03_request_refused_partial.
Example C03_request_example : reach calm diamond /\ asks "d" "a" (AddChild "d" "a") /\
  outcome (AddChild "d" "a") diamond = Err Circular.
Proof. exact (conj diamond_calm (conj (asks_child _ _) eq_refl)). Qed.

Theorem C03_request_accepted_partial : forall t, reach calm t -> forall p c o, asks p c o ->
  has_node t p = true -> has_node t c = true -> p <> c -> outcome o t = Ok tt ->
  get_all_nodes (after o t) = get_all_nodes t /\
  root_children (after o t) = drop c (root_children t) /\
  (forall x, get_parents (after o t) x = if String.eqb x c then add_last p (get_parents t x) else get_parents t x) /\
  (forall x, get_children (after o t) x = if String.eqb x p then add_last c (get_children t x) else get_children t x).
Proof. exact ask_accepted. Qed.
Print Assumptions C03_request_accepted_partial.
Example C03_request_accepted_example : reach calm diamond /\ asks "b" "c" (TreeAddParent "c" (Some "b")) /\
  outcome (TreeAddParent "c" (Some "b")) diamond = Ok tt /\
  get_parents (after (TreeAddParent "c" (Some "b")) diamond) "c" = ["a"; "b"].
Proof. exact (conj diamond_calm (conj (asks_api _ _) (conj eq_refl eq_refl))). Qed.

(** C03 fails for the empty id: the request returns and nothing is related. *)
Theorem C03_empty_id_refuted : exists t c, reachx any_fresh t /\ has_node t "" = true /\ has_node t c = true /\
  c <> "" /\ outcome (NewRelationship "" c) t = Ok tt /\ ~ In "" (get_parents (after (NewRelationship "" c) t) c).
Proof. exact empty_id_unrelated. Qed.
Print Assumptions C03_empty_id_refuted.

(** C03 fails after an id with several parents was deleted and used again: a
    refused request changes the reported children. *)
Theorem C03_refused_changes_refuted : exists t p c, reachx fresh_plain t /\ has_node t p = true /\ has_node t c = true /\
  p <> c /\ outcome (NewRelationship p c) t = Err Circular /\
  get_children (after (NewRelationship p c) t) p <> get_children t p.
Proof. exact refused_changes. Qed.
Print Assumptions C03_refused_changes_refuted.

(** C04. A reported parent is in the tree and reports the child, in every history,
    unless its children were disabled. *)
Theorem C04_parents_reported_partial : forall t, reachx any_fresh t -> forall p c, In p (get_parents t c) ->
  has_node t p = true /\ (children_enabled t p = true -> In c (get_children t p)).
Proof. exact parents_reported. Qed.
Print Assumptions C04_parents_reported_partial.
Example C04_parents_example : reachx any_fresh diamond /\ In "c" (get_parents diamond "d").
Proof. exact (conj diamond_any (or_intror (or_introl eq_refl))). Qed.

(** C04. Conversely, as long as no id that is still listed is added again, for
    nodes whose parents are not disabled. *)
Theorem C04_children_reported_partial : forall t, reachx fresh_unlisted t -> forall p c, In c (get_children t p) ->
  has_node t c = true /\ (parents_enabled t c = true -> In p (get_parents t c)).
Proof. exact children_reported. Qed.
Print Assumptions C04_children_reported_partial.
Example C04_children_example : reachx fresh_unlisted diamond /\ In "d" (get_children diamond "c").
Proof. exact (conj diamond_freely (or_introl eq_refl)). Qed.

Theorem C04_agree_partial : forall t, reach calm t -> forall p c, In p (get_parents t c) <-> In c (get_children t p).
Proof. exact agree. Qed.
Print Assumptions C04_agree_partial.
Example C04_agree_example : reach calm diamond /\ In "c" (get_parents diamond "d").
Proof. exact (conj diamond_calm (or_intror (or_introl eq_refl))). Qed.

(** C04 fails in general: after a node with two parents is deleted and its id is
    used again, one of them reports it although it has no parent. *)
Theorem C04_children_refuted : exists t p c, reachx fresh_plain t /\ In c (get_children t p) /\ ~ In p (get_parents t c) /\
  parents_enabled t c = true.
Proof. exact child_without_parent. Qed.
Print Assumptions C04_children_refuted.

(** C04 fails when children are disabled while a relation is pending. *)
Theorem C04_disabled_refuted : exists t p c, reachx fresh_plain t /\ In p (get_parents t c) /\ ~ In c (get_children t p).
Proof. exact parent_without_child. Qed.
Print Assumptions C04_disabled_refuted.

(** C05. The root holds exactly the nodes without parents, once each. What is
    missing: histories that use again an id which is still listed as a child
    (false, see below). *)
Theorem C05_root_exact_partial : forall t, reach calm t ->
  NoDup (root_children t) /\ forall x, In x (root_children t) <-> has_node t x = true /\ get_parents t x = [].
Proof. exact root_exact. Qed.
Print Assumptions C05_root_exact_partial.
Example C05_example : reach calm stale /\ root_children stale = ["p"; "q"].
Proof. exact (conj stale_calm eq_refl). Qed.

Theorem C05_reached_from_root_partial : forall t, reach calm t -> forall x, has_node t x = true ->
  exists r, In r (root_children t) /\ desc t r x.
Proof. exact reached_from_root. Qed.
Print Assumptions C05_reached_from_root_partial.
Example C05_reached_example : reach calm diamond /\ has_node diamond "d" = true /\ root_children diamond = ["a"].
Proof. exact (conj diamond_calm (conj eq_refl eq_refl)). Qed.

(** C05 fails in general: without any call that raises, a node can be listed twice
    by the root. *)
Theorem C05_twice_refuted : exists l, Forall no_flags l /\
  checkb (fun t o => plainb t o && okb (outcome o t)) l empty_tree = true /\ ~ NoDup (root_children (run l empty_tree)).
Proof. exact twice_in_root. Qed.
Print Assumptions C05_twice_refuted.

(** C05 fails after an addition that raises: the node is in the tree and nowhere. *)
Theorem C05_lost_refuted : exists t x, reachx fresh_plain t /\ has_node t x = true /\ parents_enabled t x = true /\
  get_parents t x = [] /\ ~ In x (root_children t).
Proof. exact lost_from_root. Qed.
Print Assumptions C05_lost_refuted.

(** C06. Deleting one node. *)
Theorem C06_delete_frame : forall t, reachx any_fresh t -> forall n, has_node t n = true ->
  outcome (DelNode n false) t = Ok tt ->
  let t' := after (DelNode n false) t in
  get_all_nodes t' = drop n (get_all_nodes t) /\
  (forall x, x <> n -> get_parents t' x = drop n (get_parents t x)) /\
  (forall x, x <> n -> get_children t' x = drop n (get_children t x)) /\
  (forall x, In x (root_children t') <->
     x <> n /\ (In x (root_children t) \/ In x (childs t n) /\ parents t' x = [])).
Proof. exact del_one_laws. Qed.
Print Assumptions C06_delete_frame.
Example C06_example : reachx any_fresh diamond /\ outcome (DelNode "a" false) diamond = Ok tt /\
  root_children (after (DelNode "a" false) diamond) = ["b"; "c"].
Proof. exact (conj diamond_any (conj eq_refl eq_refl)). Qed.

(** C07. Exactly when a deletion raises. *)
Theorem C07_delete_condition : forall t, reachx any_fresh t -> forall n, has_node t n = true ->
  (outcome (DelNode n false) t = Ok tt <-> forall c, In c (childs t n) -> has_node t c = true) /\
  (outcome (DelNode n false) t <> Ok tt -> outcome (DelNode n false) t = Err KeyError).
Proof. exact del_one_iff. Qed.
Print Assumptions C07_delete_condition.
Example C07_example : reachx any_fresh diamond /\ outcome (DelNode "b" false) diamond = Ok tt.
Proof. exact (conj diamond_any eq_refl). Qed.

(** C07. Deletions do not raise when deleted nodes never had several parents, and
    recursive ones do not when no id that is still listed is added again. What is
    missing is false, see below. *)
Theorem C07_tidy_never_raises_partial : forall t, reach tidy t -> forall n b, outcome (DelNode n b) t = Ok tt.
Proof. exact del_tidy_ok. Qed.
Print Assumptions C07_tidy_never_raises_partial.
Example C07_tidy_example : reach tidy diamond /\ has_node diamond "d" = true.
Proof. exact (conj diamond_tidy eq_refl). Qed.

Theorem C07_recursive_never_raises_partial : forall t, reachx fresh_unlisted t -> forall n, outcome (DelNode n true) t = Ok tt.
Proof. exact del_rec_never_raises. Qed.
Print Assumptions C07_recursive_never_raises_partial.
Example C07_recursive_example : reachx fresh_unlisted diamond /\ has_node diamond "a" = true.
Proof. exact (conj diamond_freely eq_refl). Qed.

(** C07 fails: after a child of two parents is deleted, deleting one of the
    parents raises. *)
Theorem C07_refuted : exists t n, reach calm t /\ has_node t n = true /\ outcome (DelNode n false) t = Err KeyError.
Proof. exact delete_raises. Qed.
Print Assumptions C07_refuted.

(** C08. Recursive deletion removes exactly what is below. *)
Theorem C08_recursive_exact : forall t, reach calm t -> forall n,
  let t' := after (DelNode n true) t in
  outcome (DelNode n true) t = Ok tt /\
  (forall x, has_node t' x = true <-> has_node t x = true /\ ~ desc t n x) /\
  (forall x, has_node t' x = true -> get_parents t' x = get_parents t x) /\
  (forall x, has_node t' x = true -> get_children t' x = filter (has_node t') (get_children t x)).
Proof. exact del_rec_laws. Qed.
Print Assumptions C08_recursive_exact.
Example C08_example : reach calm diamond /\ get_all_nodes (after (DelNode "b" true) diamond) = ["a"; "c"].
Proof. exact (conj diamond_calm eq_refl). Qed.

Theorem C08_recursive_exact_flags : forall t, reachx fresh_unlisted t -> forall n,
  let t' := after (DelNode n true) t in
  (forall x, has_node t' x = true <-> has_node t x = true /\ ~ anc t n x) /\
  (forall x, has_node t' x = true -> get_parents t' x = get_parents t x) /\
  (forall x, has_node t' x = true -> get_children t' x = filter (has_node t') (get_children t x)).
Proof. exact del_rec_laws_x. Qed.
Print Assumptions C08_recursive_exact_flags.
Example C08_flags_example : reachx fresh_unlisted diamond /\ anc diamond "a" "d" /\
  get_all_nodes (after (DelNode "a" true) diamond) = [].
Proof. exact (conj diamond_freely (conj diamond_anc eq_refl)). Qed.

(** C09. A relation asked for while one of its nodes is missing is remembered. What
    is missing: the empty id; deletions that raise in between. *)
Theorem C09_declared_partial : forall t p c o, p <> "" -> c <> "" -> p <> c -> has_node t p && has_node t c = false ->
  o = NewRelationship p c \/
  (o = AddChild p c /\ children_enabled t p = true /\ ~ In c (childs t p)) \/
  (o = AddParent c (Some p) /\ parents_enabled t c = true /\ ~ In p (parents t c)) ->
  outcome o t = Ok tt /\ In (Some p, c) (pend (after o t)).
Proof. exact declared. Qed.
Print Assumptions C09_declared_partial.
Example C09_declared_example : has_node diamond "z" = false /\
  In (Some "a", "z") (pend (after (AddChild "a" "z") diamond)).
Proof. exact (conj eq_refl (or_introl eq_refl)). Qed.

(** It survives other calls. What is missing: as above. *)
Theorem C09_kept_partial : forall t, reachx any_fresh t -> forall p c, p <> "" -> c <> "" ->
  has_node t p && has_node t c = false -> In (Some p, c) (pend t) ->
  forall t', during p c t t' -> In (Some p, c) (pend t').
Proof. exact kept. Qed.
Print Assumptions C09_kept_partial.
Example C09_kept_example : reachx any_fresh half_built /\ In (Some "p", "c") (pend half_built) /\
  during "p" "c" half_built (after (add "q" (Some "p")) half_built).
Proof. exact (conj waiting_any (conj (or_introl eq_refl) waiting_during)). Qed.

(** It becomes real when the missing node is added, unless it would be circular.
    What is missing: as above. *)
Theorem C09_built_partial : forall t, reachx any_fresh t -> forall p c, p <> "" -> c <> "" ->
  has_node t p && has_node t c = false -> In (Some p, c) (pend t) ->
  forall t', during p c t t' -> forall n nd po, app_node n nd ->
  n = c /\ has_node t c = false /\ has_node t p = true \/ n = p /\ has_node t p = false /\ has_node t c = true ->
  let t'' := after (AddNode n nd po) t' in In p (parents t'' c) \/ anc t'' c p.
Proof. exact built. Qed.
Print Assumptions C09_built_partial.
Example C09_built_example : reachx any_fresh half_built /\ In (Some "p", "c") (pend half_built) /\
  get_parents (after (add "c" None) (after (add "q" (Some "p")) half_built)) "c" = ["p"].
Proof. exact (conj waiting_any (conj (or_introl eq_refl) eq_refl)). Qed.

(** C09 fails for the empty id: the relation is dropped. *)
Theorem C09_refuted : exists t p c, reachx any_fresh t /\ p <> c /\ has_node t p && has_node t c = false /\
  outcome (NewRelationship p c) t = Ok tt /\ ~ In (Some p, c) (pend (after (NewRelationship p c) t)) /\
  get_parents (after (add p None) (after (NewRelationship p c) t)) c = [].
Proof. exact empty_forgotten. Qed.
Print Assumptions C09_refuted.

(** C10. Breaking a relation. What is missing: trees with a node called "" or like the
    root. *)
Theorem C10_break_exact_partial : forall t, reachx fresh_plain t -> forall p c, p <> c -> has_node t p = true -> has_node t c = true ->
  let t' := after (BreakRelationship p c) t in
  outcome (BreakRelationship p c) t = Ok tt /\
  get_all_nodes t' = get_all_nodes t /\
  (forall x, get_parents t' x = if String.eqb x c then drop p (get_parents t x) else get_parents t x) /\
  (forall x, get_children t' x = if String.eqb x p then drop c (get_children t x) else get_children t x) /\
  (forall x, In x (root_children t') <->
     In x (root_children t) \/ x = c /\ parents_enabled t c = true /\ get_parents t' c = []) /\
  ~ In (Some p, c) (pend t').
Proof. exact break_laws. Qed.
Print Assumptions C10_break_exact_partial.
Example C10_example : reachx fresh_plain diamond /\ get_parents (after (BreakRelationship "b" "d") diamond) "d" = ["c"]
  /\ root_children (after (BreakRelationship "a" "c") diamond) = ["a"; "c"].
Proof. exact (conj diamond_plain (conj eq_refl eq_refl)). Qed.

(** C10 fails for them: the relation to a node called "" stays, *)
Theorem C10_refuted : exists t p c, reachx any_fresh t /\ p <> c /\ has_node t p = true /\ has_node t c = true /\
  outcome (BreakRelationship p c) t = Ok tt /\ In c (get_children (after (BreakRelationship p c) t) p).
Proof. exact empty_stays. Qed.
Print Assumptions C10_refuted.

(** and so does the one to a node called "root", which is made again. *)
Theorem C10_root_refuted : exists t p c, reachx any_fresh t /\ p <> c /\ has_node t p = true /\ has_node t c = true /\
  outcome (BreakRelationship p c) t = Ok tt /\ In p (get_parents (after (BreakRelationship p c) t) c).
Proof. exact root_stays. Qed.
Print Assumptions C10_root_refuted.

(** C11. Moving to the root, or under a node that is not in the tree yet. *)
Theorem C11_move_away : forall t, reach calm t -> forall n p, has_node t n = true ->
  (match p with None => True | Some x => x <> n /\ has_node t x = false end) ->
  let t' := after (MoveNode n p) t in
  outcome (MoveNode n p) t = Ok tt /\ get_all_nodes t' = get_all_nodes t /\
  get_parents t' n = [] /\ (forall x, x <> n -> get_parents t' x = get_parents t x) /\ In n (root_children t').
Proof. exact move_away. Qed.
Print Assumptions C11_move_away.
Example C11_away_example : reach calm diamond /\ get_parents diamond "d" = ["b"; "c"] /\
  get_parents (after (MoveNode "d" None) diamond) "d" = [].
Proof. exact (conj diamond_calm (conj eq_refl eq_refl)). Qed.

(** C11. Moving under a node of the tree, for nodes with at most one parent. What
    is missing: nodes with several parents, for which it is false (below). *)
Theorem C11_move_partial : forall t, reach calm t -> forall n p, has_node t n = true -> has_node t p = true ->
  ~ anc t n p -> length (get_parents t n) <= 1 ->
  let t' := after (MoveNode n (Some p)) t in
  outcome (MoveNode n (Some p)) t = Ok tt /\ get_all_nodes t' = get_all_nodes t /\
  get_parents t' n = [p] /\ (forall x, x <> n -> get_parents t' x = get_parents t x).
Proof. exact move_single. Qed.
Print Assumptions C11_move_partial.
Example C11_example : reach calm diamond /\ get_parents diamond "c" = ["a"] /\
  get_parents (after (MoveNode "c" (Some "b")) diamond) "c" = ["b"].
Proof. exact (conj diamond_calm (conj eq_refl eq_refl)). Qed.

(** C11 fails for a node with two parents: it keeps one of them. *)
Theorem C11_refuted : exists t n p, reach calm t /\ has_node t n = true /\ has_node t p = true /\ ~ anc t n p /\
  outcome (MoveNode n (Some p)) t = Ok tt /\ get_parents (after (MoveNode n (Some p)) t) n <> [p].
Proof. exact move_keeps_parent. Qed.
Print Assumptions C11_refuted.

(** C12. The paths of a node are exactly the chains of parents. What is missing: trees
    with a node called "" or like the root. *)
Theorem C12_paths_exact_partial : forall t, reachx fresh_plain t -> forall n, has_node t n = true ->
  exists ps, get_paths_for_node t n = Ok ps /\ NoDup ps /\ forall q, In q ps <-> chain_to t n q.
Proof. exact main_paths. Qed.
Print Assumptions C12_paths_exact_partial.
Example C12_example : reachx fresh_plain diamond /\
  get_paths_for_node diamond "d" = Ok [["a"; "b"; "d"]; ["a"; "c"; "d"]].
Proof. exact (conj diamond_plain eq_refl). Qed.

(** Only they lead to it. What is missing: as above. *)
Theorem C12_node_for_path_partial : forall t, reachx fresh_plain t -> forall q n, has_node t n = true ->
  (get_node_for_path t (q ++ [n]) = Ok (Some n) <-> chain_to t n (q ++ [n])) /\
  (~ chain_to t n (q ++ [n]) -> get_node_for_path t (q ++ [n]) = Ok None).
Proof. exact main_node_for_path. Qed.
Print Assumptions C12_node_for_path_partial.
Example C12_node_example : reachx fresh_plain diamond /\ get_node_for_path diamond ["a"; "c"; "d"] = Ok (Some "d").
Proof. exact (conj diamond_plain eq_refl). Qed.

(** C12 fails for them: a node called "root" is left out of the paths. *)
Theorem C12_refuted : exists t n q, reachx any_fresh t /\ has_node t n = true /\ chain_to t n q /\
  (exists ps, get_paths_for_node t n = Ok ps /\ ~ In q ps) /\ get_node_for_path t q = Ok None.
Proof. exact root_unseen. Qed.
Print Assumptions C12_refuted.

(** C13. Going through the children of a node, and through those of the root. What
    is missing: histories that delete a node with several parents (false, see
    below). *)
Theorem C13_next_sibling_partial : forall t, reach tidy t -> forall p i n, nth_error (get_children t p) i = Some n ->
  next_node t n (Some p) = Ok (nth_error (get_children t p) (S i)).
Proof. exact next_sibling. Qed.
Print Assumptions C13_next_sibling_partial.
Example C13_example : reach tidy diamond /\ nth_error (get_children diamond "a") 0 = Some "b" /\
  next_node diamond "b" (Some "a") = Ok (Some "c").
Proof. exact (conj diamond_tidy (conj eq_refl eq_refl)). Qed.

Theorem C13_next_of_root_partial : forall t, reach tidy t -> forall i n po, nth_error (root_children t) i = Some n ->
  next_node t n po = Ok (nth_error (root_children t) (S i)).
Proof. exact next_root. Qed.
Print Assumptions C13_next_of_root_partial.
Example C13_root_example : reach tidy diamond /\ nth_error (root_children diamond) 0 = Some "a".
Proof. exact (conj diamond_tidy eq_refl). Qed.

(** C13 fails after the deletion of a node with two parents. *)
Theorem C13_refuted : exists t p i n, reach calm t /\ nth_error (get_children t p) i = Some n /\
  next_node t n (Some p) <> Ok (nth_error (get_children t p) (S i)).
Proof. exact next_skips. Qed.
Print Assumptions C13_refuted.

(** C14. The events of a call turn the set of nodes before it into the set of
    nodes after it, each event agreeing with the tree at that moment. *)
Theorem C14_events_tell_nodes : forall t, reachx any_fresh t -> forall o, fresh_add o ->
  (match o with AddNode _ _ _ => outcome o t = Ok tt | _ => True end) ->
  told (get_all_nodes t) (events o t) (get_all_nodes (after o t)).
Proof. exact events_tell. Qed.
Print Assumptions C14_events_tell_nodes.
Example C14_example : reachx any_fresh diamond /\
  map (fun e => (ev_kind e, ev_id e)) (events (DelNode "b" true) diamond) =
  [(EModified, "a"); (EModified, "b"); (EDeleted, "d"); (EDeleted, "b")].
Proof. exact (conj diamond_any eq_refl). Qed.

(** C14 fails for an addition that raises: the node is there and nobody is told. *)
Theorem C14_refuted : exists t o, reachx fresh_plain t /\ fresh_add o /\
  events o t = [] /\ get_all_nodes (after o t) <> get_all_nodes t.
Proof. exact untold_addition. Qed.
Print Assumptions C14_refuted.
