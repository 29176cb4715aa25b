(** Property theorems about views whose filters change without refresh, or look at
    more than the node. *)
From Coq Require Import Permutation.
From Verif Require Import Base MainTree Spec Filters FTree SpecApi SpecView SpecViewing SpecLoose FtFlatThm FtForestThm ApiWitness LooseCases.

(** C27, C28. In a flat view no call on the tree makes the view raise or loop,
    whatever the filters look at and whatever filters were exchanged without
    refresh. What is missing: views that are not flat (see [C27_forest_partial]). *)
Theorem C27_flat_partial : forall ord, (forall k l, Permutation (ord k l) l) ->
  forall t b s o, loose_flat ord (t, b, s) -> any_fresh t o -> no_clashing_add s o ->
  snd (view_call ord (VTree o) (t, b, s)) = Ok tt.
Proof. exact flat_no_error. Qed.
Print Assumptions C27_flat_partial.
Example C27_flat_example : let '(t, b, s) := lflat2 in let o := BreakRelationship "b" "d" in
  loose_flat keep (t, b, s) /\ any_fresh t o /\ no_clashing_add s o /\ view_all_nodes s = ["b"; "c"; "d"] /\ satisfying b t (filters s) = [] /\
  map ev_id (events o t) = ["b"; "d"] /\ view_all_nodes (snd (fst (view_call keep (VTree o) (t, b, s)))) = ["c"].
Proof. exact lflat_case. Qed.

(** C28. All the time such a view is consistent and flat, and its clients know its
    paths. *)
Theorem C28_flat_consistent_partial : forall ord, (forall k l, Permutation (ord k l) l) ->
  forall t b s, loose_flat ord (t, b, s) -> sound s /\ mirrored s /\ forall n, In n (view_all_nodes s) -> pars s n = [froot s].
Proof. exact flat_consistent. Qed.
Print Assumptions C28_flat_consistent_partial.
Example C28_flat_consistent_example : loose_flat keep lflat /\ view_all_nodes (snd lflat) = ["z"; "d"] /\ pars (snd lflat) "z" = [froot (snd lflat)] /\
  parents (fst (fst lflat)) "z" = ["d"] /\ length (sent (snd lflat)) = 15.
Proof. exact lflat_end. Qed.

(** C28. The node announced last is displayed exactly if it satisfied the filters at
    that moment, though others may be out of date. *)
Theorem C28_flat_announced_partial : forall ord, (forall k l, Permutation (ord k l) l) ->
  forall t b s o l e, loose_flat ord (t, b, s) -> any_fresh t o -> no_clashing_add s o ->
  events o t = l ++ [e] -> ev_id e <> froot s -> ev_id e <> "" ->
  (In (ev_id e) (view_all_nodes (snd (fst (view_call ord (VTree o) (t, b, s))))) <-> In (ev_id e) (satisfying b (ev_tree e) (filters s))).
Proof. exact flat_announced. Qed.
Print Assumptions C28_flat_announced_partial.
Example C28_flat_announced_example : let '(t, b, s) := lflat2 in let o := BreakRelationship "b" "d" in
  loose_flat keep (t, b, s) /\ any_fresh t o /\ no_clashing_add s o /\ view_all_nodes s = ["b"; "c"; "d"] /\ satisfying b t (filters s) = [] /\
  map ev_id (events o t) = ["b"; "d"] /\ view_all_nodes (snd (fst (view_call keep (VTree o) (t, b, s)))) = ["c"].
Proof. exact lflat_case. Qed.

(** C28. Refreshing such a view always works and brings it up to date. *)
Theorem C28_flat_refilter_partial : forall ord, (forall k l, Permutation (ord k l) l) ->
  forall t b s, loose_flat ord (t, b, s) -> reach calm t -> flattened b (filters s) ->
  exists s', view_call ord VRefilter (t, b, s) = (t, b, s', Ok tt) /\ uptodate t b s'.
Proof. exact flat_refilter. Qed.
Print Assumptions C28_flat_refilter_partial.
Example C28_flat_refilter_example : let '(t, b, s) := lflat4 in
  loose_flat keep (t, b, s) /\ reach calm t /\ flattened b (filters s) /\ view_all_nodes s = ["b"; "c"; "d"] /\ satisfying b t (filters s) = [].
Proof. exact lflat_refilter. Qed.

(** C27, C28. The same for a view that is not flat, of a tree in which no node ever has
    two parents. What is missing: views that are not flat of trees where nodes have
    several parents (false in general). *)
Theorem C27_forest_partial : forall ord, (forall k l, Permutation (ord k l) l) ->
  forall t b s o, loose_forest ord (t, b, s) -> calm t o -> no_clashing_add s o -> Forall (fun e => forest (ev_tree e)) (events o t) ->
  snd (view_call ord (VTree o) (t, b, s)) = Ok tt.
Proof. exact forest_no_error. Qed.
Print Assumptions C27_forest_partial.
Example C27_forest_example : let '(t, b, s) := lwood1 in let o := BreakRelationship "b" "d" in
  loose_forest keep (t, b, s) /\ calm t o /\ no_clashing_add s o /\ Forall (fun e => forest (ev_tree e)) (events o t) /\
  view_all_nodes s = ["e"] /\ satisfying b t (filters s) = ["a"; "d"; "e"] /\
  map ev_id (events o t) = ["b"; "d"] /\ view_all_nodes (snd (fst (view_call keep (VTree o) (t, b, s)))) = ["e"; "a"; "d"].
Proof. exact lwood_case. Qed.

(** C28. All the time such a view is consistent, its clients know its paths, and each node
    is under the root or under its parent in the tree. *)
Theorem C28_forest_consistent_partial : forall ord, (forall k l, Permutation (ord k l) l) ->
  forall t b s, loose_forest ord (t, b, s) ->
  sound s /\ mirrored s /\ forall n, In n (view_all_nodes s) -> pars s n = [froot s] \/ pars s n = get_parents t n.
Proof. exact forest_consistent. Qed.
Print Assumptions C28_forest_consistent_partial.
Example C28_forest_consistent_example : loose_forest keep lwood /\ view_all_nodes (snd lwood) = ["e"; "a"; "d"] /\ pars (snd lwood) "d" = ["e"] /\
  get_all_nodes (fst (fst lwood)) = ["a"; "d"; "e"] /\ length (sent (snd lwood)) = 26.
Proof. exact lwood_end. Qed.

(** C28. The node announced last is displayed exactly if it satisfied the filters at
    that moment. *)
Theorem C28_forest_announced_partial : forall ord, (forall k l, Permutation (ord k l) l) ->
  forall t b s o l e, loose_forest ord (t, b, s) -> calm t o -> no_clashing_add s o -> Forall (fun e => forest (ev_tree e)) (events o t) ->
  events o t = l ++ [e] -> ev_id e <> froot s -> ev_id e <> "" ->
  (In (ev_id e) (view_all_nodes (snd (fst (view_call ord (VTree o) (t, b, s))))) <-> In (ev_id e) (satisfying b (ev_tree e) (filters s))).
Proof. exact forest_announced. Qed.
Print Assumptions C28_forest_announced_partial.
Example C28_forest_announced_example : let '(t, b, s) := lwood1 in let o := BreakRelationship "b" "d" in
  loose_forest keep (t, b, s) /\ calm t o /\ no_clashing_add s o /\ Forall (fun e => forest (ev_tree e)) (events o t) /\
  view_all_nodes s = ["e"] /\ satisfying b t (filters s) = ["a"; "d"; "e"] /\
  map ev_id (events o t) = ["b"; "d"] /\ view_all_nodes (snd (fst (view_call keep (VTree o) (t, b, s)))) = ["e"; "a"; "d"].
Proof. exact lwood_case. Qed.

(** C28. Refreshing such a view always works and brings it up to date. *)
Theorem C28_forest_refilter_partial : forall ord, (forall k l, Permutation (ord k l) l) ->
  forall t b s, loose_forest ord (t, b, s) -> ~ flattened b (filters s) ->
  exists s', view_call ord VRefilter (t, b, s) = (t, b, s', Ok tt) /\ uptodate t b s'.
Proof. exact forest_refilter. Qed.
Print Assumptions C28_forest_refilter_partial.
Example C28_forest_refilter_example : let '(t, b, s) := lwood1 in
  loose_forest keep (t, b, s) /\ ~ flattened b (filters s) /\ view_all_nodes s = ["e"] /\ satisfying b t (filters s) = ["a"; "d"; "e"].
Proof. exact lwood_refilter. Qed.
