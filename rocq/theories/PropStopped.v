(** C84: functions of the application that raise. Nothing but property theorems in
    this file. *)
From Coq Require Import Permutation.
From Verif Require Import Base MainTree Spec Filters FTree ViewCount Api ViewApi SpecApi SpecView SpecViewing SpecSys Stopped SpecStopped
  StoppedFacts Witness ApiWitness ViewWitness SysCases StoppedCases.

(** C84. The events of a call go through the views and counts in order. If one
    raises, the caller gets the exception, the tree stays as it was at that event,
    the ones before have gone through the events up to this one, and the ones after
    have gone through the events before it and no more. *)
Theorem C84_exact : forall ord bad o y y' r, tree_call_x ord bad o y = (y', r) ->
  s_bank y' = s_bank y /\ s_views y' = s_views y /\ s_counts y' = s_counts y /\ length (s_listeners y') = length (s_listeners y) /\
  ((s_tree y' = after o (s_tree y) /\ r = outcome o (s_tree y) /\
    Forall2 (went ord (s_bank y) (events o (s_tree y))) (s_listeners y) (s_listeners y')) \/
   (r <> Ok tt /\ exists pre e post k, events o (s_tree y) = pre ++ e :: post /\ s_tree y' = ev_tree e /\ k < length (s_listeners y) /\
    forall i l, nth_error (s_listeners y) i = Some l -> exists l', nth_error (s_listeners y') i = Some l' /\
      (i < k -> went ord (s_bank y) (pre ++ [e]) l l') /\ (k < i -> went ord (s_bank y) pre l l') /\
      (i = k -> exists l0, went ord (s_bank y) pre l l0 /\ notify_x ord bad (s_bank y) k e l0 = (l', r)))).
Proof. exact call_x_exact. Qed.
Print Assumptions C84_exact.
Example C84_exact_example : tree_call_x keep count_raises (put "n" 3 (Some "c")) lsys = (cut count_raises (put "n" 3 (Some "c")) lsys, Err PyException) /\
  view_all_nodes (view_at (cut count_raises (put "n" 3 (Some "c")) lsys) 1) = ["a"; "d"; "z"; "n"] /\
  vnodes (count_at (cut count_raises (put "n" 3 (Some "c")) lsys) 2) = ["a"; "d"; "z"; "n"] /\
  view_all_nodes (view_at (cut count_raises (put "n" 3 (Some "c")) lsys) 3) = ["a"; "d"; "c"; "z"].
Proof. exact cut_exact_case. Qed.

(** C84. In a library in use, when a function raises at the last event of a call, the
    call has done its work on the tree, and every view and count up to the one whose
    function raised is right. What is missing: exceptions at an earlier event. *)
Theorem C84_before_partial : forall ord, (forall k l, Permutation (ord k l) l) -> forall bad o y y' r e, library ord y -> fits y (LTree o) ->
  ends_with o (s_tree y) e -> (forall i e', In e' (removelast (events o (s_tree y))) -> bad i e' = None) -> tree_call_x ord bad o y = (y', r) ->
  s_tree y' = after o (s_tree y) /\
  ((r = outcome o (s_tree y) /\ forall l, In l (s_listeners y') -> shows (s_tree y') (s_bank y') l) \/
   (exists k x, bad k e = Some x /\ r = Err x /\ k < length (s_listeners y) /\
     forall i l, i <= k -> nth_error (s_listeners y') i = Some l -> shows (s_tree y') (s_bank y') l)).
Proof. exact last_right. Qed.
Print Assumptions C84_before_partial.
Example C84_before_example : library keep lsys /\ fits lsys (LTree (DelNode "d" false)) /\
  ends_with (DelNode "d" false) (s_tree lsys) (Ev EDeleted "d" (after (DelNode "d" false) (s_tree lsys))) /\
  (forall i e, In e (removelast (events (DelNode "d" false) (s_tree lsys))) -> deletion_raises i e = None) /\
  snd (tree_call_x keep deletion_raises (DelNode "d" false) lsys) = Err PyException.
Proof. exact lsys_last. Qed.

(** C84. A call that announces one thing (an addition, new data): the others have
    heard nothing and stay as they are, and refilter makes every view right. What is
    missing: calls with several events; counts (see below). *)
Theorem C84_repair_partial : forall ord, (forall k l, Permutation (ord k l) l) -> forall bad o y y' r e, library ord y -> fits y (LTree o) ->
  one_event o (s_tree y) e -> tree_call_x ord bad o y = (y', r) -> r <> outcome o (s_tree y) ->
  exists k x, bad k e = Some x /\ r = Err x /\ s_tree y' = after o (s_tree y) /\
    (forall i l, i <= k -> nth_error (s_listeners y') i = Some l -> shows (s_tree y') (s_bank y') l) /\
    (forall i, k < i -> nth_error (s_listeners y') i = nth_error (s_listeners y) i) /\
    (forall i s, nth_error (s_listeners y') i = Some (LView s) -> exists s', refilter ord (s_bank y') (s_tree y') s = (s', Ok tt) /\
      filters s' = filters s /\ shows (s_tree y') (s_bank y') (LView s')).
Proof. exact single_right. Qed.
Print Assumptions C84_repair_partial.
Example C84_repair_example : library keep lsys /\ fits lsys (LTree (put "n" 3 (Some "c"))) /\ one_event (put "n" 3 (Some "c")) (s_tree lsys) (Ev EAdded "n" (after (put "n" 3 (Some "c")) (s_tree lsys))) /\
  snd (tree_call_x keep count_raises (put "n" 3 (Some "c")) lsys) = Err PyException /\ outcome (put "n" 3 (Some "c")) (s_tree lsys) = Ok tt.
Proof. exact lsys_one. Qed.

(** C84 is false for the others: a function on the main view that raises keeps an
    addition from every view, *)
Theorem C84_later_refuted : exists y bad o e i, library keep y /\ fits y (LTree o) /\ one_event o (s_tree y) e /\
  ~ shows (s_tree (fst (tree_call_x keep bad o y))) (s_bank y) (LView (view_at (fst (tree_call_x keep bad o y)) i)) /\
  nth_error (s_listeners (fst (tree_call_x keep bad o y))) i = Some (LView (view_at (fst (tree_call_x keep bad o y)) i)).
Proof. exact later_behind. Qed.
Print Assumptions C84_later_refuted.

(** a count that missed a deletion counts too many for ever, even when it asks for
    all nodes again because its filter is taken back, *)
Theorem C84_count_refuted : exists y bad o e i v n, library keep y /\ fits y (LTree o) /\ one_event o (s_tree y) e /\
  nth_error (s_listeners (fst (tree_call_x keep bad o y))) i = Some (LCount v) /\
  let t := s_tree (fst (tree_call_x keep bad o y)) in let v' := fst (vc_unapply_filter (s_bank y) t n v) in
  vfilters v = [n] /\ snd (vc_unapply_filter (s_bank y) t n v) = Ok tt /\ vc_n_nodes v' = S (length (get_all_nodes t)).
Proof. exact count_behind. Qed.
Print Assumptions C84_count_refuted.

(** and a deletion with what lies below that is cut short leaves nodes in the tree
    that no refilter finds. *)
Theorem C84_lost_refuted : exists y bad o i s s' x, library keep y /\ fits y (LTree o) /\
  nth_error (s_listeners (fst (tree_call_x keep bad o y))) i = Some (LView s) /\
  let t := s_tree (fst (tree_call_x keep bad o y)) in
  refilter keep (s_bank y) t s = (s', Ok tt) /\ In x (satisfying (s_bank y) t (filters s')) /\ ~ In x (view_all_nodes s').
Proof. exact cut_lost. Qed.
Print Assumptions C84_lost_refuted.
