(** Property theorems about views (filteredtree.py). *)
From Coq Require Import Permutation.
From Verif Require Import Base MainTree Spec Filters FTree SpecApi SpecView SpecViewing FtState FtThm FtSignals FtHist FtQuiet FtRead
  ApiWitness ViewWitness ViewCases.

(** C22. After refilter, and after apply, unapply and reset with refresh, the
    displayed nodes are exactly those that satisfy the filters, which may look at
    the whole tree; the view before is any consistent one. What is missing: trees
    on which the flags were used (false, see below) and those with other calls
    that are not [calm]. *)
Theorem C22_rebuilt_partial : forall ord, (forall k l, Permutation (ord k l) l) ->
  forall t b s c, reach calm t -> no_clash t s -> sound s -> proper s -> supported (t, b, s) c -> rebuilding s c ->
  exists b' s', view_call ord c (t, b, s) = (t, b', s', Ok tt) /\
    same_set (view_all_nodes s') (satisfying b' t (filters s')) /\ uptodate t b' s'.
Proof. exact rebuild_exact. Qed.
Print Assumptions C22_rebuilt_partial.
Example C22_example : let t := fst (fst vend) in let b := qbank in let s := snd vend in let c := VApply "quiet" None true in
  reach calm t /\ no_clash t s /\ sound s /\ proper s /\ supported (t, b, s) c /\ rebuilding s c /\
  view_all_nodes (snd (fst (view_call keep c (t, b, s)))) = ["a"; "c"; "d"; "z"].
Proof. exact case_rebuild. Qed.

(** C22 fails when children are disabled while a relation is pending. *)
Theorem C22_disabled_refuted : exists t b s s', reachx fresh_plain t /\ no_clash t s /\ s = new_ft None /\
  refilter keep b t s = (s', Ok tt) /\ In "c" (satisfying b t (filters s')) /\ ~ In "c" (view_all_nodes s').
Proof. exact unvisited. Qed.
Print Assumptions C22_disabled_refuted.

(** C23. At every moment of a history of supported calls the displayed nodes are
    exactly those that satisfy the applied filters. *)
Theorem C23_exact : forall ord, (forall k l, Permutation (ord k l) l) ->
  forall t b s, viewing ord (t, b, s) -> same_set (view_all_nodes s) (satisfying b t (filters s)).
Proof. exact viewing_nodes. Qed.
Print Assumptions C23_exact.
Example C23_example : viewing keep vend /\ view_all_nodes (snd vend) = ["a"; "d"; "c"; "z"] /\
  satisfying (snd (fst vend)) (fst (fst vend)) (filters (snd vend)) = ["a"; "c"; "d"; "z"].
Proof. exact case_nodes. Qed.

(** C24. The parents of a displayed node are its displayed parents in the tree, in
    their order, or the root of the view; children are the inverse. *)
Theorem C24_structure : forall ord, (forall k l, Permutation (ord k l) l) ->
  forall t b s, viewing ord (t, b, s) ->
    (forall n, In n (view_all_nodes s) ->
      (flattened b (filters s) -> pars s n = [froot s]) /\
      (~ flattened b (filters s) -> pars s n = shown_parents t (view_all_nodes s) (froot s) n)) /\
    pars s (froot s) = [] /\
    (forall p c, In c (kids s p) <-> In p (pars s c)) /\ (forall p, NoDup (kids s p)) /\ test_validity s = true.
Proof. exact viewing_structure. Qed.
Print Assumptions C24_structure.
Example C24_example : viewing keep vend /\ pars (snd vend) "d" = ["c"] /\ pars (snd vend) "a" = [froot (snd vend)] /\
  kids (snd vend) "a" = ["c"].
Proof. exact case_structure. Qed.

(** C25. A client that has the paths of the view and follows the signals sent by
    any further supported calls is never contradicted and has the paths again. *)
Theorem C25_signals : forall ord, (forall k l, Permutation (ord k l) l) ->
  forall x y cs, viewing ord x -> onward ord x y ->
  NoDup cs -> (forall q, In q cs <-> view_path (snd x) q) ->
  exists l cs', sent (snd y) = sent (snd x) ++ l /\ hear_all cs l cs' /\ NoDup cs' /\ forall q, In q cs' <-> view_path (snd y) q.
Proof. exact viewing_signals. Qed.
Print Assumptions C25_signals.
Example C25_example : viewing keep vstart /\ onward keep vstart vend /\ sent (snd vend) = sent (snd vstart) ++ heard /\
  In (SAdded "d" ["a"; "c"; "d"]) heard /\ In (SDeleted "z" ["a"; "b"; "d"; "z"]) heard /\ length heard = 25.
Proof. exact case_signals. Qed.

(** C25. A client that listened from the beginning has the paths of the view. *)
Theorem C25_from_start : forall ord, (forall k l, Permutation (ord k l) l) -> forall x, viewing ord x -> mirrored (snd x).
Proof. exact viewing_mirrored. Qed.
Print Assumptions C25_from_start.
Example C25_from_start_example : viewing keep vend.
Proof. exact vend_viewing. Qed.

(** C26. No supported call makes a view raise or loop. *)
Theorem C26_no_error : forall ord, (forall k l, Permutation (ord k l) l) ->
  forall x c, viewing ord x -> supported x c -> snd (view_call ord c x) = Ok tt.
Proof. exact viewing_ok. Qed.
Print Assumptions C26_no_error.
Example C26_example : viewing keep vshow /\ supported vshow (VTree (DelNode "a" true)) /\ pars (snd vshow) "d" = ["b"; "c"] /\
  parents (fst (fst vshow)) "d" = ["b"; "c"] /\ view_all_nodes (snd (fst (view_call keep (VTree (DelNode "a" true)) vshow))) = [].
Proof. exact case_delete. Qed.

Theorem C26_no_error_at_start : forall ord, (forall k l, Permutation (ord k l) l) ->
  forall t b name names, welcome t b name -> snd (refilter ord b t (set_filters names (new_ft name))) = Ok tt.
Proof. exact opening_ok. Qed.
Print Assumptions C26_no_error_at_start.
Example C26_start_example : welcome vtree vbank (Some "v").
Proof. exact vwelcome. Qed.

(** C27 fails: a filter that looks at ancestors, on a diamond. *)
Theorem C27_ancestors_refuted : exists t b names n v, reach calm t /\ has_node t (root_name None) = false /\
  (forall x, In x reserved -> has_node t x = false) /\
  snd (refilter keep b t (set_filters names (new_ft None))) = Ok tt /\
  snd (view_call keep (VTree (SetData n v)) (opened keep t b None names)) = Err KeyError.
Proof. exact ancestors_raise. Qed.
Print Assumptions C27_ancestors_refuted.

(** C28 fails: a filter applied without refresh, then one node announced. *)
Theorem C28_postponed_refuted : exists t b s name o, viewing keep (t, b, s) /\ calm t o /\
  (let s1 := snd (fst (apply_filter keep t name None false false b s)) in snd (feed keep b (events o t) s1) = Err ValueError).
Proof. exact postponed_raises. Qed.
Print Assumptions C28_postponed_refuted.

(** C29. The paths of a displayed node, each once. *)
Theorem C29_paths : forall s n, sound s -> In n (view_all_nodes s) ->
  exists P, view_paths s n = Ok P /\ NoDup P /\ forall q, In q P <-> view_path s q /\ last q "" = n.
Proof. exact sound_paths. Qed.
Print Assumptions C29_paths.
Example C29_example : sound (snd vshow) /\ In "d" (view_all_nodes (snd vshow)) /\ view_paths (snd vshow) "d" = Ok [["a"; "b"; "d"]; ["a"; "c"; "d"]].
Proof. exact case_paths. Qed.

(** C29. The node at a path. *)
Theorem C29_lookup : forall s q, sound s ->
  exists r, view_node_for_path s q = Ok r /\ forall n, r = Some n <-> view_path s q /\ last q "" = n.
Proof. exact sound_lookup. Qed.
Print Assumptions C29_lookup.
Example C29_lookup_example : sound (snd vshow) /\ view_node_for_path (snd vshow) ["a"; "c"; "d"] = Ok (Some "d") /\
  view_node_for_path (snd vshow) ["c"; "d"] = Ok None.
Proof. exact case_lookup. Qed.

(** C29. The paths that [is_path_valid] accepts. What is missing: arguments that do
    not begin with the root of the view (false, see below). *)
Theorem C29_valid_partial : forall s q, sound s -> (is_path_valid s (froot s :: q) = true <-> view_path s q).
Proof. exact sound_valid. Qed.
Print Assumptions C29_valid_partial.
Example C29_valid_example : sound (snd vshow) /\ is_path_valid (snd vshow) ["root_v"; "a"; "c"] = true.
Proof. exact case_valid. Qed.

Theorem C29_valid_refuted : exists ord t b s, (forall k l, Permutation (ord k l) l) /\ viewing ord (t, b, s) /\
  is_path_valid s [] = true /\ is_path_valid s ["d"; "z"] = true.
Proof. exact lax_validity. Qed.
Print Assumptions C29_valid_refuted.

(** C30. A client that connects late is told every path once, parents first, and
    nothing else. *)
Theorem C30_current_state : forall s, sound s -> proper s -> idle s ->
  exists ps s', get_current_state s = (s', Ok tt) /\
    froot s' = froot s /\ fnodes s' = fnodes s /\ flat s' = flat s /\ filters s' = filters s /\ runonce s' = runonce s /\
    sent s' = sent s ++ map (fun q => SAdded (last q "") q) ps /\
    NoDup ps /\ (forall q, In q ps <-> view_path s q) /\
    (forall a q n b, ps = a ++ (q ++ [n]) :: b -> q = [] \/ In q a).
Proof. exact late_client. Qed.
Print Assumptions C30_current_state.
Example C30_example : sound (snd vshow) /\ proper (snd vshow) /\ idle (snd vshow) /\
  skipn (length (sent (snd vshow))) (sent (fst (get_current_state (snd vshow)))) =
  [SAdded "a" ["a"]; SAdded "b" ["a"; "b"]; SAdded "c" ["a"; "c"]; SAdded "d" ["a"; "b"; "d"]; SAdded "d" ["a"; "c"; "d"]].
Proof. exact case_state. Qed.

(** C31. A flat filter makes the view flat. *)
Theorem C31_flat : forall ord, (forall k l, Permutation (ord k l) l) ->
  forall t b s n, viewing ord (t, b, s) -> flattened b (filters s) -> In n (view_all_nodes s) ->
  pars s n = [froot s] /\ kids s n = [] /\ In n (kids s (froot s)).
Proof. exact viewing_flat. Qed.
Print Assumptions C31_flat.
Example C31_example : viewing keep vflat /\ flattened (snd (fst vflat)) (filters (snd vflat)) /\
  kids (snd vflat) (froot (snd vflat)) = ["a"; "c"; "d"; "z"].
Proof. exact vflat_example. Qed.

(** C32. Two orders of the sets give the same view, up to the order of siblings. *)
Theorem C32_orders : forall ord1 ord2, (forall k l, Permutation (ord1 k l) l) -> (forall k l, Permutation (ord2 k l) l) ->
  forall t b name names l, welcome t b name -> all_supported ord1 l (opened ord1 t b name names) ->
  all_supported ord2 l (opened ord2 t b name names) /\
  let '(t1, b1, s1) := view_calls ord1 l (opened ord1 t b name names) in
  let '(t2, b2, s2) := view_calls ord2 l (opened ord2 t b name names) in
  t1 = t2 /\ b1 = b2 /\ filters s1 = filters s2 /\ same_set (view_all_nodes s1) (view_all_nodes s2) /\ forall n, pars s1 n = pars s2 n.
Proof. exact orders_agree. Qed.
Print Assumptions C32_orders.
Example C32_example : (forall k l, Permutation (keep k l) l) /\ (forall k l, Permutation (backwards k l) l) /\
  welcome vtree vbank (Some "v") /\ all_supported keep vsteps (opened keep vtree vbank (Some "v") ["work"]).
Proof. exact orders_example. Qed.

(** C33. Announcing nodes that did not change. *)
Theorem C33_quiet : forall ord, (forall k l, Permutation (ord k l) l) ->
  forall t b s o, reach calm t -> no_clash t s -> uptodate t b s -> announcing o ->
  after o t = t /\ exists s' l, feed ord b (events o t) s = (s', Ok tt) /\ fnodes s' = fnodes s /\ filters s' = filters s /\
    froot s' = froot s /\ flat s' = flat s /\ runonce s' = runonce s /\ sent s' = sent s ++ l /\
    Forall (fun x => exists q n, x = SModified n (q ++ [n]) /\ view_path s (q ++ [n])) l.
Proof. exact quiet_calls. Qed.
Print Assumptions C33_quiet.
Example C33_example : let '(t, b, s) := vend in reach calm t /\ no_clash t s /\ uptodate t b s /\ announcing RefreshAll /\
  length (events RefreshAll t) = 4.
Proof. exact case_quiet. Qed.

(** C34. The counts of children. *)
Theorem C34_recursive : forall s n, sound s ->
  exists L, NoDup L /\ (forall q, In q L <-> q <> [] /\ downward (kids s) (match n with None => froot s | Some x => x end) q) /\
    view_n_children s n true = Ok (length L).
Proof. exact sound_count. Qed.
Print Assumptions C34_recursive.
Example C34_example : sound (snd vshow) /\ view_n_children (snd vshow) None true = Ok 5 /\ view_n_children (snd vshow) (Some "a") true = Ok 4.
Proof. exact case_counts. Qed.

Theorem C34_direct : forall s n, view_n_children s n false = Ok (length (kids s (match n with None => froot s | Some x => x end))).
Proof. exact direct_count. Qed.
Print Assumptions C34_direct.
Example C34_direct_example : view_n_children (snd vshow) (Some "a") false = Ok 2.
Proof. exact case_direct. Qed.

(** C35. Counting with further filters. *)
Theorem C35_nodes : forall b t s names, sound s -> (forall n, In n (view_all_nodes s) -> has_node t n = true) ->
  view_nodes b t s names = filter (fun n => forallb (fun name =>
    match get_filter b name with
    | Some f => xorb (f_fun f t n (f_dic f)) (match f_dic f with Some d => p_negate d | None => false end)
    | None => true
    end) names) (view_all_nodes s) /\ view_n_nodes b t s names = length (view_nodes b t s names).
Proof. exact counted_nodes. Qed.
Print Assumptions C35_nodes.
Example C35_example : let '(t, b, s) := vall in sound s /\ (forall n, In n (view_all_nodes s) -> has_node t n = true) /\
  view_all_nodes s = ["a"; "b"; "d"; "c"] /\ view_nodes b t s ["work"; "unknown"] = ["a"; "b"; "d"].
Proof. exact case_with. Qed.

(** C36. The applied filters are those applied and not removed since, each once. *)
Theorem C36_applied : forall ord t l b name, (forall n d rs rf, In (FApply n (Some d) rs rf) l -> get_filter b n <> None) ->
  let fs := filters (snd (fold_left (filter_call ord t) l (b, new_ft name))) in
  NoDup fs /\ forall n, In n fs <-> applied (rev l) n.
Proof. exact filter_set. Qed.
Print Assumptions C36_applied.
Example C36_example : (forall n d rs rf, In (FApply n (Some d) rs rf) fscript -> get_filter vbank n <> None) /\
  filters (snd (fold_left (filter_call keep vtree) fscript (vbank, new_ft None))) = ["other"; "flat"].
Proof. exact case_filters. Qed.

(** C36. What passes depends on the set of filters only. *)
Theorem C36_order : forall b t l1 l2, (forall n, In n l1 <-> In n l2) -> satisfying b t l1 = satisfying b t l2.
Proof. exact satisfying_set. Qed.
Print Assumptions C36_order.
Example C36_order_example : (forall n, In n ["work"; "flat"] <-> In n ["flat"; "work"; "flat"]) /\ satisfying vbank vtree ["work"; "flat"] = ["a"; "b"; "d"].
Proof. exact case_order. Qed.

(** C36. An unknown name lets nothing pass. *)
Theorem C36_unknown : forall b t l n, In n l -> get_filter b n = None -> satisfying b t l = [].
Proof. exact satisfying_unknown. Qed.
Print Assumptions C36_unknown.
Example C36_unknown_example : In "other" ["work"; "other"] /\ get_filter vbank "other" = None.
Proof. exact case_unknown. Qed.

(** C37. Applying a filter to one view does not change what another one, with the
    filters [names], should display. What is missing: parameters given to a filter
    which the other view applies too (false, see below). *)
Theorem C37_independent_partial : forall ord t name p rs rf b s1 names, p = None \/ ~ In name names ->
  let b' := fst (fst (apply_filter ord t name p rs rf b s1)) in
  satisfying b' t names = satisfying b t names /\ (flattened b' names <-> flattened b names).
Proof. exact independent. Qed.
Print Assumptions C37_independent_partial.
Example C37_example : ~ In "flat" ["work"] /\
  f_dic_of (fst (fst (apply_filter keep vtree "flat" (Some (mkParams true true 5)) false true vbank (snd vstart)))) "flat" = Some (mkParams true true 5).
Proof. exact case_independent. Qed.

Theorem C37_parameters_refuted : exists t b s1 s2 name d, viewing keep (t, b, s1) /\ viewing keep (t, b, s2) /\ get_filter b name <> None /\
  (let b' := fst (fst (apply_filter keep t name (Some d) false true b s1)) in
   satisfying b t (filters s2) = ["a"; "b"; "d"] /\ satisfying b' t (filters s2) = ["c"]).
Proof. exact shared_parameters. Qed.
Print Assumptions C37_parameters_refuted.

(** C38. What a supported call does with the queued actions: nothing waits for a
    displayed node; the actions of another one go on waiting, or run once each
    right before the first added signal for it. *)
Theorem C38_once : forall ord, (forall k l, Permutation (ord k l) l) ->
  forall t b s c, viewing ord (t, b, s) -> supported (t, b, s) c -> (forall n a, c <> VQueue n a) ->
  let s' := snd (fst (view_call ord c (t, b, s))) in
  idle s /\ exists l, sent s' = sent s ++ l /\ forall n,
    (waiting s n = [] -> waiting s' n = [] /\ forall x, In x l -> ~ runs_of n x) /\
    (waiting s n <> [] -> (waiting s' n = waiting s n /\ is_displayed s' n = false /\ forall x, In x l -> ~ runs_of n x /\ ~ adds_of n x) \/
                          (waiting s' n = [] /\ delivered n (waiting s n) l)).
Proof. exact viewing_actions. Qed.
Print Assumptions C38_once.
Example C38_example : viewing keep vwait /\ supported vwait (VTree (put "z" 3 (Some "d"))) /\ waiting (snd vwait) "z" = [7; 8] /\
  skipn (length (sent (snd vwait))) (sent (snd (fst (view_call keep (VTree (put "z" 3 (Some "d"))) vwait)))) =
  [SRun "z" 7; SRun "z" 8; SAdded "z" ["a"; "b"; "d"; "z"]; SModified "a" ["a"]; SModified "b" ["a"; "b"]; SModified "d" ["a"; "b"; "d"]].
Proof. exact case_actions. Qed.

(** C38. Queueing: at once for a displayed node, otherwise behind the others. *)
Theorem C38_queue : forall ord t b s n a, viewing ord (t, b, s) -> n <> "" ->
  (is_displayed s n = true -> queue_action n a s = (s, Ok true)) /\
  (is_displayed s n = false -> exists s', queue_action n a s = (s', Ok false) /\ fnodes s' = fnodes s /\ sent s' = sent s /\
    waiting s' n = waiting s n ++ [a] /\ forall m, m <> n -> waiting s' m = waiting s m).
Proof. exact viewing_queue. Qed.
Print Assumptions C38_queue.
Example C38_queue_example : viewing keep vwait /\ is_displayed (snd vwait) "z" = false /\ is_displayed (snd vwait) "d" = true.
Proof. exact case_queue. Qed.

(** C39. Every id that the tree accepts works in a view. What is missing: the names
    of the four events and the name of the root of the view (false, see below). *)
Theorem C39_ids_partial : forall ord, (forall k l, Permutation (ord k l) l) ->
  forall t b s n nd p, viewing ord (t, b, s) -> calm t (AddNode n nd p) -> n <> froot s -> ~ In n reserved ->
  let o := AddNode n nd p in
  exists s', feed ord b (events o t) s = (s', Ok tt) /\ (In n (view_all_nodes s') <-> In n (satisfying b (after o t) (filters s'))).
Proof. exact other_ids. Qed.
Print Assumptions C39_ids_partial.
Example C39_example : viewing keep vend /\ calm (fst (fst vend)) (AddNode "runonce" (new_node 1) (Some "d")) /\
  "runonce" <> froot (snd vend) /\ ~ In "runonce" reserved.
Proof. exact case_ids. Qed.

Theorem C39_event_name_refuted : exists t b s n, viewing keep (t, b, s) /\ n <> "" /\ has_node t n = false /\
  calm t (AddNode n (new_node 1) None) /\ snd (view_call keep (VTree (AddNode n (new_node 1) None)) (t, b, s)) = Err TypeError.
Proof. exact event_name_raises. Qed.
Print Assumptions C39_event_name_refuted.

Theorem C39_root_name_refuted : exists t b s n, viewing keep (t, b, s) /\ n <> "" /\ has_node t n = false /\
  let o := AddNode n (new_node 1) None in
  calm t o /\ exists s', feed keep b (events o t) s = (s', Ok tt) /\ In n (satisfying b (after o t) (filters s')) /\ ~ In n (view_all_nodes s').
Proof. exact root_name_hidden. Qed.
Print Assumptions C39_root_name_refuted.
