(** Properties of opening the rows of a node. *)
From Coq Require Import Permutation.
From Verif Require Import Base MainTree Spec Filters FTree SpecApi SpecView SpecViewing Gtk SpecGtk Widget SpecWidget SpecExpand
  Witness ApiWitness ViewWitness GtkWitness WidgetWitness WidgetExpand ExpandCases.

(** C64. The rows of a widget are the paths of its view, whatever rows are opened and
    closed by expand_node, collapse_node and by hand. *)
Theorem C64_any_rows : forall ord pf, (forall k l, Permutation (ord k l) l) -> faithful pf -> never_reuses pf ->
  forall t b s p, handled ord pf (t, b, s) p -> shows (rows (store p)) (view_path s).
Proof. exact handled_shows. Qed.
Print Assumptions C64_any_rows.
Example C64_any_rows_example : faithful counting /\ never_reuses counting /\ handled keep counting (parts hend) (snd hend) /\ expanded (snd hend) = [2] /\
  map r_id (rows (store (snd hend))) = ["a"; "b"; "c"; "e"; "z"; "g"; "f"; "h"; "y"; "i"].
Proof. exact case_any. Qed.

(** C64. Such a widget does not raise and does not change what calls do; expand_node,
    collapse_node and the callbacks of the main loop change no row. *)
Theorem C64_any_calls : forall ord pf, (forall k l, Permutation (ord k l) l) -> faithful pf -> never_reuses pf ->
  forall t b s p, handled ord pf (t, b, s) p ->
  (forall c, supported (t, b, s) c -> exists p', panel_call pf ord c (t, b, s) p = (fst (view_call ord c (t, b, s)), p', Ok tt)) /\
  (forall opening above n, strip n <> "" -> exists s' p', collapse_node opening (above ++ [n]) s p = (s', p', Ok tt) /\ fnodes s' = fnodes s /\ rows (store p') = rows (store p)) /\
  (forall n o rest, idle_calls p = (n, o) :: rest -> n <> "" -> exists s' p', run_idle s p = (s', p', Ok tt) /\ fnodes s' = fnodes s /\ rows (store p') = rows (store p)).
Proof. exact handled_fine. Qed.
Print Assumptions C64_any_calls.
Example C64_any_calls_example : handled keep counting (parts hend) (snd hend) /\ supported (parts hend) (VTree (DelNode "a" true)) /\ strip "'b'" = "b" /\
  map r_id (rows (store (snd (fst (panel_call counting keep (VTree (DelNode "a" true)) (parts hend) (snd hend)))))) = ["e"; "z"; "g"; "f"; "y"].
Proof. exact case_any_calls. Qed.

(** C87. expand_node for a displayed node opens those of its rows that have rows below
    them and are in sight, and no other row; it closes none and leaves nothing for
    later. Missing: rows that are not in sight (false, see below). *)
Theorem C87_opens_partial : forall ord pf, (forall k l, Permutation (ord k l) l) -> faithful pf -> never_reuses pf ->
  forall t b s p above n, handled ord pf (t, b, s) p -> strip n <> "" -> In (strip n) (view_all_nodes s) ->
  exists p', collapse_node true (above ++ [n]) s p = (s, p', Ok tt) /\ rows (store p') = rows (store p) /\ idle_calls p' = idle_calls p /\
    forall r, In r (rows (store p)) -> (is_open p' r <-> is_open p r \/ (r_id r = strip n /\ in_sight p r /\ has_below (rows (store p)) r)).
Proof. exact use_expand. Qed.
Print Assumptions C87_opens_partial.
Example C87_opens_example : faithful counting /\ never_reuses counting /\ handled keep counting (parts hend) (snd hend) /\
  strip "e" <> "" /\ In (strip "e") (view_all_nodes (snd (parts hend))) /\
  ~ is_open (snd hend) row_e /\ is_open ufold row_e /\ has_below (rows (store ufold)) row_f /\ in_sight ufold row_f /\ ~ is_open ufold row_f.
Proof. exact case_expand. Qed.

(** C87. For a node that is not displayed, expand_node changes nothing in the widget
    and leaves an action with the view. *)
Theorem C87_waits : forall ord pf t b s p above n, handled ord pf (t, b, s) p -> strip n <> "" -> is_displayed s (strip n) = false ->
  exists s', collapse_node true (above ++ [n]) s p = (s', p, Ok tt) /\ fnodes s' = fnodes s /\ In 1 (waiting s' (strip n)).
Proof. exact use_expand_wait. Qed.
Print Assumptions C87_waits.
Example C87_waits_example : handled keep counting (parts hbefore) (snd hbefore) /\ strip "'z'" = "z" /\ is_displayed (snd (parts hbefore)) "z" = false /\
  waiting (snd (parts hasked)) "z" = [1].
Proof. exact case_expand_wait. Qed.

(** C87. The first call after which the node is displayed makes the action a callback
    of the main loop; until then the action waits, unless the node was displayed for a
    while. *)
Theorem C87_comes : forall ord pf, (forall k l, Permutation (ord k l) l) -> faithful pf -> never_reuses pf ->
  forall t b s p n c t' b' s' p' r, handled ord pf (t, b, s) p -> supported (t, b, s) c -> (forall m a, c <> VQueue m a) ->
  In 1 (waiting s n) -> panel_call pf ord c (t, b, s) p = (t', b', s', p', r) ->
  (is_displayed s' n = true -> In (n, true) (idle_calls p')) /\ (is_displayed s' n = false -> In 1 (waiting s' n) \/ In (n, true) (idle_calls p')).
Proof. exact use_expand_comes. Qed.
Print Assumptions C87_comes.
Example C87_comes_example : handled keep counting (parts hasked) (snd hasked) /\ supported (parts hasked) (VTree (put "z" 1 None)) /\ In 1 (waiting (snd (parts hasked)) "z") /\
  is_displayed (snd (parts hadded)) "z" = true /\ idle_calls (snd hadded) = [("z", true)].
Proof. exact case_expand_comes. Qed.

(** C87. When its turn comes, the callback opens what expand_node would. Missing: as
    above. *)
Theorem C87_idle_partial : forall ord pf, (forall k l, Permutation (ord k l) l) -> faithful pf -> never_reuses pf ->
  forall t b s p n rest, handled ord pf (t, b, s) p -> idle_calls p = (n, true) :: rest -> n <> "" -> In n (view_all_nodes s) ->
  exists p', run_idle s p = (s, p', Ok tt) /\ rows (store p') = rows (store p) /\ idle_calls p' = rest /\
    forall r, In r (rows (store p)) -> (is_open p' r <-> is_open p r \/ (r_id r = n /\ in_sight p r /\ has_below (rows (store p)) r)).
Proof. exact use_expand_idle. Qed.
Print Assumptions C87_idle_partial.
Example C87_idle_example : handled keep counting (parts hend) (snd hend) /\ idle_calls (snd hend) = [("z", true)] /\ In "z" (view_all_nodes (snd (parts hend))) /\
  ~ is_open (snd hend) row_z /\ is_open (snd (fst (run_idle (snd (parts hend)) (snd hend)))) row_z.
Proof. exact case_expand_idle. Qed.

(** C87 is false in general: a row below a closed one is not opened, then or when it
    comes in sight. *)
Theorem C87_refuted : exists t b s p asked p1 p2 n m r, in_use keep counting no_nesting asked (t, b, s) p /\
  In n (view_all_nodes s) /\ collapse_node true [n] s p = (s, p1, Ok tt) /\ idle_calls p1 = [] /\ waiting s n = [] /\
  collapse_node true [m] s p1 = (s, p2, Ok tt) /\ idle_calls p2 = [] /\
  In r (rows (store p2)) /\ r_id r = n /\ has_below (rows (store p2)) r /\ in_sight p2 r /\ ~ is_open p2 r.
Proof. exact never_opened. Qed.
Print Assumptions C87_refuted.
