(** Properties of closing the rows of a node. *)
From Coq Require Import Permutation.
From Verif Require Import Base MainTree Spec Filters FTree SpecApi SpecView SpecViewing Gtk SpecGtk Widget SpecWidget SpecExpand
  Witness ApiWitness ViewWitness GtkWitness WidgetWitness WidgetClose WidgetStill ExpandCases CloseCases.

(** C89. collapse_node for a displayed node closes its rows and all rows below them,
    and no other; it opens none, changes no row and leaves nothing for later. *)
Theorem C89_closes : forall ord pf, (forall k l, Permutation (ord k l) l) -> faithful pf -> never_reuses pf ->
  forall t b s p above n, handled ord pf (t, b, s) p -> strip n <> "" -> In (strip n) (view_all_nodes s) ->
  exists p', collapse_node false (above ++ [n]) s p = (s, p', Ok tt) /\ rows (store p') = rows (store p) /\ idle_calls p' = idle_calls p /\
    forall r l, at_path (rows (store p)) r l -> (is_open p' r <-> is_open p r /\ ~ In (strip n) l).
Proof. exact use_close. Qed.
Print Assumptions C89_closes.
Example C89_closes_example : faithful counting /\ never_reuses counting /\ handled keep counting (parts kopen) (snd kopen) /\
  strip "e" <> "" /\ In (strip "e") (view_all_nodes (snd (parts kopen))) /\
  is_open (snd kopen) row_e /\ is_open (snd kopen) row_f /\ is_open (snd kopen) row_b /\ ~ is_open kclosed row_e /\ ~ is_open kclosed row_f /\ is_open kclosed row_b.
Proof. exact case_close. Qed.

(** C89. For a node that is not displayed, collapse_node changes nothing in the widget
    and leaves an action with the view. *)
Theorem C89_waits : forall ord pf t b s p above n, handled ord pf (t, b, s) p -> strip n <> "" -> is_displayed s (strip n) = false ->
  exists s', collapse_node false (above ++ [n]) s p = (s', p, Ok tt) /\ fnodes s' = fnodes s /\ In 0 (waiting s' (strip n)).
Proof. exact use_close_wait. Qed.
Print Assumptions C89_waits.
Example C89_waits_example : handled keep counting (parts hbefore) (snd hbefore) /\ strip "'z'" = "z" /\ is_displayed (snd (parts hbefore)) "z" = false.
Proof. exact case_close_wait. Qed.

(** C89. The first call after which the node is displayed makes the action a callback
    of the main loop; until then the action waits, unless the node was displayed for a
    while. *)
Theorem C89_comes : forall ord pf, (forall k l, Permutation (ord k l) l) -> faithful pf -> never_reuses pf ->
  forall t b s p n c t' b' s' p' r, handled ord pf (t, b, s) p -> supported (t, b, s) c -> (forall m a, c <> VQueue m a) ->
  In 0 (waiting s n) -> panel_call pf ord c (t, b, s) p = (t', b', s', p', r) ->
  (is_displayed s' n = true -> In (n, false) (idle_calls p')) /\ (is_displayed s' n = false -> In 0 (waiting s' n) \/ In (n, false) (idle_calls p')).
Proof. exact use_close_comes. Qed.
Print Assumptions C89_comes.
Example C89_comes_example : handled keep counting (parts kasked) (snd kasked) /\ supported (parts kasked) (VTree (put "z" 1 None)) /\ In 0 (waiting (snd (parts kasked)) "z") /\
  is_displayed (snd (parts kadded)) "z" = true /\ idle_calls (snd kadded) = [("z", false)].
Proof. exact case_close_comes. Qed.

(** C89. When its turn comes, the callback closes what collapse_node would. *)
Theorem C89_idle : forall ord pf, (forall k l, Permutation (ord k l) l) -> faithful pf -> never_reuses pf ->
  forall t b s p n rest, handled ord pf (t, b, s) p -> idle_calls p = (n, false) :: rest -> n <> "" -> In n (view_all_nodes s) ->
  exists p', run_idle s p = (s, p', Ok tt) /\ rows (store p') = rows (store p) /\ idle_calls p' = rest /\
    forall r l, at_path (rows (store p)) r l -> (is_open p' r <-> is_open p r /\ ~ In n l).
Proof. exact use_close_idle. Qed.
Print Assumptions C89_idle.
Example C89_idle_example : handled keep counting (parts kend) (snd kend) /\ idle_calls (snd kend) = [("z", false)] /\ In "z" (view_all_nodes (snd (parts kend))) /\
  is_open (snd kend) row_z /\ ~ is_open (snd (fst (run_idle (snd (parts kend)) (snd kend)))) row_z.
Proof. exact case_close_idle. Qed.

(** C89. Without a node, or for a node without a name, there is an exception and
    nothing happens. *)
Theorem C89_refused : forall opening s p, collapse_node opening [] s p = (s, p, Err IndexError) /\
  forall above n, strip n = "" -> collapse_node opening (above ++ [n]) s p = (s, p, Err PyException).
Proof. exact refused. Qed.
Print Assumptions C89_refused.
Example C89_refused_example : strip "''" = "" /\ strip "'a'" = "a".
Proof. split; reflexivity. Qed.

(** C90. After collapse_node no row of the node is open, old or new, whatever happens
    later, until expand_node or the user opens one. *)
Theorem C90_stays : forall ord pf, (forall k l, Permutation (ord k l) l) -> faithful pf -> never_reuses pf ->
  forall t b s p above n s' p' r x'' p'', handled ord pf (t, b, s) p -> rows_open p -> strip n <> "" -> In (strip n) (view_all_nodes s) ->
  collapse_node false (above ++ [n]) s p = (s', p', r) -> meanwhile ord pf (strip n) (t, b, s') p' x'' p'' ->
  forall w, In w (rows (store p'')) -> r_id w = strip n -> ~ is_open p'' w.
Proof. exact use_stays. Qed.
Print Assumptions C90_stays.
Example C90_stays_example : faithful counting /\ never_reuses counting /\ handled keep counting (parts kopen) (snd kopen) /\ rows_open (snd kopen) /\ strip "'a'" = "a" /\ In "a" (view_all_nodes (snd (parts kopen))) /\
  collapse_node false ["'a'"] (snd (parts kopen)) (snd kopen) = (snd (parts mclosed), snd mclosed, Ok tt) /\
  meanwhile keep counting "a" (parts mclosed) (snd mclosed) (parts mend) (snd mend) /\
  In row_a (rows (store (snd mend))) /\ has_below (rows (store (snd mend))) row_a /\ ~ is_open (snd mend) row_a /\
  is_open (snd (hand_steps [HCall (VTree (DelNode "b" true)); HCall (VTree (DelNode "h" true)); HCall (VTree (put "j" 1 (Some "a")))] kopen)) row_a.
Proof. exact case_stays. Qed.

(** C90. The same after collapse_node for a node that was not displayed yet, once the
    callback of the main loop has run. *)
Theorem C90_idle : forall ord pf, (forall k l, Permutation (ord k l) l) -> faithful pf -> never_reuses pf ->
  forall t b s p n rest s' p' r x'' p'', handled ord pf (t, b, s) p -> rows_open p -> idle_calls p = (n, false) :: rest -> n <> "" -> In n (view_all_nodes s) ->
  run_idle s p = (s', p', r) -> meanwhile ord pf n (t, b, s') p' x'' p'' ->
  forall w, In w (rows (store p'')) -> r_id w = n -> ~ is_open p'' w.
Proof. exact use_stays_idle. Qed.
Print Assumptions C90_idle.
Example C90_idle_example : faithful counting /\ never_reuses counting /\ handled keep counting (parts kend) (snd kend) /\ rows_open (snd kend) /\ idle_calls (snd kend) = [("z", false)] /\
  In "z" (view_all_nodes (snd (parts kend))) /\ run_idle (snd (parts kend)) (snd kend) = (snd (parts mturn), snd mturn, Ok tt) /\
  meanwhile keep counting "z" (parts mturn) (snd mturn) (parts mlater) (snd mlater) /\
  In row_z (rows (store (snd mlater))) /\ has_rows 34 (store (snd mlater)) = true /\ ~ is_open (snd mlater) row_z /\
  is_open (snd (hand_steps [HCall (VTree (DelNode "y" true)); HCall (VTree (put "x" 1 (Some "z")))] kend)) row_z.
Proof. exact case_stays_idle. Qed.
