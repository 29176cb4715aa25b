(** Properties of opening and closing rows when no node has two parents: there addresses
    of rows may be used again. *)
From Coq Require Import Permutation.
From Verif Require Import Base MainTree Spec Filters FTree SpecApi SpecView SpecViewing Gtk SpecGtk Widget SpecWidget SpecLone SpecExpand SpecExpandLone
  Witness ApiWitness ViewWitness GtkWitness WidgetWitness LoneCases LoneWidgetCases ExpandCases WidgetExpandLone ExpandLoneCases.

(** C64. The rows of such a widget are the paths of its view, whatever rows are opened
    and closed by expand_node, collapse_node and by hand. Missing: trees in which a node
    has two parents, with addresses that are used again (false, see C64_reuse_refuted). *)
Theorem C64_any_single_rows_partial : forall ord pf, (forall k l, Permutation (ord k l) l) -> faithful pf ->
  forall t b s p, handled_single ord pf (t, b, s) p -> shows (rows (store p)) (view_path s).
Proof. exact hsingle_shows. Qed.
Print Assumptions C64_any_single_rows_partial.
Example C64_any_single_rows_example : faithful lowest /\ (exists k live live', address lowest k live = address lowest (S k) live') /\ handled_single keep lowest (parts (lwait false)) (snd (lwait false)) /\
  expanded (snd (lwait false)) = [0; 2; 7] /\ map r_id (rows (store (snd (lwait false)))) = ["A"; "Y"; "B"; "V"; "W"; "X"; "U"; "z"; "y"].
Proof. exact lcase_any. Qed.

(** C64. Such a widget does not raise and does not change what calls do; expand_node,
    collapse_node and the callbacks of the main loop change no row. Missing: as above. *)
Theorem C64_any_single_calls_partial : forall ord pf, (forall k l, Permutation (ord k l) l) -> faithful pf ->
  forall t b s p, handled_single ord pf (t, b, s) p ->
  (forall c, supported (t, b, s) c -> one_parent (base_tree (fst (view_call ord c (t, b, s)))) ->
    exists p', panel_call pf ord c (t, b, s) p = (fst (view_call ord c (t, b, s)), p', Ok tt)) /\
  (forall opening above n, strip n <> "" -> exists s' p', collapse_node opening (above ++ [n]) s p = (s', p', Ok tt) /\ fnodes s' = fnodes s /\ rows (store p') = rows (store p)) /\
  (forall n o rest, idle_calls p = (n, o) :: rest -> n <> "" -> exists s' p', run_idle s p = (s', p', Ok tt) /\ fnodes s' = fnodes s /\ rows (store p') = rows (store p)).
Proof. exact hsingle_fine. Qed.
Print Assumptions C64_any_single_calls_partial.
Example C64_any_single_calls_example : faithful lowest /\ handled_single keep lowest (parts (lwait false)) (snd (lwait false)) /\ supported (parts (lwait false)) (VTree (DelNode "A" true)) /\
  one_parent (base_tree (fst (view_call keep (VTree (DelNode "A" true)) (parts (lwait false))))) /\ strip "'X'" <> "" /\ idle_calls (snd (lwait false)) = [("z", false)].
Proof. exact lcase_calls. Qed.

(** C87. expand_node for a displayed node opens those of its rows that have rows below
    them and are in sight, and no other row. Missing: rows that are not in sight (false,
    see C87_refuted). *)
Theorem C87_single_opens_partial : forall ord pf, (forall k l, Permutation (ord k l) l) -> faithful pf ->
  forall t b s p above n, handled_single ord pf (t, b, s) p -> strip n <> "" -> In (strip n) (view_all_nodes s) ->
  exists p', collapse_node true (above ++ [n]) s p = (s, p', Ok tt) /\ rows (store p') = rows (store p) /\ idle_calls p' = idle_calls p /\
    forall r, In r (rows (store p)) -> (is_open p' r <-> is_open p r \/ (r_id r = strip n /\ in_sight p r /\ has_below (rows (store p)) r)).
Proof. exact hsingle_expand. Qed.
Print Assumptions C87_single_opens_partial.
Example C87_single_opens_example : faithful lowest /\ handled_single keep lowest (parts lend) (snd lend) /\ strip "Y" <> "" /\ In (strip "Y") (view_all_nodes (snd (parts lend))) /\
  ~ is_open (snd lend) row_Y /\ in_sight (snd lend) row_Y /\ has_below (rows (store (snd lend))) row_Y /\ is_open (snd lopen) row_Y.
Proof. exact lcase_expand. Qed.

(** C87 and C89. The first call after which the node is displayed makes an action left
    by expand_node or collapse_node a callback of the main loop. Missing: trees in which
    a node has two parents, with addresses that are used again. *)
Theorem C87_single_comes_partial : forall ord pf, (forall k l, Permutation (ord k l) l) -> faithful pf ->
  forall (o : bool) t b s p n c t' b' s' p' r, handled_single ord pf (t, b, s) p -> supported (t, b, s) c -> (forall m a, c <> VQueue m a) ->
  In (if o then 1 else 0) (waiting s n) -> panel_call pf ord c (t, b, s) p = (t', b', s', p', r) -> one_parent t' ->
  (is_displayed s' n = true -> In (n, o) (idle_calls p')) /\ (is_displayed s' n = false -> In (if o then 1 else 0) (waiting s' n) \/ In (n, o) (idle_calls p')).
Proof. exact hsingle_comes. Qed.
Print Assumptions C87_single_comes_partial.
Example C87_single_comes_example : forall o : bool, handled_single keep lowest (parts (lasked o)) (snd (lasked o)) /\ supported (parts (lasked o)) (VTree (put "z" 1 None)) /\
  In (if o then 1 else 0) (waiting (snd (parts (lasked o))) "z") /\ one_parent (base_tree (fst (lhand (HCall (VTree (put "z" 1 None))) (lasked o)))) /\
  is_displayed (snd (parts (lhand (HCall (VTree (put "z" 1 None))) (lasked o)))) "z" = true /\ idle_calls (snd (lhand (HCall (VTree (put "z" 1 None))) (lasked o))) = [("z", o)].
Proof. exact lcase_comes. Qed.

(** C87. When its turn comes, the callback opens what expand_node would. Missing: as
    above. *)
Theorem C87_single_idle_partial : forall ord pf, (forall k l, Permutation (ord k l) l) -> faithful pf ->
  forall t b s p n rest, handled_single ord pf (t, b, s) p -> idle_calls p = (n, true) :: rest -> n <> "" -> In n (view_all_nodes s) ->
  exists p', run_idle s p = (s, p', Ok tt) /\ rows (store p') = rows (store p) /\ idle_calls p' = rest /\
    forall r, In r (rows (store p)) -> (is_open p' r <-> is_open p r \/ (r_id r = n /\ in_sight p r /\ has_below (rows (store p)) r)).
Proof. exact hsingle_expand_idle. Qed.
Print Assumptions C87_single_idle_partial.
Example C87_single_idle_example : forall o : bool, handled_single keep lowest (parts (lwait o)) (snd (lwait o)) /\ idle_calls (snd (lwait o)) = [("z", o)] /\ In "z" (view_all_nodes (snd (parts (lwait o)))) /\
  (is_open (snd (lwait o)) lrow_z <-> o = false) /\ (is_open (snd (fst (run_idle (snd (parts (lwait o))) (snd (lwait o))))) lrow_z <-> o = true).
Proof. exact lcase_idle. Qed.

(** C89. collapse_node for a displayed node closes its rows and all rows below them, and
    no other. *)
Theorem C89_single_closes : forall ord pf, (forall k l, Permutation (ord k l) l) -> faithful pf ->
  forall t b s p above n, handled_single ord pf (t, b, s) p -> strip n <> "" -> In (strip n) (view_all_nodes s) ->
  exists p', collapse_node false (above ++ [n]) s p = (s, p', Ok tt) /\ rows (store p') = rows (store p) /\ idle_calls p' = idle_calls p /\
    forall r l, at_path (rows (store p)) r l -> (is_open p' r <-> is_open p r /\ ~ In (strip n) l).
Proof. exact hsingle_close. Qed.
Print Assumptions C89_single_closes.
Example C89_single_closes_example : faithful lowest /\ handled_single keep lowest (parts lopen) (snd lopen) /\ strip "A" <> "" /\ In (strip "A") (view_all_nodes (snd (parts lopen))) /\
  is_open (snd lopen) row_A /\ is_open (snd lopen) row_Y /\ is_open (snd lopen) row_X /\ ~ is_open (snd lclosed) row_A /\ ~ is_open (snd lclosed) row_Y /\ ~ is_open (snd lclosed) row_X.
Proof. exact lcase_close. Qed.

(** C89. When its turn comes, the callback closes what collapse_node would. *)
Theorem C89_single_idle : forall ord pf, (forall k l, Permutation (ord k l) l) -> faithful pf ->
  forall t b s p n rest, handled_single ord pf (t, b, s) p -> idle_calls p = (n, false) :: rest -> n <> "" -> In n (view_all_nodes s) ->
  exists p', run_idle s p = (s, p', Ok tt) /\ rows (store p') = rows (store p) /\ idle_calls p' = rest /\
    forall r l, at_path (rows (store p)) r l -> (is_open p' r <-> is_open p r /\ ~ In n l).
Proof. exact hsingle_close_idle. Qed.
Print Assumptions C89_single_idle.
Example C89_single_idle_example : forall o : bool, handled_single keep lowest (parts (lwait o)) (snd (lwait o)) /\ idle_calls (snd (lwait o)) = [("z", o)] /\ In "z" (view_all_nodes (snd (parts (lwait o)))) /\
  (is_open (snd (lwait o)) lrow_z <-> o = false) /\ (is_open (snd (fst (run_idle (snd (parts (lwait o))) (snd (lwait o))))) lrow_z <-> o = true).
Proof. exact lcase_idle. Qed.

(** C90. After collapse_node no row of the node is open, old or new, whatever happens
    later, until expand_node or the user opens one, also when a new row gets the address
    of an old one. *)
Theorem C90_single_stays : forall ord pf, (forall k l, Permutation (ord k l) l) -> faithful pf ->
  forall t b s p above n s' p' r x'' p'', handled_single ord pf (t, b, s) p -> rows_open p -> strip n <> "" -> In (strip n) (view_all_nodes s) ->
  collapse_node false (above ++ [n]) s p = (s', p', r) -> meanwhile_single ord pf (strip n) (t, b, s') p' x'' p'' ->
  forall w, In w (rows (store p'')) -> r_id w = strip n -> ~ is_open p'' w.
Proof. exact hsingle_stays. Qed.
Print Assumptions C90_single_stays.
Example C90_single_stays_example : faithful lowest /\ handled_single keep lowest (parts lopen) (snd lopen) /\ rows_open (snd lopen) /\ strip "Y" = "Y" /\ In "Y" (view_all_nodes (snd (parts lopen))) /\
  collapse_node false ["Y"] (snd (parts lopen)) (snd lopen) = (snd (parts lshut), snd lshut, Ok tt) /\
  meanwhile_single keep lowest "Y" (parts lshut) (snd lshut) (fst lagain) (snd lagain) /\
  In row_Y (rows (store (snd lagain))) /\ has_below (rows (store (snd lagain))) row_Y /\ ~ is_open (snd lagain) row_Y.
Proof. exact lcase_stays. Qed.

(** C90. The same after collapse_node for a node that was not displayed yet, once the
    callback of the main loop has run. *)
Theorem C90_single_idle : forall ord pf, (forall k l, Permutation (ord k l) l) -> faithful pf ->
  forall t b s p n rest s' p' r x'' p'', handled_single ord pf (t, b, s) p -> rows_open p -> idle_calls p = (n, false) :: rest -> n <> "" -> In n (view_all_nodes s) ->
  run_idle s p = (s', p', r) -> meanwhile_single ord pf n (t, b, s') p' x'' p'' ->
  forall w, In w (rows (store p'')) -> r_id w = n -> ~ is_open p'' w.
Proof. exact hsingle_stays_idle. Qed.
Print Assumptions C90_single_idle.
Example C90_single_idle_example : faithful lowest /\ handled_single keep lowest (parts (lwait false)) (snd (lwait false)) /\ rows_open (snd (lwait false)) /\
  idle_calls (snd (lwait false)) = [("z", false)] /\ In "z" (view_all_nodes (snd (parts (lwait false)))) /\
  run_idle (snd (parts (lwait false))) (snd (lwait false)) = (snd (parts lturn), snd lturn, Ok tt) /\
  meanwhile_single keep lowest "z" (parts lturn) (snd lturn) (fst ltlast) (snd ltlast) /\
  In lrow_z (rows (store (snd ltlast))) /\ has_rows 7 (store (snd ltlast)) = true /\ ~ is_open (snd ltlast) lrow_z.
Proof. exact lcase_stays_idle. Qed.

