(** Property theorems about the widget: open rows, places of rows, drag and drop
    (C62 to C66). Nothing else in this file. *)
From Coq Require Import Permutation.
From Verif Require Import Base MainTree Spec Filters FTree SpecApi SpecView SpecViewing Gtk SpecGtk Widget SpecWidget
  WidgetUse WidgetPlaces Witness ApiWitness ViewWitness GtkWitness WidgetWitness LoneWidgetCases PlacesAny PlacesCases.

(** C62. Whatever was called before, Gtk gets the own name under the number 0 and the
    other sources under 1, 2, ... in the order in which they were added; without an
    own name an exception is raised. *)
Theorem C62_targets : forall cs, init_dnd (dnd_after cs) =
  if String.eqb (last_name cs) "" then Err PyException
  else Ok ((last_name cs, 0) :: combine (map fst (sources cs)) (seq 1 (length (sources cs)))).
Proof. exact dnd_targets. Qed.
Print Assumptions C62_targets.
Example C62_targets_example : init_dnd (dnd_after [External "tasks" 7; Name "x"; External "tags" 9]) = Ok [("x", 0); ("tasks", 1); ("tags", 2)] /\
  snd (set_dnd_external "tasks" 7 new_dnd) = Err PyException.
Proof. exact (conj eq_refl eq_refl). Qed.

(** C62. A drop that Gtk gives the number of a source calls the function of that
    source, once for each dragged row and with the node below which it was dropped,
    whatever addresses rows get. What is missing: drops on the root and drags of
    nothing (false, see below). *)
Theorem C62_called_partial : forall ord pf, faithful pf ->
  forall start asked x p cs i source f ix pl r l dest paths src rs, in_use ord pf start asked x p ->
  nth_error (sources cs) i = Some (source, f) -> row_for ix (store p) = Some r -> at_path (rows (store p)) r l -> goes_to pl l = Some dest -> dest <> "" ->
  map (fun jx => row_for jx src) paths = map Some rs ->
  drop_external (dnd_after cs) (S i) (Some (ix, pl)) paths (store p) src = Ok (map (fun r => (f, r_id r, dest)) rs).
Proof. exact any_called. Qed.
Print Assumptions C62_called_partial.
Example C62_reuse_example : faithful lowest /\ in_use keep lowest anything ["A"] (fst (fst (fst wend)), snd (fst (fst wend)), snd (fst wend)) (snd wend) /\
  nth_error (sources sources_set) 1 = Some ("tags", 9) /\ row_for [0; 0] (store (snd wend)) = Some (mkRow 4 (Some 0) "X" (Some 1)) /\
  at_path (rows (store (snd wend))) (mkRow 4 (Some 0) "X" (Some 1)) ["A"; "X"] /\ goes_to After ["A"; "X"] = Some "A" /\
  map (fun jx => row_for jx (store (snd lone))) [[0]; [1]] = map Some [mkRow 0 None "a" (Some 5); mkRow 2 None "'q'" (Some 4)] /\
  drop_external (dnd_after sources_set) 2 (Some ([0; 0], After)) [[0]; [1]] (store (snd wend)) (store (snd lone)) = Ok [(9, "a", "A"); (9, "'q'", "A")].
Proof. exact wrong_called. Qed.
Example C62_called_example : faithful counting /\ never_reuses counting /\
  in_use keep counting anything ["h"; "e"] (fst (fst (fst uend)), snd (fst (fst uend)), snd (fst uend)) (snd uend) /\
  nth_error (sources sources_set) 1 = Some ("tags", 9) /\ row_for [1; 0] (store (snd uend)) = Some row_f /\
  at_path (rows (store (snd uend))) row_f ["e"; "f"] /\ goes_to After ["e"; "f"] = Some "e" /\
  map (fun jx => row_for jx (store (snd lone))) [[0]; [1]] = map Some [mkRow 0 None "a" (Some 5); mkRow 2 None "'q'" (Some 4)] /\
  drop_external (dnd_after sources_set) 2 (Some ([1; 0], After)) [[0]; [1]] (store (snd uend)) (store (snd lone)) = Ok [(9, "a", "e"); (9, "'q'", "e")].
Proof. exact case_called. Qed.

(** C62 fails for a drop on the root: the function is not called. *)
Theorem C62_root_refuted : exists t b s p cs i n f paths src r, in_use keep counting anything ["h"; "e"] (t, b, s) p /\
  init_dnd (dnd_after cs) = Ok (targets (dnd_after cs)) /\ nth_error (sources cs) i = Some (n, f) /\ map (fun jx => row_for jx src) paths = [Some r] /\
  drop_external (dnd_after cs) (S i) None paths (store p) src = Ok [].
Proof. exact root_ignored. Qed.
Print Assumptions C62_root_refuted.

(** C62 fails for a drag of nothing, which the code wants to skip: ValueError. *)
Theorem C62_empty_refuted : exists t b s p cs i n f src, in_use keep counting anything ["h"; "e"] (t, b, s) p /\ nth_error (sources cs) i = Some (n, f) /\
  drop_external (dnd_after cs) (S i) (Some ([0], Into)) (carried []) (store p) src = Err ValueError.
Proof. exact empty_raises. Qed.
Print Assumptions C62_empty_refuted.

(** C63. Where a drop goes: into the row's node, or below the node above it; to the
    root above and below top rows and where there is no row. Whatever addresses rows
    get. *)
Theorem C63_destination : forall ord pf, faithful pf -> forall start asked x p, in_use ord pf start asked x p ->
  destination None (store p) = Ok None /\
  forall ix pl, match row_for ix (store p) with
                | Some r => (exists l, at_path (rows (store p)) r l) /\ forall l, at_path (rows (store p)) r l -> destination (Some (ix, pl)) (store p) = Ok (goes_to pl l)
                | None => destination (Some (ix, pl)) (store p) = Err ValueError
                end.
Proof. exact any_goes. Qed.
Print Assumptions C63_destination.
Example C63_destination_example : faithful counting /\ never_reuses counting /\
  in_use keep counting anything ["h"; "e"] (fst (fst (fst uend)), snd (fst (fst uend)), snd (fst uend)) (snd uend) /\
  nth_error (sources sources_set) 1 = Some ("tags", 9) /\ row_for [1; 0] (store (snd uend)) = Some row_f /\
  at_path (rows (store (snd uend))) row_f ["e"; "f"] /\ goes_to After ["e"; "f"] = Some "e" /\
  map (fun jx => row_for jx (store (snd lone))) [[0]; [1]] = map Some [mkRow 0 None "a" (Some 5); mkRow 2 None "'q'" (Some 4)] /\
  drop_external (dnd_after sources_set) 2 (Some ([1; 0], After)) [[0]; [1]] (store (snd uend)) (store (snd lone)) = Ok [(9, "a", "e"); (9, "'q'", "e")].
Proof. exact case_called. Qed.

(** C63. Dragging one row is move_node of its node, for the tree and for the view. *)
Theorem C63_one : forall ord pf, (forall k l, Permutation (ord k l) l) -> faithful pf -> never_reuses pf ->
  forall start asked t b s p info dest ix r, in_use ord pf start asked (t, b, s) p ->
  destination info (store p) = Ok dest -> row_for ix (store p) = Some r ->
  exists p', drop_here pf ord info [ix] (t, b, s) p = (fst (view_call ord (VTree (MoveNode (r_id r) dest)) (t, b, s)), p', Ok tt).
Proof. exact use_drop_one. Qed.
Print Assumptions C63_one.
Example C63_one_example : faithful counting /\ never_reuses counting /\
  in_use keep counting anything ["h"; "e"] (fst (fst (fst uend)), snd (fst (fst uend)), snd (fst uend)) (snd uend) /\
  destination (Some ([1], Into)) (store (snd uend)) = Ok (Some "e") /\ row_for [0; 0] (store (snd uend)) = Some row_b.
Proof. exact case_one. Qed.

(** C63. Dragging several rows never raises, moves the nodes of the dragged rows in
    their order and no others, leaves a row only if a node on its path was moved
    before, and leaves the widget in use; index paths without a row do not matter.
    What is missing: that all of them are moved (false, see below). *)
Theorem C63_drop_partial : forall ord pf, (forall k l, Permutation (ord k l) l) -> faithful pf -> never_reuses pf ->
  forall start asked t b s p info dest data, in_use ord pf start asked (t, b, s) p ->
  destination info (store p) = Ok dest ->
  exists kept s' p', drop_here pf ord info data (t, b, s) p = (moved kept dest t, b, s', p', Ok tt) /\
    in_use ord pf start asked (moved kept dest t, b, s') p' /\ moves_of (rows (store p)) [] (rows_for data (store p)) kept.
Proof. exact use_drop. Qed.
Print Assumptions C63_drop_partial.
Example C63_drop_example : faithful counting /\ never_reuses counting /\
  in_use keep counting anything ["h"; "e"] (fst (fst (fst uend)), snd (fst (fst uend)), snd (fst uend)) (snd uend) /\
  rows_for [[0; 1]; [0; 5]; [0; 0; 0]] (store (snd uend)) = [row_h; row_c] /\
  (row_for [1; 0] (store (snd uend)) = Some row_f /\ at_path (rows (store (snd uend))) row_f ["e"; "f"] /\ goes_to Before ["e"; "f"] = Some "e") /\
  map (fun r => (r_id r, r_parent r)) (rows (store (snd dropped))) =
    [("a", None); ("b", Some 0); ("c", Some 12); ("e", None); ("f", Some 12); ("g", Some 14); ("h", Some 12); ("i", Some 54)].
Proof. exact case_drop. Qed.

(** C63. When no dragged row lies at or below the node of one dragged before, all are
    moved, one after the other. *)
Theorem C63_all : forall ord pf, (forall k l, Permutation (ord k l) l) -> faithful pf -> never_reuses pf ->
  forall start asked t b s p info dest data, in_use ord pf start asked (t, b, s) p ->
  destination info (store p) = Ok dest -> apart (rows (store p)) (rows_for data (store p)) ->
  exists s' p', drop_here pf ord info data (t, b, s) p = (moved (map r_id (rows_for data (store p))) dest t, b, s', p', Ok tt).
Proof. exact use_drop_all. Qed.
Print Assumptions C63_all.
Example C63_all_example : faithful counting /\ never_reuses counting /\
  in_use keep counting anything ["h"; "e"] (fst (fst (fst uend)), snd (fst (fst uend)), snd (fst uend)) (snd uend) /\
  destination (Some ([1; 0], Before)) (store (snd uend)) = Ok (Some "e") /\
  apart (rows (store (snd uend))) (rows_for [[0; 1]; [0; 5]; [0; 0; 0]] (store (snd uend))) /\
  rows_for [[0; 1]; [0; 5]; [0; 0; 0]] (store (snd uend)) = [row_h; row_c].
Proof. exact case_apart. Qed.

(** C63 fails for a row that is dragged together with the row above it: its node is
    not moved, although it could be. *)
Theorem C63_refuted : exists t b s p t' b' s' p' r r', in_use keep counting anything ["h"; "e"] (t, b, s) p /\
  map (fun ix => row_for ix (store p)) [[0]; [0; 0]] = map Some [r; r'] /\
  drop_here counting keep (Some ([1], Into)) [[0]; [0; 0]] (t, b, s) p = (t', b', s', p', Ok tt) /\
  get_parents t' (r_id r) = ["e"] /\ get_parents t' (r_id r') = get_parents t (r_id r') /\ get_parents t (r_id r') <> ["e"] /\
  outcome (MoveNode (r_id r') (Some "e")) t' = Ok tt.
Proof. exact below_left. Qed.
Print Assumptions C63_refuted.

(** C63 fails after set_dnd_name was called twice: one row is dragged and two nodes
    are moved. *)
Theorem C63_twice_refuted : exists t b s p t' b' s' p', in_use keep counting anything ["h"; "e"] (t, b, s) p /\
  handlers (dnd_after [Name "x"; Name "y"]) = 2 /\ option_map r_id (row_for [0; 0] (store p)) = Some "b" /\
  received counting keep (handlers (dnd_after [Name "x"; Name "y"])) (fun _ => None) [[0; 0]] (t, b, s) p = (t', b', s', p') /\
  get_parents t "h" = ["a"] /\ get_parents t' "b" = [] /\ get_parents t' "h" = [].
Proof. exact handled_twice. Qed.
Print Assumptions C63_twice_refuted.

(** C64. A widget can be made of any view with no exception; its rows are then closed
    and the view is what it was. *)
Theorem C64_built : forall ord pf, (forall k l, Permutation (ord k l) l) -> faithful pf -> never_reuses pf ->
  forall x, viewing ord x -> (forall n a, In a (waiting (snd x) n) -> 2 <= a) ->
  exists t b s p, build_panel pf x = (t, b, s, p, Ok tt) /\ expanded p = [] /\ forall q, view_path s q <-> view_path (snd x) q.
Proof. exact use_build. Qed.
Print Assumptions C64_built.
Example C64_built_example : faithful counting /\ never_reuses counting /\ viewing keep vstart /\ (forall n, waiting (snd vstart) n = []) /\
  map r_id (rows (store (snd late))) = ["d"; "a"; "b"].
Proof. exact case_built. Qed.

(** C64. The rows of a widget in use are the paths of its view. *)
Theorem C64_rows : forall ord pf, (forall k l, Permutation (ord k l) l) -> faithful pf -> never_reuses pf ->
  forall start asked t b s p, in_use ord pf start asked (t, b, s) p -> shows (rows (store p)) (view_path s).
Proof. exact use_shows. Qed.
Print Assumptions C64_rows.
Example C64_rows_example : faithful counting /\ never_reuses counting /\ viewing keep vstart /\ (forall n, waiting (snd vstart) n = []) /\
  in_use keep counting anything ["h"; "e"] (fst (fst (fst uend)), snd (fst (fst uend)), snd (fst uend)) (snd uend) /\
  rows (store (snd uend)) = urows.
Proof. exact case_use. Qed.

(** C64. A widget in use does not raise, and does not change what calls on the tree,
    the bank and the view do. A callback of the main loop is done with when it was
    run, unless it is about the root. *)
Theorem C64_calls : forall ord pf, (forall k l, Permutation (ord k l) l) -> faithful pf -> never_reuses pf ->
  forall start asked t b s p, in_use ord pf start asked (t, b, s) p ->
  (forall c, supported (t, b, s) c -> (forall n a, c = VQueue n a -> 2 <= a) ->
    exists p', panel_call pf ord c (t, b, s) p = (fst (view_call ord c (t, b, s)), p', Ok tt)) /\
  (forall above n, strip n <> "" -> exists s' p', collapse_node false (above ++ [n]) s p = (s', p', Ok tt) /\ fnodes s' = fnodes s) /\
  (exists s' p', run_idle s p = (s', p', Ok tt) /\ fnodes s' = fnodes s /\
    forall n o rest, idle_calls p = (n, o) :: rest -> n <> froot s -> idle_calls p' = rest).
Proof. exact use_fine. Qed.
Print Assumptions C64_calls.
Example C64_calls_example : faithful counting /\ never_reuses counting /\
  in_use keep counting anything ["h"; "e"] (fst (fst (fst uend)), snd (fst (fst uend)), snd (fst uend)) (snd uend) /\
  supported (fst (fst (fst uend)), snd (fst (fst uend)), snd (fst uend)) (VTree (DelNode "a" true)) /\ strip "'b'" = "b" /\
  rows (store (snd (fst (panel_call counting keep (VTree (DelNode "a" true)) (fst uend) (snd uend))))) = [row_e; row_f; row_g].
Proof. exact case_calls. Qed.

(** C64. A row with rows below it is open exactly if no node on its path was to be
    collapsed, once the callbacks of the main loop have been run. What is missing: a
    widget made of a view with nested nodes (false, see below). *)
Theorem C64_open_partial : forall ord pf, (forall k l, Permutation (ord k l) l) -> faithful pf -> never_reuses pf ->
  forall asked t b s p, in_use ord pf no_nesting asked (t, b, s) p -> idle_calls p = [] ->
  forall r l, at_path (rows (store p)) r l -> (is_open p r <-> has_below (rows (store p)) r /\ forall n, In n l -> ~ In n asked).
Proof. exact use_exact. Qed.
Print Assumptions C64_open_partial.
Example C64_open_example : faithful counting /\ never_reuses counting /\ in_use keep counting no_nesting ["h"; "e"] (fst (fst (fst uend)), snd (fst (fst uend)), snd (fst uend)) (snd uend) /\
  idle_calls (snd uend) = [] /\
  (at_path (rows (store (snd uend))) row_b ["a"; "b"] /\ has_below (rows (store (snd uend))) row_b /\ is_open (snd uend) row_b) /\
  (at_path (rows (store (snd uend))) row_f ["e"; "f"] /\ has_below (rows (store (snd uend))) row_f /\ ~ is_open (snd uend) row_f).
Proof. exact case_open. Qed.

(** C64 fails for a widget made of a view with nested nodes: their rows are closed,
    in spite of expand_all. *)
Theorem C64_open_refuted : exists t b s p r, faithful counting /\ never_reuses counting /\ in_use keep counting anything [] (t, b, s) p /\ idle_calls p = [] /\
  In r (rows (store p)) /\ has_below (rows (store p)) r /\ ~ is_open p r.
Proof. exact built_closed. Qed.
Print Assumptions C64_open_refuted.

(** C64 fails when addresses are given out again: a row is shown below another node. *)
Theorem C64_reuse_refuted : exists pf t b s p, faithful pf /\ in_use keep pf anything ["A"] (t, b, s) p /\
  view_path s ["B"; "X"] /\ (forall r, ~ at_path (rows (store p)) r ["B"; "X"]) /\ ~ view_path s ["A"; "X"] /\ exists r, at_path (rows (store p)) r ["A"; "X"].
Proof. exact wrong_rows. Qed.
Print Assumptions C64_reuse_refuted.

(** C64: after that a call on the tree raises in the widget, while the view does not. *)
Theorem C64_raises_refuted : exists pf t b s p, faithful pf /\ in_use keep pf anything ["A"] (t, b, s) p /\
  supported (t, b, s) (VTree (DelNode "X" false)) /\ snd (view_call keep (VTree (DelNode "X" false)) (t, b, s)) = Ok tt /\
  snd (panel_call pf keep (VTree (DelNode "X" false)) (t, b, s) p) = Err PyException.
Proof. exact wrong_raises. Qed.
Print Assumptions C64_raises_refuted.

(** C65. A node that was to be collapsed, displayed then or not, is closed once the
    callbacks of the main loop have been run, and so is all below it. What is
    missing: ids with quotes at their ends (false, see below). *)
Theorem C65_closed_partial : forall ord pf, (forall k l, Permutation (ord k l) l) -> faithful pf -> never_reuses pf ->
  forall start asked t b s p, in_use ord pf start asked (t, b, s) p -> idle_calls p = [] ->
  forall r l n, at_path (rows (store p)) r l -> In n l -> In n asked -> ~ is_open p r.
Proof. exact use_closed. Qed.
Print Assumptions C65_closed_partial.
Example C65_closed_example : faithful counting /\ never_reuses counting /\ in_use keep counting no_nesting ["h"; "e"] (fst (fst (fst uend)), snd (fst (fst uend)), snd (fst uend)) (snd uend) /\
  idle_calls (snd uend) = [] /\
  (at_path (rows (store (snd uend))) row_b ["a"; "b"] /\ has_below (rows (store (snd uend))) row_b /\ is_open (snd uend) row_b) /\
  (at_path (rows (store (snd uend))) row_f ["e"; "f"] /\ has_below (rows (store (snd uend))) row_f /\ ~ is_open (snd uend) row_f).
Proof. exact case_open. Qed.

(** C65 fails for ids with quotes at their ends: the row stays open. *)
Theorem C65_quotes_refuted : exists t b s p s1 p1 n r, in_use keep counting no_nesting [] (t, b, s) p /\ at_path (rows (store p)) r [n] /\
  collapse_node false [n] s p = (s1, p1, Ok tt) /\ idle_calls p1 = [] /\ store p1 = store p /\ is_open p1 r.
Proof. exact quotes_open. Qed.
Print Assumptions C65_quotes_refuted.

(** C65 fails for expand_node: a row that was to be opened stays closed when it gets
    its first child, though rows nobody asked about are opened then. *)
Theorem C65_expand_refuted : exists t b s p s1 p1 t2 b2 s2 p2 c r, in_use keep counting no_nesting [] (t, b, s) p /\
  collapse_node true ["a"] s p = (s1, p1, Ok tt) /\ supported (t, b, s1) c /\ panel_call counting keep c (t, b, s1) p1 = (t2, b2, s2, p2, Ok tt) /\
  In r (rows (store p2)) /\ r_id r = "a" /\ has_below (rows (store p2)) r /\ ~ is_open p2 r.
Proof. exact expand_closes. Qed.
Print Assumptions C65_expand_refuted.

(** C65 fails for the name of the root of the view: the main loop never gets idle. *)
Theorem C65_root_refuted : exists t b s p, in_use keep counting no_nesting ["root_v"] (t, b, s) p /\ idle_calls p <> [] /\
  forall k, Nat.iter k (fun z => fst (run_idle (fst z) (snd z))) (s, p) = (s, p).
Proof. exact busy_forever. Qed.
Print Assumptions C65_root_refuted.

(** C66. Every row has exactly one place; the path given to callbacks when a row is
    opened or closed is the path of its node; selected rows are found again, as nodes
    and as the data of a drag. Whatever addresses rows get. *)
Theorem C66_places : forall ord pf, faithful pf -> forall start asked x p, in_use ord pf start asked x p ->
  (forall r, In r (rows (store p)) -> exists ix, indices (r_addr r) (store p) = Some ix /\ forall jx, row_for jx (store p) = Some r <-> jx = ix) /\
  (forall ix r, row_for ix (store p) = Some r -> In r (rows (store p)) /\ (exists l, at_path (rows (store p)) r l) /\ forall l, at_path (rows (store p)) r l -> emitted ix (store p) = Ok l) /\
  (forall paths rs, map (fun ix => row_for ix (store p)) paths = map Some rs ->
    drag_data paths (store p) = Ok paths /\ ids_at paths (store p) = Ok (map r_id rs)).
Proof. exact any_places. Qed.
Print Assumptions C66_places.
(** C66. A path that leads to no row raises ValueError, alone or among others. *)
Theorem C66_missing : forall g paths ix, In ix paths -> row_for ix g = None ->
  ids_at paths g = Err ValueError /\ drag_data paths g = Err ValueError /\ (ix <> [] -> emitted ix g = Err ValueError).
Proof. exact missing_rows. Qed.
Print Assumptions C66_missing.
Example C66_missing_example : In [0; 9] [[0; 0]; [0; 9]; [2]] /\ row_for [0; 9] (store (snd wend)) = None /\ ids_at [[0; 0]; [2]] (store (snd wend)) = Ok ["X"; "Z"].
Proof. exact case_missing. Qed.
Example C66_reuse_example : faithful lowest /\ in_use keep lowest anything ["A"] (fst (fst (fst wend)), snd (fst (fst wend)), snd (fst wend)) (snd wend) /\
  view_path (snd (fst wend)) ["B"; "X"] /\ rows (store (snd wend)) = grows /\
  indices 4 (store (snd wend)) = Some [0; 0] /\ option_map r_id (row_for [0; 0] (store (snd wend))) = Some "X" /\
  emitted [0; 0] (store (snd wend)) = Ok ["A"; "X"] /\
  map (fun ix => row_for ix (store (snd wend))) [[0; 0]; [2]] = map Some [mkRow 4 (Some 0) "X" (Some 1); mkRow 1 None "Z" (Some 1)].
Proof. exact wrong_places. Qed.
Example C66_places_example : faithful counting /\ never_reuses counting /\
  in_use keep counting anything ["h"; "e"] (fst (fst (fst uend)), snd (fst (fst uend)), snd (fst uend)) (snd uend) /\
  indices 28 (store (snd uend)) = Some [0; 1; 0] /\ option_map r_id (row_for [0; 1; 0] (store (snd uend))) = Some "i" /\
  emitted [0; 1; 0] (store (snd uend)) = Ok ["a"; "h"; "i"] /\
  map (fun ix => row_for ix (store (snd uend))) [[1; 0]; [0]] = map Some [row_f; row_a].
Proof. exact case_places. Qed.
