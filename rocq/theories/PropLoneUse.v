(** Property theorems about the widget on trees in which no node has two parents, with
    any allocator of rows (C63 to C65). Nothing else in this file. *)
From Coq Require Import Permutation.
From Verif Require Import Base MainTree Spec Filters FTree SpecApi SpecView SpecViewing Gtk SpecGtk Widget SpecWidget SpecLone
  Witness ApiWitness ViewWitness GtkWitness WidgetWitness LoneWidget LoneWidgetCases.

(** C63. Dragging one row is move_node of its node, whatever addresses rows get. What is
    missing: trees in which a node has two parents. *)
Theorem C63_single_one_partial : forall ord pf, (forall k l, Permutation (ord k l) l) -> faithful pf ->
  forall start asked t b s p info dest ix r, in_use_single ord pf start asked (t, b, s) p ->
  destination info (store p) = Ok dest -> row_for ix (store p) = Some r ->
  exists p', drop_here pf ord info [ix] (t, b, s) p = (fst (view_call ord (VTree (MoveNode (r_id r) dest)) (t, b, s)), p', Ok tt).
Proof. exact usingle_drop_one. Qed.
Print Assumptions C63_single_one_partial.
Example C63_single_one_example : faithful lowest /\ in_use_single keep lowest anything ["Y"; "B"] (fst (fst (fst lend)), snd (fst (fst lend)), snd (fst lend)) (snd lend) /\
  destination (Some ([1], Into)) (store (snd lend)) = Ok (Some "B") /\ rows_for [[0; 0]; [0; 1]] (store (snd lend)) = [row_Y; row_X] /\
  apart (rows (store (snd lend))) [row_Y; row_X] /\
  map (fun r => (r_addr r, r_id r, r_parent r)) (rows (store (snd lapart))) =
    [(0, "A", None); (3, "B", None); (6, "W", Some 3); (2, "Y", Some 3); (5, "V", Some 2); (1, "X", Some 3); (4, "U", Some 1)].
Proof. exact lone_apart. Qed.

(** C63. When no dragged row lies at or below the node of one dragged before, all are
    moved, one after the other, whatever addresses rows get, and the widget stays in
    use. What is missing: rows dragged together with a row above them (false, see
    below), and trees in which a node has two parents. *)
Theorem C63_single_all_partial : forall ord pf, (forall k l, Permutation (ord k l) l) -> faithful pf ->
  forall start asked t b s p info dest data, in_use_single ord pf start asked (t, b, s) p ->
  destination info (store p) = Ok dest -> apart (rows (store p)) (rows_for data (store p)) ->
  exists s' p', drop_here pf ord info data (t, b, s) p = (moved (map r_id (rows_for data (store p))) dest t, b, s', p', Ok tt) /\
    in_use_single ord pf start asked (moved (map r_id (rows_for data (store p))) dest t, b, s') p'.
Proof. exact usingle_drop_all. Qed.
Print Assumptions C63_single_all_partial.
Example C63_single_all_example : faithful lowest /\ in_use_single keep lowest anything ["Y"; "B"] (fst (fst (fst lend)), snd (fst (fst lend)), snd (fst lend)) (snd lend) /\
  destination (Some ([1], Into)) (store (snd lend)) = Ok (Some "B") /\ rows_for [[0; 0]; [0; 1]] (store (snd lend)) = [row_Y; row_X] /\
  apart (rows (store (snd lend))) [row_Y; row_X] /\
  map (fun r => (r_addr r, r_id r, r_parent r)) (rows (store (snd lapart))) =
    [(0, "A", None); (3, "B", None); (6, "W", Some 3); (2, "Y", Some 3); (5, "V", Some 2); (1, "X", Some 3); (4, "U", Some 1)].
Proof. exact lone_apart. Qed.

(** C63 fails when an address is used again while rows are moved: of two dragged rows
    the second one is below the first, and a third node is moved that nobody dragged. *)
Theorem C63_stale_refuted : exists t b s p t' b' s' p' info data, faithful lowest /\ in_use_single keep lowest anything ["Y"; "B"] (t, b, s) p /\
  destination info (store p) = Ok (Some "B") /\ map r_id (rows_for data (store p)) = ["A"; "X"] /\
  drop_here lowest keep info data (t, b, s) p = (t', b', s', p', Ok tt) /\
  get_parents t "Y" = ["A"] /\ get_parents t' "Y" = ["B"] /\ get_parents t' "X" = ["A"].
Proof. exact dragged_wrong. Qed.
Print Assumptions C63_stale_refuted.

(** C64. A widget can be made of any view with no exception, whatever addresses rows
    get. What is missing: trees in which a node has two parents. *)
Theorem C64_single_built_partial : forall ord pf, (forall k l, Permutation (ord k l) l) -> faithful pf ->
  forall x, viewing ord x -> one_parent (base_tree x) -> (forall n a, In a (waiting (snd x) n) -> 2 <= a) ->
  exists t b s p, build_panel pf x = (t, b, s, p, Ok tt) /\ expanded p = [] /\ forall q, view_path s q <-> view_path (snd x) q.
Proof. exact usingle_build. Qed.
Print Assumptions C64_single_built_partial.
Example C64_single_built_example : faithful lowest /\ viewing keep gview /\ one_parent (base_tree gview) /\ (forall n, waiting (snd gview) n = []) /\
  in_use_single keep lowest anything ["Y"; "B"] (fst (fst (fst lend)), snd (fst (fst lend)), snd (fst lend)) (snd lend) /\
  supported (fst lend) (VTree (DelNode "A" true)) /\ one_parent (base_tree (fst (view_call keep (VTree (DelNode "A" true)) (fst lend)))) /\
  rows (store (snd (fst (panel_call lowest keep (VTree (DelNode "A" true)) (fst lend) (snd lend))))) = [row_B; row_W].
Proof. exact lone_calls. Qed.

(** C64. The rows of a widget in use are the paths of its view, whatever addresses rows
    get. What is missing: trees in which a node has two parents. *)
Theorem C64_single_rows_partial : forall ord pf, (forall k l, Permutation (ord k l) l) -> faithful pf ->
  forall start asked t b s p, in_use_single ord pf start asked (t, b, s) p -> shows (rows (store p)) (view_path s).
Proof. exact usingle_shows. Qed.
Print Assumptions C64_single_rows_partial.
Example C64_single_rows_example : faithful lowest /\ (exists k live live', address lowest k live = address lowest (S k) live') /\
  in_use_single keep lowest no_nesting ["Y"; "B"] (fst (fst (fst lend)), snd (fst (fst lend)), snd (fst lend)) (snd lend) /\
  idle_calls (snd lend) = [] /\ rows (store (snd lend)) = lrows /\
  (at_path lrows row_X ["A"; "X"] /\ has_below lrows row_X /\ is_open (snd lend) row_X) /\
  (at_path lrows row_Y ["A"; "Y"] /\ has_below lrows row_Y /\ ~ is_open (snd lend) row_Y).
Proof. exact lone_open. Qed.

(** C64. A widget in use does not raise and does not change what calls do, whatever
    addresses rows get. What is missing: trees in which a node has two parents. *)
Theorem C64_single_calls_partial : forall ord pf, (forall k l, Permutation (ord k l) l) -> faithful pf ->
  forall start asked t b s p, in_use_single ord pf start asked (t, b, s) p ->
  (forall c, supported (t, b, s) c -> (forall n a, c = VQueue n a -> 2 <= a) -> one_parent (base_tree (fst (view_call ord c (t, b, s)))) ->
    exists p', panel_call pf ord c (t, b, s) p = (fst (view_call ord c (t, b, s)), p', Ok tt)) /\
  (forall above n, strip n <> "" -> exists s' p', collapse_node false (above ++ [n]) s p = (s', p', Ok tt) /\ fnodes s' = fnodes s) /\
  (exists s' p', run_idle s p = (s', p', Ok tt) /\ fnodes s' = fnodes s /\
    forall n o rest, idle_calls p = (n, o) :: rest -> n <> froot s -> idle_calls p' = rest).
Proof. exact usingle_fine. Qed.
Print Assumptions C64_single_calls_partial.
Example C64_single_calls_example : faithful lowest /\ viewing keep gview /\ one_parent (base_tree gview) /\ (forall n, waiting (snd gview) n = []) /\
  in_use_single keep lowest anything ["Y"; "B"] (fst (fst (fst lend)), snd (fst (fst lend)), snd (fst lend)) (snd lend) /\
  supported (fst lend) (VTree (DelNode "A" true)) /\ one_parent (base_tree (fst (view_call keep (VTree (DelNode "A" true)) (fst lend)))) /\
  rows (store (snd (fst (panel_call lowest keep (VTree (DelNode "A" true)) (fst lend) (snd lend))))) = [row_B; row_W].
Proof. exact lone_calls. Qed.

(** C64. A row with rows below it is open exactly if no node on its path was to be
    collapsed, whatever addresses rows get: a row is not taken for one that had its
    address before. What is missing: a widget made of a view with nested nodes (false),
    and trees in which a node has two parents. *)
Theorem C64_single_open_partial : forall ord pf, (forall k l, Permutation (ord k l) l) -> faithful pf ->
  forall asked t b s p, in_use_single ord pf no_nesting asked (t, b, s) p -> idle_calls p = [] ->
  forall r l, at_path (rows (store p)) r l -> (is_open p r <-> has_below (rows (store p)) r /\ forall n, In n l -> ~ In n asked).
Proof. exact usingle_exact. Qed.
Print Assumptions C64_single_open_partial.
Example C64_single_open_example : faithful lowest /\ (exists k live live', address lowest k live = address lowest (S k) live') /\
  in_use_single keep lowest no_nesting ["Y"; "B"] (fst (fst (fst lend)), snd (fst (fst lend)), snd (fst lend)) (snd lend) /\
  idle_calls (snd lend) = [] /\ rows (store (snd lend)) = lrows /\
  (at_path lrows row_X ["A"; "X"] /\ has_below lrows row_X /\ is_open (snd lend) row_X) /\
  (at_path lrows row_Y ["A"; "Y"] /\ has_below lrows row_Y /\ ~ is_open (snd lend) row_Y).
Proof. exact lone_open. Qed.

(** C65. A node that was to be collapsed is closed, whatever addresses rows get. What is
    missing: ids with quotes at their ends (false), and trees in which a node has two
    parents. *)
Theorem C65_single_partial : forall ord pf, (forall k l, Permutation (ord k l) l) -> faithful pf ->
  forall start asked t b s p, in_use_single ord pf start asked (t, b, s) p -> idle_calls p = [] ->
  forall r l n, at_path (rows (store p)) r l -> In n l -> In n asked -> ~ is_open p r.
Proof. exact usingle_closed. Qed.
Print Assumptions C65_single_partial.
Example C65_single_example : faithful lowest /\ (exists k live live', address lowest k live = address lowest (S k) live') /\
  in_use_single keep lowest no_nesting ["Y"; "B"] (fst (fst (fst lend)), snd (fst (fst lend)), snd (fst lend)) (snd lend) /\
  idle_calls (snd lend) = [] /\ rows (store (snd lend)) = lrows /\
  (at_path lrows row_X ["A"; "X"] /\ has_below lrows row_X /\ is_open (snd lend) row_X) /\
  (at_path lrows row_Y ["A"; "Y"] /\ has_below lrows row_Y /\ ~ is_open (snd lend) row_Y).
Proof. exact lone_open. Qed.
