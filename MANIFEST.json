{
 "claims": [
  {
   "property": "C01",
   "status": "proved",
   "theorems": [
    "C01_acyclic"
   ],
   "note": "Every history of calls with newly built nodes, raising listeners included."
  },
  {
   "property": "C02",
   "status": "partial",
   "theorems": [
    "C02_calls_terminate_partial",
    "C02_refuted"
   ],
   "note": "Every history with any ids, every next call except a recursive deletion in a tree with a node called the empty string. There it is false: relations with the empty id are made without a check for circles, and the recursion does not end (in Python a RecursionError)."
  },
  {
   "property": "C03",
   "status": "partial",
   "theorems": [
    "C03_refused_iff_circular",
    "C03_accepted_exact",
    "C03_request_refused_partial",
    "C03_request_accepted_partial",
    "C03_empty_id_refuted",
    "C03_refused_changes_refuted"
   ],
   "note": "The condition of refusal and the effect of acceptance hold in every history for non-empty ids. That a refused request changes nothing is false after an id that is still listed as a child is used again, and is proved for the other histories."
  },
  {
   "property": "C04",
   "status": "partial",
   "theorems": [
    "C04_parents_reported_partial",
    "C04_children_reported_partial",
    "C04_agree_partial",
    "C04_children_refuted",
    "C04_disabled_refuted"
   ],
   "note": "False in general (two witnesses); proved for histories without those causes."
  },
  {
   "property": "C05",
   "status": "partial",
   "theorems": [
    "C05_root_exact_partial",
    "C05_reached_from_root_partial",
    "C05_twice_refuted",
    "C05_lost_refuted"
   ],
   "note": "False in general (a node twice in the root without any exception); proved when no id that is still listed is used again."
  },
  {
   "property": "C06",
   "status": "proved",
   "theorems": [
    "C06_delete_frame"
   ],
   "note": ""
  },
  {
   "property": "C07",
   "status": "partial",
   "theorems": [
    "C07_delete_condition",
    "C07_tidy_never_raises_partial",
    "C07_recursive_never_raises_partial",
    "C07_refuted"
   ],
   "note": "False in general; the exact condition is proved."
  },
  {
   "property": "C08",
   "status": "proved",
   "theorems": [
    "C08_recursive_exact",
    "C08_recursive_exact_flags"
   ],
   "note": ""
  },
  {
   "property": "C09",
   "status": "partial",
   "theorems": [
    "C09_declared_partial",
    "C09_kept_partial",
    "C09_built_partial",
    "C09_refuted"
   ],
   "note": "Proved for non-empty ids when deletions in between do not raise. False for the empty id: the relation is dropped."
  },
  {
   "property": "C10",
   "status": "partial",
   "theorems": [
    "C10_break_exact_partial",
    "C10_refuted",
    "C10_root_refuted"
   ],
   "note": "Proved for trees without a node called the empty string or root; false for both."
  },
  {
   "property": "C11",
   "status": "partial",
   "theorems": [
    "C11_move_away",
    "C11_move_partial",
    "C11_refuted",
    "C11_move_exact",
    "C11_move_idle"
   ],
   "note": "False for nodes with several parents and a destination in the tree. C11_move_exact says exactly which parents stay (every second one, and the destination), for every ordinary tree; moves to the root and to nodes not in the tree yet are right."
  },
  {
   "property": "C12",
   "status": "partial",
   "theorems": [
    "C12_paths_exact_partial",
    "C12_node_for_path_partial",
    "C12_refuted"
   ],
   "note": "Proved for trees without a node called the empty string or root; false there, such nodes are left out of paths."
  },
  {
   "property": "C13",
   "status": "partial",
   "theorems": [
    "C13_next_sibling_partial",
    "C13_next_of_root_partial",
    "C13_refuted"
   ],
   "note": "False after the deletion of a node with several parents; proved otherwise."
  },
  {
   "property": "C14",
   "status": "proved",
   "theorems": [
    "C14_events_tell_nodes",
    "C14_refuted"
   ],
   "note": "An addition that raises tells nothing (C14_refuted); all other calls do."
  },
  {
   "property": "C15",
   "status": "proved",
   "theorems": [
    "C15_register",
    "C15_deregister"
   ],
   "note": "Every sequence of registrations and deregistrations."
  },
  {
   "property": "C16",
   "status": "proved",
   "theorems": [
    "C16_exactly_once_in_order",
    "C16_log_exact",
    "C16_refused"
   ],
   "note": "Any requests, any interleaving of pushes, calls of the creating thread and turns of the main loop. C16_refused: a request is dropped exactly when an equal one waits."
  },
  {
   "property": "C17",
   "status": "proved",
   "theorems": [
    "C17_highest_first"
   ],
   "note": "Any state of the queue."
  },
  {
   "property": "C18",
   "status": "proved",
   "theorems": [
    "C18_armed",
    "C18_drains"
   ],
   "note": "For requests that do not raise; see C19 for those that do."
  },
  {
   "property": "C19",
   "status": "partial",
   "theorems": [
    "C19_raising_alone_partial",
    "C20_batch",
    "C19_refuted"
   ],
   "note": "False: a request that raises while another waits stops the queue for ever. Proved when nothing else waits at that moment. C20_batch: exactly which requests are executed and which wait for ever."
  },
  {
   "property": "C20",
   "status": "partial",
   "theorems": [
    "C20_same_priority_partial",
    "C20_batch",
    "C20_defaults",
    "C20_priorities_refuted",
    "C20_duplicates_refuted",
    "C20_effects"
   ],
   "note": "False with the default priorities and with repeated requests; proved for different requests of one priority. C20_batch and C20_defaults: the order, the effect and the rest for any requests that wait together."
  },
  {
   "property": "C21",
   "status": "proved",
   "theorems": [
    "C21_immediate"
   ],
   "note": "Outside the execution of another request."
  },
  {
   "property": "C22",
   "status": "partial",
   "theorems": [
    "C22_rebuilt_partial",
    "C22_disabled_refuted"
   ],
   "note": "Proved for all ordinary trees (calm histories), arbitrary filters and any consistent view before. False when a parent's children flag is disabled while a relation is pending: refilter never visits that child."
  },
  {
   "property": "C23",
   "status": "proved",
   "theorems": [
    "C23_exact"
   ],
   "note": "Supported calls: calm tree calls, new nodes not named like an event or the view's root, recursive deletion only where Spec.tame holds (always when no deleted node has more than three parents), filters of the node's own data, applied filters not changed through the bank."
  },
  {
   "property": "C24",
   "status": "proved",
   "theorems": [
    "C24_structure"
   ],
   "note": "Same histories as C23."
  },
  {
   "property": "C25",
   "status": "proved",
   "theorems": [
    "C25_signals",
    "C25_from_start"
   ],
   "note": "Same histories as C23."
  },
  {
   "property": "C26",
   "status": "proved",
   "theorems": [
    "C26_no_error",
    "C26_no_error_at_start"
   ],
   "note": "Same histories as C23."
  },
  {
   "property": "C27",
   "status": "partial",
   "theorems": [
    "C27_ancestors_refuted",
    "C27_flat_partial",
    "C27_forest_partial"
   ],
   "note": "False in general (witness: a filter looking at ancestors on a diamond, KeyError). Proved for every flat view, and for every other view while no node of the tree has two parents: any filters, any history of tree calls, no exception and no loop. Missing: non-flat views of trees with several parents per node."
  },
  {
   "property": "C28",
   "status": "partial",
   "theorems": [
    "C28_postponed_refuted",
    "C27_flat_partial",
    "C28_flat_consistent_partial",
    "C28_flat_announced_partial",
    "C28_flat_refilter_partial",
    "C27_forest_partial",
    "C28_forest_consistent_partial",
    "C28_forest_announced_partial",
    "C28_forest_refilter_partial"
   ],
   "note": "False in general (witness: apply_filter with refresh=False, then one node announced, ValueError). Proved for every flat view, and for every other view while no node of the tree has two parents: filters and bank exchanged at will without refresh, any tree calls; no exception, the view stays consistent and mirrored, the node announced last is right, and refilter brings the view up to date. Missing: non-flat views of trees with several parents per node."
  },
  {
   "property": "C29",
   "status": "partial",
   "theorems": [
    "C29_paths",
    "C29_lookup",
    "C29_valid_partial",
    "C29_valid_refuted",
    "C29_valid_exact"
   ],
   "note": "get_paths_for_node and get_node_for_path proved for all consistent views; is_path_valid also accepts the empty path and chains not starting at the virtual root (refuted), exact for root-prefixed arguments. C29_valid_exact: exactly what is_path_valid accepts, for every view."
  },
  {
   "property": "C30",
   "status": "proved",
   "theorems": [
    "C30_current_state"
   ],
   "note": "For consistent views in which no action waits for a displayed node and no node is named like an event; both hold in every supported history (C38_once, C39)."
  },
  {
   "property": "C31",
   "status": "proved",
   "theorems": [
    "C31_flat"
   ],
   "note": "Same histories as C23."
  },
  {
   "property": "C32",
   "status": "proved",
   "theorems": [
    "C32_orders"
   ],
   "note": "Same histories as C23; the whole list of calls is replayed under both orders."
  },
  {
   "property": "C33",
   "status": "proved",
   "theorems": [
    "C33_quiet"
   ],
   "note": "Every up-to-date view of an ordinary tree (calm histories), arbitrary filters."
  },
  {
   "property": "C34",
   "status": "proved",
   "theorems": [
    "C34_recursive",
    "C34_direct"
   ],
   "note": "Every consistent view and every node, None meaning the virtual root."
  },
  {
   "property": "C35",
   "status": "proved",
   "theorems": [
    "C35_nodes"
   ],
   "note": "Every consistent view whose nodes are in the tree; unknown names are ignored."
  },
  {
   "property": "C36",
   "status": "proved",
   "theorems": [
    "C36_applied",
    "C36_order",
    "C36_unknown"
   ],
   "note": "Parameters given to known filters only (otherwise apply_filter raises). That the displayed nodes are the satisfying ones is C22 and C23."
  },
  {
   "property": "C37",
   "status": "partial",
   "theorems": [
    "C37_independent_partial",
    "C37_parameters_refuted"
   ],
   "note": "False when parameters are given to a filter that the other view applies too, because the filter object is shared."
  },
  {
   "property": "C38",
   "status": "proved",
   "theorems": [
    "C38_once",
    "C38_queue"
   ],
   "note": "Same histories as C23."
  },
  {
   "property": "C39",
   "status": "partial",
   "theorems": [
    "C39_ids_partial",
    "C39_event_name_refuted",
    "C39_root_name_refuted"
   ],
   "note": "False for added/deleted/modified/reordered (TypeError) and for the name of the view's virtual root (never shown)."
  },
  {
   "property": "C40",
   "status": "partial",
   "theorems": [
    "C40_count_partial",
    "C40_silent_partial",
    "C40_parameters_refuted",
    "C40_unapply",
    "C40_any_silent",
    "C40_apply",
    "C40_contains",
    "C40_unrefreshed_refuted",
    "C40_root_refuted",
    "C40_removed_refuted"
   ],
   "note": "Exact after any calls for counts made with refresh and filters on a node's own data (C40_count_partial, C40_silent_partial), except in the cases that are refuted: parameters of an applied filter change, a count made without refresh, the data of a node called root, an applied filter removed from the bank (AttributeError). Taking a filter back makes every count exact, with any filters, parameters and refresh flags before (C40_unapply), and so does applying a filter with refresh for filters on own data (C40_apply); in between a refreshed count misses no node (C40_contains). Filters that look at other nodes: exact right after unapply_filter only."
  },
  {
   "property": "C41",
   "status": "proved",
   "theorems": [
    "C41_events",
    "C41_filters"
   ],
   "note": "Notifications and changes of filters, for each node that enters or leaves the count."
  },
  {
   "property": "C42",
   "status": "partial",
   "theorems": [
    "C42_refuted",
    "C42_always"
   ],
   "note": "False: unregister_cllbck always raises AttributeError and removes nothing. C42_always: in every state."
  },
  {
   "property": "C43",
   "status": "partial",
   "theorems": [
    "C43_lookup_partial",
    "C43_listing_partial",
    "C43_add_partial",
    "C43_remove_partial",
    "C43_has_partial",
    "C43_refuted",
    "C43_exclamation"
   ],
   "note": "Every sequence, for names that do not begin with an exclamation mark. Adding a name that does raises UnboundLocalError. C43_exclamation: always, and nothing changes, so the other calls decide everything."
  },
  {
   "property": "C44",
   "status": "proved",
   "theorems": [
    "C44_negate"
   ],
   "note": "For predicates that do not read the negate parameter themselves."
  },
  {
   "property": "C45",
   "status": "proved",
   "theorems": [
    "C45_same_view",
    "C45_same_count",
    "C45_different_views",
    "C45_anonymous",
    "C45_new_name"
   ],
   "note": "Any calls before and in between, the static main view included."
  },
  {
   "property": "C46",
   "status": "partial",
   "theorems": [
    "C46_mirror_partial",
    "C46_connect_partial",
    "C46_no_exception_partial",
    "C46_one_place_partial",
    "C46_whole_subtree",
    "C46_reuse_refuted",
    "C46_single_mirror_partial",
    "C46_single_connect_partial",
    "C46_single_no_exception_partial"
   ],
   "note": "True for every history of supported calls and every sorting of the rows when the memory allocator never gives the address of a removed row to a new row, and with any allocator for signals that put no node at two places; with any allocator and any signals, an obeyed deleted signal removes one row of the node with everything below and nothing else. False with address reuse: cached iterators of removed rows are never dropped, and the wrong row can be removed. With any allocator also for every history in which no node has two parents (C46_single_*)."
  },
  {
   "property": "C47",
   "status": "proved",
   "theorems": [
    "C47_compatible"
   ],
   "note": "Requests of two decimal numerals."
  },
  {
   "property": "C48",
   "status": "proved",
   "theorems": [
    "C48_objects",
    "C48_nodes",
    "C48_added"
   ],
   "note": "For every history, including calls that raise and listeners that raise."
  },
  {
   "property": "C49",
   "status": "proved",
   "theorems": [
    "C49_addition"
   ],
   "note": "For every history."
  },
  {
   "property": "C50",
   "status": "proved",
   "theorems": [
    "C50_disable_parents",
    "C50_disable_children",
    "C50_enable_parents",
    "C50_enable_children",
    "C50_answers"
   ],
   "note": "Ids other than the empty string and the id of the root."
  },
  {
   "property": "C51",
   "status": "proved",
   "theorems": [
    "C51_modify",
    "C51_data",
    "C51_refresh"
   ],
   "note": "For every tree."
  },
  {
   "property": "C52",
   "status": "proved",
   "theorems": [
    "C52_print"
   ],
   "note": "Histories in which C05 holds (ordinary calls)."
  },
  {
   "property": "C53",
   "status": "partial",
   "theorems": [
    "C53_children",
    "C53_has_child",
    "C53_nth_child",
    "C53_nth_none_refuted",
    "C53_parents",
    "C53_next",
    "C53_next_first",
    "C53_next_raises",
    "C53_print",
    "C53_nth_none_exact"
   ],
   "note": "Every consistent view. Fails for node_nth_child(None, i) on a filtered view, which raises KeyError instead of using the root. C53_nth_none_exact: it never gives a node."
  },
  {
   "property": "C54",
   "status": "partial",
   "theorems": [
    "C54_all_right_partial",
    "C54_nothing_raises_partial",
    "C54_interrupted",
    "C54_recursive_refuted",
    "C54_shared_refuted"
   ],
   "note": "Every sequence of calls that fit (SpecSys.fits), any number of views and counts. Fails for recursive deletions below which a node has four parents, and when one view gives parameters to a filter that another uses. Recursive deletions are covered where Spec.tame holds (always when no deleted node has more than three parents). Not covered: refresh=False, filters that look at other nodes, the enabled flags."
  },
  {
   "property": "C55",
   "status": "partial",
   "theorems": [
    "C55_children_partial",
    "C55_counts_partial",
    "C55_nodes_partial",
    "C55_parents_partial",
    "C55_nth_partial",
    "C55_has_child_partial",
    "C55_nth_refuted",
    "C55_has_child_refuted",
    "C55_answers",
    "C55_unknown"
   ],
   "note": "Every sequence of calls that fit. The child at a position and the test for children are false after a node with several parents was deleted; proved for nodes that list only nodes of the tree. Nodes that are not in the tree: C55_unknown."
  },
  {
   "property": "C56",
   "status": "partial",
   "theorems": [
    "C56_clients_partial",
    "C56_twice_refuted"
   ],
   "note": "Every sequence of calls that fit, every view. False when another client of the same view asks for the current state."
  },
  {
   "property": "C57",
   "status": "proved",
   "theorems": [
    "C57_modify",
    "C57_change",
    "C57_refresh"
   ],
   "note": "Every up-to-date view of an ordinary tree (calm histories), arbitrary filters; data changes with filters that look only at the data of the node, the node staying displayed."
  },
  {
   "property": "C58",
   "status": "partial",
   "theorems": [
    "C58_data_partial",
    "C58_reuse_refuted",
    "C58_none_refuted",
    "C58_single_partial"
   ],
   "note": "Every history of supported calls and every sorting of the rows when the allocator never gives the address of a removed row to a new row and the column function never returns None. False with address reuse: two cached iterators mean the same row, and the other row keeps old data. False for None: update_task does not store it, and the old value stays. With any allocator for histories in which no node has two parents."
  },
  {
   "property": "C59",
   "status": "partial",
   "theorems": [
    "C59_refused_partial",
    "C59_refused_refuted"
   ],
   "note": "False: set_parent removes the old parents first, so a node moved below itself raises and ends up at the top. Proved for nodes without parents; C11_move_exact says what a refused move does in general."
  },
  {
   "property": "C60",
   "status": "partial",
   "theorems": [
    "C60_order",
    "C60_columns",
    "C60_shown_refuted",
    "C60_builds_partial",
    "C60_builds_refuted",
    "C60_visible_partial",
    "C60_visible_refuted",
    "C60_set_visible_partial",
    "C60_names",
    "C60_exact",
    "C60_group",
    "C60_set_visible_exact"
   ],
   "note": "Order, numbers and values proved for all descriptions. False as stated: a first column with new_column=False is never shown, a column that sorts by a later one makes the constructor raise KeyError, and columns that share a Gtk column share its visibility (refuted). What is missing: exactly these cases. C60_exact, C60_group and C60_set_visible_exact say what happens for every description, shared Gtk columns included."
  },
  {
   "property": "C61",
   "status": "partial",
   "theorems": [
    "C61_function_partial",
    "C61_refused",
    "C61_shared_refuted",
    "C61_exact"
   ],
   "note": "False for descriptions that share a [type, function] list (refuted); proved for all others. A column that is not shown is refused with AttributeError. C61_exact: exactly the columns described by the same list get the function."
  },
  {
   "property": "C62",
   "status": "partial",
   "theorems": [
    "C62_targets",
    "C62_called_partial",
    "C62_root_refuted",
    "C62_empty_refuted"
   ],
   "note": "Targets: proved for every sequence of calls. Calls of the functions: proved for drops on a row with a destination, whatever addresses rows get; false for drops on the root (ignored) and for an empty drag (ValueError)."
  },
  {
   "property": "C63",
   "status": "partial",
   "theorems": [
    "C63_destination",
    "C63_one",
    "C63_drop_partial",
    "C63_all",
    "C63_single_one_partial",
    "C63_single_all_partial",
    "C63_refuted",
    "C63_twice_refuted",
    "C63_stale_refuted"
   ],
   "note": "Destination: proved for every widget in use, whatever addresses rows get. Drags of one row: proved for every widget in use. Several rows: no exception, only dragged nodes are moved, in order, and a row is left only if a node on its path was moved before; all are moved if no row lies at or below the node of one dragged before. False for a row dragged together with the row above it, and after set_dnd_name was called twice. Whatever addresses rows get, for trees in which no node has two parents (single). With an address used again during a drag of a row and one below it, a node nobody dragged is moved."
  },
  {
   "property": "C64",
   "status": "partial",
   "theorems": [
    "C64_built",
    "C64_rows",
    "C64_calls",
    "C64_any_rows",
    "C64_any_calls",
    "C64_open_partial",
    "C64_single_built_partial",
    "C64_single_rows_partial",
    "C64_single_calls_partial",
    "C64_single_open_partial",
    "C64_any_single_rows_partial",
    "C64_any_single_calls_partial",
    "C64_open_refuted",
    "C64_reuse_refuted",
    "C64_raises_refuted"
   ],
   "note": "Proved for widgets made of a view without nested nodes, with the rows compared exactly; rows, calls and exceptions for any widget. False for a widget made of a view with nested nodes: their rows are closed. Whatever addresses rows get, for trees in which no node has two parents (single). With a node below two parents and an address used again, a row is shown below the wrong node and a later call raises. C64_any_rows and C64_any_calls hold with expand_node and with rows opened and closed by hand in any way."
  },
  {
   "property": "C65",
   "status": "partial",
   "theorems": [
    "C65_closed_partial",
    "C65_single_partial",
    "C65_quotes_refuted",
    "C65_expand_refuted",
    "C65_root_refuted"
   ],
   "note": "Proved for ids without quotes at their ends. False for quoted ids; expand_node keeps nodes closed; the name of the root keeps the main loop busy. Whatever addresses rows get, for trees in which no node has two parents (single)."
  },
  {
   "property": "C66",
   "status": "proved",
   "theorems": [
    "C66_places",
    "C66_missing"
   ],
   "note": "Every row of every widget in use, whatever addresses rows get."
  },
  {
   "property": "C67",
   "status": "proved",
   "theorems": [
    "C67_stays",
    "C67_elsewhere",
    "C67_refilter_refuted",
    "C67_passing_refuted"
   ],
   "note": "Same histories as C23, calls on the tree. The two refuted theorems mark the limits: refreshing the filters deletes and adds everything, and paths that are there neither before nor after may come and go."
  },
  {
   "property": "C68",
   "status": "partial",
   "theorems": [
    "C68_rows_partial",
    "C68_reuse_refuted",
    "C68_single_partial"
   ],
   "note": "Every history of a connected Gtk model (as C46) with an allocator that does not use an address again; false otherwise (C68_reuse_refuted): the wrong row of a node is removed. With any allocator for histories in which no node has two parents."
  },
  {
   "property": "C69",
   "status": "proved",
   "theorems": [
    "C69_known",
    "C69_connect",
    "C69_between"
   ],
   "note": "a client that looks up everything it knows at each added or modified signal never fails"
  },
  {
   "property": "C70",
   "status": "proved",
   "theorems": [
    "C70_sorts",
    "C70_connect",
    "C70_sound",
    "C70_compares",
    "C70_separates",
    "C70_raises",
    "C70_unnamed"
   ],
   "note": "Every allocator, also one that gives out addresses again, as long as no call raised an exception. After a call that raised (possible only with such an allocator, C46_reuse_refuted) the Gtk model is out of step with the tree and nothing is claimed."
  },
  {
   "property": "C71",
   "status": "partial",
   "theorems": [
    "C71_calls_partial",
    "C71_places_partial",
    "C71_refreshed_partial",
    "C71_refuted",
    "C71_single_calls_partial",
    "C71_single_places_partial",
    "C71_single_refreshed_partial"
   ],
   "note": "Calls and places proved for allocators that never reuse an address. The values are those of the new function after refresh_all, for functions that never return None. Refuted before refresh_all: existing rows keep the values of the old function. With any allocator for histories in which no node has two parents (C71_single_*)."
  },
  {
   "property": "C72",
   "status": "partial",
   "theorems": [
    "C72_look",
    "C72_unset",
    "C72_row_partial",
    "C72_unknown_refuted"
   ],
   "note": "Proved for every drawing order and cache content when the colour is known. Refuted for an unknown colour name: AttributeError, and the cell keeps the colours of the row drawn before."
  },
  {
   "property": "C73",
   "status": "partial",
   "theorems": [
    "C73_headers_partial",
    "C73_headers_refuted",
    "C73_initial",
    "C73_report",
    "C73_initial_refuted",
    "C73_set_partial",
    "C73_click_refuted",
    "C73_unknown_refuted",
    "C60_exact",
    "C60_group"
   ],
   "note": "Headers proved when all columns begin a Gtk column, refuted for shared ones. get_sort_column reports the last column set (or the initial one), which is right after set_sort_column of a known column; refuted for a new widget, after a click on a header and after an unknown name. C60_exact and C60_group: what a header sorts by, for every description."
  },
  {
   "property": "C74",
   "status": "partial",
   "theorems": [
    "C74_lists",
    "C74_signals",
    "C74_view_partial",
    "C74_reuse_refuted",
    "C74_single_partial"
   ],
   "note": "Proved for every store whose rows form a forest and for every store that signals made, with any allocator. That the lines are those of the paths of the view, depth first, is proved for allocators that never reuse an address, and false for others (C74_reuse_refuted). With any allocator for histories in which no node has two parents."
  },
  {
   "property": "C75",
   "status": "partial",
   "theorems": [
    "C75_rows_refuted",
    "C75_removal_refuted",
    "C75_triples",
    "C75_removals"
   ],
   "note": "False, for every widget: a second show() makes two more rows for each row (C75_triples), and every later call that removes a path from the view raises (C75_removals). Nothing remains to be proved positively."
  },
  {
   "property": "C76",
   "status": "proved",
   "theorems": [
    "C76_acyclic",
    "C76_walk"
   ],
   "note": "In the model Objects.v, where node objects have addresses and callbacks call the tree. Only objects that were never in the tree are added (see C77)."
  },
  {
   "property": "C77",
   "status": "partial",
   "theorems": [
    "C77_circle_refuted",
    "C77_acyclic_partial",
    "C77_walk_partial",
    "C77_parents_partial"
   ],
   "note": "False: removed objects keep relations, and adding them again can close a circle after which a relation hangs. Proved without recursive deletions and for callbacks that only look."
  },
  {
   "property": "C78",
   "status": "partial",
   "theorems": [
    "C78_lost_refuted",
    "C78_twice_refuted",
    "C78_deletion_refuted",
    "C78_sequential_partial",
    "C78_tree_partial",
    "C78_root_partial"
   ],
   "note": "False for callbacks that act on 'node-modified' during a deletion. Proved for callbacks that act at the end of a call: the end is that of the same calls one after the other, and the tree is one that the main-tree model makes, so the main-tree theorems (C01-C20) hold for it."
  },
  {
   "property": "C79",
   "status": "partial",
   "theorems": [
    "C79_uptodate_partial",
    "C79_no_error_partial",
    "C79_delete_refuted",
    "C79_data_refuted",
    "C79_structure_refuted"
   ],
   "note": "Proved for histories with any relations, additions, data changes and deletions of nodes with at most one parent, and exchanges of filters with refresh, where each filter depends on the node's data and the ids of its children, or wants something of the node and that no child is busy (leaves, tasks without open subtask), and the view is flat or has a filter of the second kind. Refuted for deletion of nodes with two parents, for other filters that look at the children's data, and for views with displayed children of displayed nodes."
  },
  {
   "property": "C80",
   "status": "partial",
   "theorems": [
    "C80_silent",
    "C80_untroubled",
    "C80_first",
    "C80_flat_consistent_partial",
    "C80_flat_errors_partial",
    "C80_flat_announced_partial",
    "C80_flat_recovers_partial",
    "C80_flat_refresh_errors_partial",
    "C80_refuted"
   ],
   "note": "False for views that are not flat: C80_refuted gives two calls during which a filter raises, after which every refilter raises KeyError. For flat views the property holds whatever the filters raise and whenever (C80_flat_*). For all views: a call during which nothing happens to raise is the call of the model without exceptions, and an exception at the first announced node leaves the view as it was."
  },
  {
   "property": "C81",
   "status": "partial",
   "theorems": [
    "C81_same",
    "C81_told",
    "C81_refresh",
    "C81_flat_consistent_partial",
    "C81_flat_errors_partial",
    "C81_flat_announced_partial",
    "C81_flat_recovers_partial",
    "C81_refuted",
    "C81_deep_refuted",
    "C81_action_refuted"
   ],
   "note": "The exception reaches the caller, and the signals up to it are those of the undisturbed call (all views). The view stays usable if it is flat and clients raise only when nodes are added or modified. Refuted for clients that raise when a node is deleted (no refresh ever works again), for views that are not flat, and for queued actions that raise."
  },
  {
   "property": "C82",
   "status": "proved",
   "theorems": [
    "C82_announced",
    "C82_place"
   ],
   "note": "For the client any list of paths that are those of the view before the call. C82_two_parents shows that the condition is needed."
  },
  {
   "property": "C83",
   "status": "partial",
   "theorems": [
    "C83_knows_partial",
    "C83_late_refuted",
    "C83_earlier_refuted",
    "C83_addition_refuted",
    "C83_widget_blank",
    "C83_widget_refuted"
   ],
   "note": "A client that keeps a list of nodes from node-added, node-deleted and node-modified of the main view has exactly the nodes of the tree after every call (C83_knows_partial), also when it connects late, asks for the current state and takes a modified unknown node as new, and also when a function registered after it raises and cuts a call short. False in general: get_current_state of the main view sends only modifications (C83_late_refuted), a function registered earlier that raises hides the event (C83_earlier_refuted), an addition that raises is not announced (C83_addition_refuted), and a TreeModel made of the main view registers for events that the main view never sends, so its store stays empty for ever (C83_widget_blank, C83_widget_refuted). Functions do not call the library back."
  },
  {
   "property": "C84",
   "status": "partial",
   "theorems": [
    "C84_exact",
    "C84_before_partial",
    "C84_repair_partial",
    "C84_later_refuted",
    "C84_count_refuted",
    "C84_lost_refuted"
   ],
   "note": "Who has heard what when a function of the application (on the main view or on a count) raises is proved exactly, for every library. Those before it are right when it raises at the last event of the call; the others stay as they were, and for calls with one event refilter makes every view right. False: the others are behind, a count that missed a deletion stays wrong for ever, and a deletion cut short leaves nodes that no refilter finds. Missing: the views and counts before the raising one when it raises at an earlier event."
  },
  {
   "property": "C85",
   "status": "partial",
   "theorems": [
    "C85_right_partial",
    "C85_reach_partial",
    "C85_stop",
    "C85_asked",
    "C85_called",
    "C85_refuted"
   ],
   "note": "False in general: a change that raises (a circle) while others wait takes the main loop's source away, and a node added by another thread never appears (C85_refuted). For every interleaving of the threads, of calls of the creating thread and of turns of the main loop, the library is where the completed calls lead and every view and count shows the tree, if these calls fit (C85_right_partial); what waits reaches the views after as many turns if nothing of it raises (C85_reach_partial); where something raises, exactly the calls up to it are made and the others wait (C85_stop). A request changes nothing by itself and waits behind those of its priority unless the same one waits there already (C85_asked); a call of the creating thread is made at once (C85_called). Left out: calls that functions of the application make inside another call, and node objects changed directly by other threads."
  },
  {
   "property": "C86",
   "status": "partial",
   "theorems": [
    "C86_same_partial",
    "C86_told_partial",
    "C86_flags_refuted",
    "C86_circle_refuted",
    "C86_between_refuted",
    "C86_race_refuted"
   ],
   "note": "False in general. Proved for every tree and every method when nothing waits in the queue at the call; excluded are set_parents_enabled(False) and moves to the id of the root. What listeners hear is the same for calls that do not take several relations away. Missing: calls made while other requests wait; pending relations are compared up to order."
  },
  {
   "property": "C87",
   "status": "partial",
   "theorems": [
    "C87_opens_partial",
    "C87_waits",
    "C87_comes",
    "C87_idle_partial",
    "C87_single_opens_partial",
    "C87_single_comes_partial",
    "C87_single_idle_partial",
    "C87_refuted"
   ],
   "note": "False in general: rows below closed rows are not opened. Proved whatever was opened and closed before: for a displayed node exactly its rows that are in sight and have rows below them are opened; for another node an action waits, becomes a callback of the main loop with the call that displays the node, and the callback then opens the same rows. For allocators that do not use an address again, and for all allocators when no node has two parents (single)."
  },
  {
   "property": "C88",
   "status": "proved",
   "theorems": [
    "C88_nodes",
    "C88_rows",
    "C88_parents",
    "C88_paths",
    "C88_missing"
   ],
   "note": "For every view that shows what it should (shows, the conclusion of C54 and C85): nodes (C88_nodes), children, numbers, positions and next nodes (C88_rows), parents (C88_parents), paths (C88_paths), nodes that are not shown (C88_missing). The child at a position at the top (None) raises, see C53_nth_none_refuted."
  },
  {
   "property": "C89",
   "status": "proved",
   "theorems": [
    "C89_closes",
    "C89_waits",
    "C89_comes",
    "C89_idle",
    "C89_refused",
    "C89_single_closes",
    "C87_single_comes_partial",
    "C89_single_idle"
   ],
   "note": "For widgets in any state, with rows opened and closed by hand, and allocators that do not use an address again; for all allocators when no node has two parents (single; C87_single_comes_partial is about collapse_node as well). The rows to be closed are those at a path with the node on it."
  },
  {
   "property": "C90",
   "status": "proved",
   "theorems": [
    "C90_stays",
    "C90_idle",
    "C90_single_stays",
    "C90_single_idle"
   ],
   "note": "For allocators that do not use an address again; for all allocators when no node has two parents (single). Histories before may open rows by hand and call expand_node (C65 excludes this); only rows of the store may be open when collapse_node is called."
  },
  {
   "property": "C91",
   "status": "proved",
   "theorems": [
    "C91_lasts",
    "C91_opens",
    "C91_rows",
    "C91_single_lasts",
    "C91_single_opens",
    "C91_single_rows"
   ],
   "note": "For allocators that do not use an address again; for all allocators when no node has two parents (single). C91_opens for widgets in which only rows of the store are open, which holds from the beginning and is kept by everything but opening by hand what is no row (C91_rows)."
  },
  {
   "property": "C92",
   "status": "proved",
   "theorems": [
    "C92_steady",
    "C92_single_steady",
    "C92_sight",
    "C92_single_sight"
   ],
   "note": "For allocators that do not use an address again; for any allocator while no node has two parents."
  }
 ]
}
