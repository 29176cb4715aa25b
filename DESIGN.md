# Formal model of liblarch in Rocq (Coq 8.16.1)

Source: /repo (getting-things-gnome/liblarch), read as text, never run.
Everything lives in `rocq/theories`, logical name `Verif`, standard library only.

## Approach

The model is a set of total, executable Gallina functions that follow the
Python code branch by branch. Python exceptions are values (`Err e`); a loop or
recursion that the code does not bound is run with an explicit budget and
returns the distinguished value `Diverge` when the budget is used up. No theorem
uses `Diverge` as a normal result: the theorems state that the result is not
`Diverge` (usually that it is `Ok`).

* Node ids are strings; Python dicts are association lists in insertion order;
  Python lists are lists (`list.remove` raises when the element is absent, and a
  loop over a list that is changed meanwhile is modelled by index).
* Iteration over a Python `set` uses an oracle `ord : nat -> list id -> list id`
  (the number counts iterations, so every iteration may use another order);
  theorems quantify over every oracle that returns permutations.
* A call on the main tree returns the new tree, the events it sent, each with
  the snapshot of the tree at that moment, and an outcome. Views and counts
  consume these events. A listener that raises at the k-th event makes the call
  raise there, with the tree as in the k-th snapshot (`reachx`, `deliver`).
* Application data of a node (colours, tags...) is one natural number; a filter
  function is an arbitrary Gallina function of tree, node id and parameters.
* Rows of a Gtk.TreeStore have addresses given by an allocator; an iterator is an
  address and may be stale. After every change, and whenever the user asks, the
  rows may be sorted in any way (an oracle that permutes them).

## Files

| Files | Contents |
|---|---|
| `Base` | lists, dicts, outcomes, `while` loops |
| `MainTree` | treenode.py, tree.py |
| `Objects` | treenode.py and tree.py again, with node objects that have an identity and callbacks that call the tree |
| `Filters` | filters_bank.py and the filter evaluation of filteredtree.py |
| `FTree` | filteredtree.py |
| `FRaise` | the update and the refilter of filteredtree.py with filter functions that may raise |
| `FEmit` | the same with clients' callbacks (and queued actions) that may raise |
| `ViewCount` | viewcount.py |
| `Queue` | processqueue.py with the part of the GLib main loop it uses |
| `Callbacks` | the callback registries of tree.py and viewtree.py |
| `Api`, `ViewApi` | `__init__.py` and the wiring of listeners, viewtree.py, the reading functions of views |
| `Gtk` | liblarch_gtk/treemodel.py |
| `Columns` | the columns of the widget, liblarch_gtk/`__init__.py` |
| `Sort`, `SortCol` | the sort and separator functions and the sort column of the widget, liblarch_gtk/`__init__.py` |
| `Cells` | the colours of cells, liblarch_gtk/`__init__.py` |
| `Twice` | a second `show()` of the widget |
| `StorePrint` | `print_tree` of liblarch_gtk/treemodel.py |
| `MainView` | the main view and the functions registered on it, viewtree.py |
| `NodeThreads` | methods of node objects called by a thread that did not create the tree: what changes at once, and the requests left in the queue |
| `Threads` | a program whose other threads ask for changes: the queue of `Queue` over the library of `Api` |
| `Stopped` | a call on the tree during which a function of the application raises |
| `Widget` | open rows, selections, drag and drop of the widget, liblarch_gtk/`__init__.py` |
| `Spec`, `SpecQueue`, `SpecBatch`, `SpecApi`, `SpecView`, `SpecViewing`, `SpecLoose`, `SpecGtk`, `SpecFrame`, `SpecNav`, `SpecSys`, `SpecTold`, `SpecMove`, `SpecColumns`, `SpecWidget`, `SpecStay`, `SpecSort`, `SpecHealthy`, `SpecPaint`, `SpecSortCol`, `SpecPrint`, `SpecTwice`, `SpecObjects`, `SpecKin`, `SpecRaise`, `SpecEmit`, `SpecLone`, `SpecMainView`, `SpecCount`, `SpecStopped`, `SpecGroup`, `SpecExact`, `SpecThreads`, `SpecNodes`, `SpecExpand`, `SpecExpandLone`, `SpecSteady`, `SpecAnswers` | the words used by the property theorems; definitions only |
| `PropMain`, `PropQueue`, `PropBatch`, `PropApi`, `PropView`, `PropLoose`, `PropGtk`, `PropFrame`, `PropNav`, `PropSys`, `PropTold`, `PropMove`, `PropColumns`, `PropWidget`, `PropStay`, `PropSort`, `PropPaint`, `PropSortCol`, `PropPrint`, `PropTwice`, `PropObjects`, `PropKin`, `PropRaise`, `PropEmit`, `PropLone`, `PropLoneUse`, `PropMainView`, `PropCount`, `PropStopped`, `PropGroup`, `PropExact`, `PropThreads`, `PropNodes`, `PropExpand`, `PropClose`, `PropExpandLone`, `PropLast`, `PropSteady`, `PropAnswers` | the property theorems, examples, `Print Assumptions`; nothing else |
| `Main*`, `BaseFacts` | proofs about the main tree |
| `Ft*` | proofs about views |
| `QueueFacts`, `BatchFacts`, `ApiFacts`, `DataFacts`, `CountFacts`, `NamedFacts`, `GtkFacts`, `GtkView`, `GtkRemove`, `GtkData`, `FrameFacts`, `AddFacts`, `DisableFacts`, `PrintFacts`, `NavFacts`, `SysFacts`, `SysRead`, `SysClient`, `MoveFacts`, `ColumnFacts`, `ClientFacts`, `ConnectFacts`, `WidgetFacts`, `WidgetUse`, `WidgetPlaces`, `StayFacts`, `StayRows`, `SortFacts`, `SortAny`, `PaintFacts`, `SortColFacts`, `PrintStore`, `TwiceFacts`, `ObjFacts`, `ObjAgain`, `ObjTail`, `ObjTree`, `KinFacts`, `KinOps`, `KinThm`, `FrFlat`, `FrSame`, `FrThm`, `FeSame`, `FeFlat`, `FeThm`, `LoneTree`, `LoneFacts`, `LoneWidget`, `LoneWidgetCases`, `PlacesAny`, `MainViewFacts`, `CountLate`, `OddIds`, `StoppedFacts`, `GroupFacts`, `ExactFacts`, `ThreadFacts`, `ThreadAsk`, `NodeFacts`, `NodeCut`, `NodeMove`, `NodeThm`, `NodeLate`, `NodeDone`, `NodeTold`, `WidgetExpand`, `WidgetClose`, `WidgetStill`, `WidgetExpandLone`, `WidgetLast`, `WidgetFirst`, `WidgetSteady`, `AnswerFacts` | the other proofs |
| `*Witness`, `*Cases` | concrete histories for examples and refutations |

## How each group of properties is proved

| Property | What is modelled, how it is proved |
|---|---|
| C01 C02 | whole call language; invariant "there is a rank that strictly grows from parent to child" by induction over histories, exceptions included; termination from the rank and a bound on the number of upward paths |
| C03 C10 | post-conditions of `_new_relationship` / `_break_relationship` against the ancestor relation, with frame condition |
| C04 | first half: invariant over all histories; converse: refuted, proved for histories that do not add again an id that is still listed as a child |
| C05 | invariant over histories of non-raising additions and deletions; refuted after a raising `add_node` and after using an id again |
| C06 C07 C08 | post-conditions of `_remove_node`; C07 refuted, with the exact condition under which a deletion raises |
| C09 | invariant on pending relations and post-condition of `_add_node` |
| C11 C59 | the loop of `set_parent` over a list that shrinks, exactly, for any number of parents; C11 refuted for two parents, proved for at most one parent and for moves to the root; C59 refuted for a node with a parent |
| C12 C13 | functional correctness of the path and sibling functions on every reachable tree |
| C14 | events replayed against the dict of nodes, by induction over histories |
| C15 | registry model, algebraic laws |
| C16 C17 C18 C21 | transition system over pushes and idle callbacks, invariants over all interleavings |
| C19 C20 | refuted by explicit schedules; proved for a raising request with nothing else waiting, and for distinct requests of equal priority; `C20_batch` says exactly what happens to any requests that wait together |
| C22 C24 C26 | model of FilteredTree; invariant of `__update_node` by induction on rank (upwards) and height (downwards) |
| C23 C25 C26 | the same invariant applied to the event sequences of each tree call |
| C27 C28 | refuted by explicit histories; proved for flat views: the invariant "every displayed node hangs directly below the root" survives `__update_node` for any value of the filters, by induction on the rank; proved for other views of forests: each node of the view hangs below the root or below its only parent in the tree, and the recursion upwards and downwards never comes back to a node it is working on |
| C39 | refuted by explicit histories; proved for ids different from event names |
| C29 C30 C33 C34 C35 C36 | functional correctness on consistent views |
| C31 C32 | corollaries of C24 |
| C37 | refuted through shared filter parameters; proved for the other filters |
| C38 | registry of actions inside the view model, followed through every signal |
| C40 C41 C42 | `ViewCount` model; C40 refuted for parameter changes, removed filters, counts never refreshed and a node called root; a count refreshed late is compared with an exact one that heard the same events (`CountLate.trailing`); C42 refuted (the method always raises) |
| C43 C44 | `Filters` model; C43 refuted for names starting with `!`, proved for the others |
| C45 C47 | models of `Tree` and of the version test |
| C48 C51 | one observation at a time (the data of a node, the set of nodes, a flag) carried through every operation; exact events of the announcing calls |
| C49 C50 | exact post-conditions of `add_node` and of the loops of `set_parents_enabled` and `set_children_enabled` |
| C52 | `print_tree` against an inductive description of the printed lines |
| C53 | functional correctness of the reading functions on consistent views; refuted for `node_nth_child(None, i)` |
| C54 C55 C56 | the library as one state: tree, bank, list of views and counts. Delivering the events to a list of listeners equals delivering them to each one separately as long as none raises; the invariant "each view is up to date, each count exact" is kept by every call, from the theorems for a single view or count |
| C57 | what an update of a node that stays in place sends, by induction on the rank; one announcement per node for `refresh_all` |
| C58 | invariant "rows show the data in the tree" through every signal; a data change is followed by modified signals for every place (C57); refuted for allocators that reuse addresses |
| C60 C61 | the loop of the constructor over the sorted columns, with an invariant on the Gtk columns made so far; refuted for shared Gtk columns, for sortings that name a later column, and for shared lists |
| C46 | the TreeStore follows the client of C25 row by row; refuted for allocators that reuse addresses |
| C62 C63 C66 | `Widget` on the row layout of C46: index paths correspond to node paths by induction on the length; a row keeps its node while it has its address, so only dragged nodes are moved, and a move leaves the rows of all paths without the moved node where they are (C67), so only rows below a moved node are left; refuted for rows dragged together with the row above, and for handlers connected twice |
| C64 C65 | invariant over histories of calls, sorting, collapse_node and idle callbacks: open rows are those with rows below and no remembered node on their path; every collapse asked for is remembered, waiting in the main loop or waiting in the view; refuted for nested views, quotes, expand_node and the root |
| C67 | every signal is checked, while it is sent, against the tree of the event that caused it: no deleted path is wanted by that tree; every tree of an event lies between the trees before and after the call (relations go and come in disjoint sets), so it wants every path both want |
| C68 | step by step: a signal keeps the address of the row of every path it does not delete; then C67 |
| C69 | every signal is checked, while it is sent, against the tree of the event that caused it: if a node is announced as added or modified, all nodes the client knows by then are in that tree (`FtMind`); the deleted node leaves first |
| C70 | a node never has more rows than the client knows paths to it, whatever rows get removed; then C69. A store that sorts and one that does not run side by side |
| C71 C72 | C46 and C58 with a column function that changes between calls: the layout of the rows does not depend on it, and `refresh_all` announces every node (C57), so every row is written again; the cache of brightnesses only ever holds right values |
| C73 | the loop of C60 with an invariant on the sort ids of the Gtk columns; refuted for clicks on headers and other ways past `set_sort_column` |
| C74 | the stack of the loop against an inductive description of the lines; a path is unique, so no row is listed twice; the lines of a depth-first listing are the branches of the view |
| C75 | refuted, for every widget: each added signal makes one more row per handler; the second handler of a deleted signal finds no cached position and raises |
| C76 | in `Objects`: an invariant of single writes (a rank of the nodes), so it holds wherever a callback interrupts; objects of the tree are distinct and those outside have no relations that count |
| C77 | refuted; without recursive deletions the parents of all objects, in the tree or not, are in the tree and list them, and one rank serves all objects |
| C78 | refuted; a call that ends with the callbacks equals the call followed by the calls of the callbacks (simulation, call by call); and the object model without callbacks is simulated by the main-tree model (`tree_of`), so the main-tree theorems apply |
| C79 | every node but those of a small set is displayed as it should be (`kin`); an event puts right the node it names and those parents the update reaches (`FtTruth`), the set being empty again after each elementary change; three refutations for what is excluded |
| C80 | refuted; a simulation of the model without exceptions as long as none is raised (`FrSame`); for flat views an invariant of single steps that holds wherever an exception cuts the update short (`FrFlat`) |
| C81 | refuted; every piece of the model sends a prefix of what it sends undisturbed, and is the same if nothing is raised (`FeSame`); for flat views the invariant of C80 again (`FeFlat`) |
| C82 | every signal is checked, while it is sent, against what the client knows (`FtMind.freshb`), through all walks of the update, under the assumption that no node has two parents in the tree of the event; the trees of the events of a call only have parents that the tree had before or has after (`LoneTree`). With that, the caches of the Gtk model cannot mix up rows of one node, whatever addresses rows get (`LoneFacts`: C46, C58, C68, C71, C74 again; `LoneWidget`: C63 to C65 again, for widgets; C62 and C66 only need that the rows form a forest, `PlacesAny`) |
| C83 | C14 says that the events of a call lead a listener from the nodes before to the nodes after, and agree with the tree at each event, so also at one where the call is cut short; the registry holds the functions of the client behind quiet ones (`MainViewFacts.attends`). For the widget, none of its four events is one of the three that the main view sends |
| C84 | by induction over the listeners and the events; in a library in use every listener gets through all events of a call (`SysFacts.hear_list_ok`), so the ones up to the raising one end as in the undisturbed call, and `FtQuiet.refilter_sound` repairs the views |
| C85 | refuted; the state of the application is always the completed calls taken one after the other (`ThreadFacts.tidy`), so C54 holds of it; as long as none of them raised the main loop keeps its source (`sound_ended`), and the rest is C20 (`through_turns`); what one request or one call does is read off one step (`ThreadAsk`) |
| C86 | refuted; one call leaves no request, one, or several that break relations and perhaps one that makes one. Breaking a relation is a function of the tree (`NodeFacts.parted`) that comes to the same whether the node's own list was shortened before or not (`parted_again`, `cuts_muts`), and the loop of `set_parent` over the list it shortens takes the same parents in both threads (`losing`) |
| C87 | refuted; over the layout of the rows (`GtkFacts.layout`) each path of the node leads to its row, and since no node is below itself opening one of its rows does not bring another of them in sight (`WidgetExpand.expand_ok`); for widgets in any state (`SpecExpand.handled`: calls, sorting, both methods with any argument, rows opened by hand) the invariant is the layout and the addresses only, with nothing about what is open (`WidgetExpand.handled_inv`), which also gives the rows of C64 |
| C88 | the children in a view that shows what it should are described by the parents that the tree gives (`AnswerFacts.an_kids`); the rest is C29, C34, C53 read through the position of the view |
| C89 | `WidgetUse.collapse_ok` over the layout of the rows, for widgets in any state (`WidgetExpand.handled_inv`); the same with `LoneWidget.place_rule` instead of distinct addresses when no node has two parents (`WidgetExpandLone`) |
| C90 | invariant of the signals: the node is in `collapsed_paths` and each open row is a row of another node (`WidgetStill.still`); a row that is opened because it got its first child is the only one opened, since nothing is below the child yet |
| C91 | two relations between the widget before and after a signal that compose over the signals of a call (`WidgetLast.lasting`, `WidgetFirst.opening_only`); the layout says which row is at a path, and a row that gets its first child opens only itself |
| C92 | C91 along a history; what collapse_node closes are rows at paths with its node on them (`WidgetSteady.wide_paths`) |

The histories of the view theorems (`viewing`) start at any tree that ordinary
calls can build and consist of *supported* calls (`SpecViewing.supported`): any
call on the tree except the use of the enabled flags, additions that raise or
use a listed or clashing id, and recursive deletions that are not
`Spec.tame` (they are when no deleted node has more than three parents); applying, unapplying, resetting filters with refresh; changes of the
bank that do not touch an applied filter; queued actions.

## Findings in the code

Each of these has a theorem named `..._refuted` unless marked "(no theorem)".

1. `MainTree._remove_node` removes elements from `node.parents` while iterating
   over it, so every second parent keeps the deleted child (tree.py:238-240).
   Deleting such a parent later raises KeyError (C07), adding the id again gives
   a child that does not know its parent (C04), a second entry in the root (C05)
   and wrong siblings (C13), and a refused relation then changes the tree (C03).
2. `set_parent` has the same defect: a node with two other parents keeps one of
   them (treenode.py:105-109, C11). It removes the old parents before the new
   relation is checked, so a move of a node below itself raises and leaves the node
   at the top (C59).
3. `add_node(n, parent_id=n)` raises and leaves `n` in the tree, outside the root
   and without any event (C05, C14).
4. A relation with the empty id is silently dropped (C03). `add_child("")`
   nevertheless appends it to the children without a check, so that two nodes can list
   each other and a recursive deletion never ends (C02). Such a relation is not
   remembered (C09) and can not be broken (C10). A node called `root` or "" is left out
   of paths (C12), and a broken relation to a node called `root` is made again (C10).
5. A disabled `children` flag is ignored by pending relations (C04, C22).
6. `SyncQueue`: a raising request removes the idle source while `_handler` stays
   set, so the rest waits for ever (C19). Additions have low priority and
   deletions normal priority, so an add followed by a remove runs in the other
   order, and a request equal to a waiting one is dropped (C20).
7. `ViewCount.unregister_cllbck` always raises AttributeError (C42). A parameter
   change of an applied filter leaves the count stale, and after an applied filter is
   removed from the bank every event raises AttributeError in the count (C40). The data
   of a node called `root` changes without an event (C40).
8. `FiltersBank.add_filter` with a name starting with `!` raises
   UnboundLocalError (C43). Filter objects and their parameters are shared by
   all views (C37).
9. A node called `added`, `deleted`, `modified` or `reordered` makes a view raise
   TypeError; a node called like the root of a view is never shown (C39).
10. A filter that looks at the ancestors makes a view raise KeyError on a diamond
    (C27); applying a filter with `refresh=False` and then changing the tree makes
    it raise ValueError (C28).
11. `is_path_valid` accepts the empty path and chains that do not start at the
    root (C29).
12. `TreeModel` never drops the cached iterators of removed rows; when the
    allocator reuses an address, the wrong row is removed (C46) or a
    row keeps old data (C58).
13. A recursive deletion of a node below which some node has four or more parents
    can make a view raise KeyError (C54).
14. `ViewTree.node_nth_child(None, i)` raises KeyError on a filtered view (C53).
15. On the main view, `node_nth_child` and `node_has_child` use the raw list of
    children, so after the deletion of a node with several parents they report the
    deleted node (C55).
16. The signals of a view go to all its clients: when one asks for the current
    state, the others are told again of what they know (C56).
17. `TreeModel.update_task` does not store a value that is None, so a column whose
    function returns None for the new data (a background colour that goes away)
    keeps its old value (C58).
18. A widget whose first column has `new_column=False` never shows that column: the
    Gtk column made for it is not appended; `set_bg_color` then raises
    AttributeError. A column whose 'sorting' names a column further right makes the
    constructor raise KeyError. Columns that share a Gtk column share its title,
    visibility and sorting (C60, C61).
19. `set_bg_color` changes the [type, function] list of the description in place, so
    another widget built from the same lists changes too (C61).
20. `set_dnd_name` connects the drag handlers again each time it is called: after two
    calls one drop is handled twice, and the second time another row has the place of
    the dragged one (C63). A row dragged together with the row above it is left where
    it is (C63); should Gtk give a new row the address of one that is gone, while such a
    drag is handled, a node that nobody dragged is moved. A drag from another widget that is dropped on the root is ignored,
    and an empty one raises ValueError, since bytes are compared with `''` (C62).
21. The rows of a widget made of a view with nested nodes are all closed: the constructor calls
    expand_all before `show` fills the store (C64). `expand_node` also adds to
    `collapsed_paths`, so that the node stays closed when it gets its first child; an
    id with quotes at its ends cannot be collapsed; collapsing the name of the root of
    the view keeps the main loop busy for ever (C65).
22. `set_bg_color` does not update the rows that are there: they keep the values of
    the old function until `refresh_all` (C71). A colour name that Gdk does not know
    makes drawing raise AttributeError, and the cell keeps the colours of the row
    drawn before (C72).
23. A 'sorting' in the description makes `get_sort_column` report that column, but
    the store is not sorted; `get_sort_column` does not notice clicks on headers; an
    unknown name given to `set_sort_column` raises KeyError and is reported from then
    on (C73).
24. The constructor of the widget calls `show()`, which connects the Gtk model; each
    further call of `show()` registers the same handlers again and asks for the state
    again, so that there are three rows for each path, and the next removal of a node
    raises KeyError (C75).
25. A node that was removed keeps every second of its parents (see 1), and a
    recursive deletion leaves relations of the deleted nodes. Adding such objects
    again can close a circle without any call failing; the next
    `_is_circular_relation` over it never ends (C77): its list `visited` is never
    filled.
26. A callback of 'node-modified' that relates, moves or deletes the child which
    `_remove_node` has just cut off makes the child unreachable, makes the root list
    it twice, or makes the deletion raise KeyError half way (C78).
27. A view of the leaves does not show a node that becomes a leaf because a child
    with two parents was deleted (the skipped parent of 1). A filter that looks at
    the data of the children is not evaluated again for the hidden parent of a node
    that stays displayed. A node that is displayed because it got a second child
    does not get its first child, which stays at the top (C79).
28. A filter function that raises while a parent is looked at leaves a view that is
    not flat half updated. After two such calls a displayed node can list a child
    which is not displayed; from then on each refilter raises KeyError, and the view
    can not be used any more (C80).
29. `__update_node` removes a node from `nodes` before it tells the clients and from
    the children of its parents after that. A client that raises in between leaves a
    child that is not a node: every later refilter raises KeyError, in any view
    (C81). A queued action that raises keeps 'added' from being sent, and it stays in
    the queue (C81).
30. `get_current_state` of the main view announces every node as modified and none as
    added, and a `TreeModel` made of the main view registers for events that the main
    view never sends: it stays empty for ever (C83).
31. The main view is the first listener of the tree, so a function registered on it
    that raises keeps the change from every other view and count. A count that missed
    a deletion counts the node for ever. A recursive deletion cut short in this way
    leaves nodes without parents that are not below the root either; no refilter
    shows them again (C84).
32. Methods of nodes change the node's own lists and flags at once and leave the rest
    to the queue. `set_parents_enabled(False)` in another thread loses the node: it
    has no parent and is not below the root. Between the call and the turn of the main
    loop the creating thread can make a circle that no exception reports, and
    deletes with the old parent a node that was taken away from it. A parent that is
    added between the two halves of `add_parent` is never related to the node (C86).
33. `expand_node` for a node whose row is below a closed one does nothing, and the row
    stays closed when it comes in sight (C87).

## Trusted base

* Coq's kernel (8.16.1), including `vm_compute` for witnesses and examples.
* `Print Assumptions` answers "Closed under the global context" for every property
  theorem: no axioms at all. (`coqchk` lists seven axioms of `Coq.ssr.ssrunder`,
  which is loaded with the standard library's tactics; no theorem uses them.)
* The reading of the Python code. Each definition of the model files names the
  lines it models and its simplifications. Nothing was compared with a run.
* The statements use the definitions of the `Spec*` files and of the model.
* About the runtime: a request that raises inside a GLib idle callback removes the
  source (PyGObject's behaviour); a lock makes `push` and `process` atomic;
  `Gtk.TreeStore.remove` sets the iterator it is given to the next sibling or makes
  it invalid; `Gtk.TreeStore.insert(parent, -1, ...)` appends. `expand_row` does
  nothing for a row without rows below it or below a closed row; `collapse_row`
  forgets what was open below; a row that loses its last child is closed;
  'row-has-child-toggled' comes when a row gets its first child, after the row has
  its values and its place; sorting keeps rows open. In C63,
  C64_open and C65 the user does not open and close rows; in C64_any, C87, C89 and
  C90 they do. A click on a header sorts by the sort column id of the Gtk column and
  turns the order if the store is sorted by it already.

## What is modelled and what is not

Modelled: all of treenode.py; all of tree.py; filters_bank.py; filteredtree.py
except `filter_cache` (which is never filled); viewcount.py;
processqueue.py; `__init__.py`; the parts of viewtree.py that are more than a
forwarded call; of liblarch_gtk/treemodel.py the handlers for added, deleted and
modified signals, `my_get_iter`, `set_column_function` and the initial connection;
of liblarch_gtk/`__init__.py` the columns, which rows are open, selected rows, the
paths given to callbacks, drag and drop, the sort and
separator functions, the sort column, colours of cells; `print_tree` of TreeModel.

Not modelled: `reorder_nodes` of TreeModel (the event 'reordered' is never sent), main.py, examples, tests;
Python's recursion limit; node methods called from other threads while
requests wait (one call at a time is, in `NodeThreads`); in the presence of views, callbacks that call
the tree again while an event is handled and node objects used again after they were in
a tree with relations (for the tree alone both are in `Objects`); ids that are not strings; filter functions that
change the tree; `int()` on signs, blanks and underscores in a version string.
