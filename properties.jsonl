{"id": "C01", "title": "The node graph stays acyclic", "statement": "After any sequence of API calls on a tree (adding fresh nodes, deleting, relating, moving, enabling/disabling parents or children), whether each call succeeds or raises, no node is its own ancestor: following stored parents from a node never leads back to it.", "quantifier": "every finite history of tree and node calls, including calls that raise; every set of ids", "why_tests_cant": "A cycle can be closed by any of the relationship entry points (pending relations, add_child before the check, re-adding ids); tests try two hand-made cycles.", "anchors": ["liblarch/tree.py:_is_circular_relation", "liblarch/tree.py:_add_node", "liblarch/tree.py:_new_relationship", "liblarch/treenode.py:add_child"]}
{"id": "C02", "title": "Every call on the tree terminates", "statement": "Every call of the tree/node API returns or raises after finitely many steps; in particular the unbounded ancestor walk that looks for circular relations always stops.", "quantifier": "every history of calls and every next call", "why_tests_cant": "The walk keeps no visited set, so termination depends on a global invariant of all reachable graphs.", "anchors": ["liblarch/tree.py:_is_circular_relation", "liblarch/tree.py:_remove_node", "liblarch/tree.py:get_paths_for_node"]}
{"id": "C03", "title": "A relation is refused exactly when it would be circular", "statement": "Asking for the relation parent->child between two existing distinct nodes raises exactly when child is an ancestor of parent; a refused request leaves parents, children and root children of every node as they were. Otherwise afterwards parent is a parent of child, child is a child of parent, and no other pair of nodes has changed.", "quantifier": "every reachable tree, every pair of ids", "why_tests_cant": "Needs the ancestor relation of arbitrary DAGs; tests only check that two specific requests raise.", "anchors": ["liblarch/tree.py:_new_relationship", "liblarch/tree.py:_is_circular_relation", "liblarch/tree.py:_create_relationship"]}
{"id": "C04", "title": "Parents and children agree", "statement": "At any time, if p is reported as a parent of c then p is in the tree and c is reported among the children of p; and conversely if c is reported among the children of p then p is a parent of c.", "quantifier": "every history of calls", "why_tests_cant": "The two lists are updated by different code paths; agreement is an invariant over histories.", "anchors": ["liblarch/tree.py:_create_relationship", "liblarch/tree.py:_destroy_relationship", "liblarch/tree.py:_remove_node", "liblarch/treenode.py:get_parents", "liblarch/treenode.py:get_children"]}
{"id": "C05", "title": "Root holds exactly the parentless nodes", "statement": "After calls that did not raise, every node of the tree that has no parent is a child of the root exactly once, and every other node is not a child of the root; hence every node can be reached from the root.", "quantifier": "every history of non-raising calls with parents and children enabled", "why_tests_cant": "Each call moves nodes in and out of the root children in its own way.", "anchors": ["liblarch/tree.py:_add_node", "liblarch/tree.py:_remove_node", "liblarch/tree.py:_break_relationship", "liblarch/tree.py:_new_relationship"]}
{"id": "C06", "title": "Deleting a node removes it and nothing else", "statement": "A non-recursive del_node(n) that returns removes n; every other node stays; n is no longer anybody's parent or reported child; relations between other nodes are unchanged, and children left without parents are children of the root.", "quantifier": "every reachable tree and node", "why_tests_cant": "Depends on shapes of the neighbourhood (number of parents, shared children).", "anchors": ["liblarch/tree.py:_remove_node", "liblarch/tree.py:_destroy_relationship"]}
{"id": "C07", "title": "del_node never fails on an existing node", "statement": "Calling del_node on a node that is in the tree does not raise.", "quantifier": "every reachable tree, every node in it", "why_tests_cant": "The failing histories need a previously deleted node with several parents.", "anchors": ["liblarch/tree.py:_remove_node"]}
{"id": "C08", "title": "Recursive deletion removes exactly the subtree", "statement": "del_node(n, recursive=True) removes n and exactly the nodes reachable from n through children, and no other node; relations between surviving nodes are unchanged.", "quantifier": "every reachable tree whose child lists are up to date, every node", "why_tests_cant": "DAG-shaped subtrees reach the same node along many paths while it is being removed.", "anchors": ["liblarch/tree.py:_remove_node"]}
{"id": "C09", "title": "Relations declared early are kept and built once possible", "statement": "A relation declared while one of its two nodes is missing is remembered, survives unrelated calls, and when the missing node is added it becomes a real relation (unless it would be circular).", "quantifier": "every history between the declaration and the addition that does not remove an endpoint or break the relation", "why_tests_cant": "Order of declaration, of additions and of unrelated calls is arbitrary.", "anchors": ["liblarch/tree.py:_add_node", "liblarch/tree.py:_new_relationship", "liblarch/treenode.py:add_parent", "liblarch/treenode.py:add_child", "liblarch/treenode.py:set_parent"]}
{"id": "C10", "title": "Breaking a relation removes that edge only", "statement": "break_relationship(p, c) removes p from the parents of c and c from the children of p, forgets the pending relation, changes no other pair, and makes c a child of the root if p was its last parent.", "quantifier": "every reachable tree, every pair of ids", "why_tests_cant": "Frame conditions over the whole graph.", "anchors": ["liblarch/tree.py:_break_relationship", "liblarch/tree.py:_destroy_relationship"]}
{"id": "C11", "title": "Moving a node leaves it with the requested parent only", "statement": "After move_node(n, p) with p in the tree and not below n, the parents of n are exactly [p]; after move_node(n) (to the root) n has no parent.", "quantifier": "every reachable tree, every node and destination", "why_tests_cant": "Depends on how many parents the node had before; the tests move single-parent nodes.", "anchors": ["liblarch/__init__.py:Tree.move_node", "liblarch/treenode.py:set_parent", "liblarch/treenode.py:remove_parent"]}
{"id": "C12", "title": "Paths in the main tree are exactly the ancestor chains", "statement": "get_paths_for_node(n) lists exactly the chains (a0,...,n) in which a0 has no parent and each element is a parent of the next, and get_node_for_path(path) returns the last element exactly for those chains.", "quantifier": "every reachable tree, node and path", "why_tests_cant": "Exponential number of paths in DAGs.", "anchors": ["liblarch/tree.py:get_paths_for_node", "liblarch/tree.py:get_node_for_path"]}
{"id": "C13", "title": "next_node walks the siblings in order", "statement": "next_node(n, p) returns the element that follows n in the children of p (of the root if n has no parent) and None at the end, so that iterating it from the first child enumerates all siblings once.", "quantifier": "every reachable tree, every node and parent", "why_tests_cant": "Relies on global invariants about the child lists.", "anchors": ["liblarch/tree.py:next_node", "liblarch/filteredtree.py:next_node"]}
{"id": "C14", "title": "Main-tree events tell the node set", "statement": "For calls that do not raise: replaying the node-added and node-deleted events from the beginning gives exactly the set of nodes in the tree; each node-added names a node that was absent, each node-deleted a node that was present, and at the moment of a node-deleted event the node is already gone.", "quantifier": "every history of non-raising calls", "why_tests_cant": "Event order inside nested deletions.", "anchors": ["liblarch/tree.py:_callback", "liblarch/tree.py:_add_node", "liblarch/tree.py:_remove_node"]}
{"id": "C15", "title": "Callback keys are unique and deregistration is exact", "statement": "register returns a key not in use for that event; an event calls every registered function exactly once, in registration order of the table; deregistering a key removes that function only, for that event only, and an unknown key is ignored.", "quantifier": "every sequence of registrations and deregistrations", "why_tests_cant": "Key reuse after arbitrary deregistrations.", "anchors": ["liblarch/tree.py:register_callback", "liblarch/tree.py:deregister_callback", "liblarch/viewtree.py:register_cllbck", "liblarch/viewtree.py:deregister_cllbck"]}
{"id": "C16", "title": "Queued requests are executed exactly once, in order of each priority", "statement": "Whatever the interleaving of pushes by other threads and idle callbacks, the requests of one priority are executed in the order they were accepted, none is lost and none is executed twice; a request is not accepted only if an equal one is already waiting with the same priority.", "quantifier": "every interleaving of pushes and idle callbacks", "why_tests_cant": "Schedules.", "anchors": ["liblarch/processqueue.py:push", "liblarch/processqueue.py:process", "liblarch/processqueue.py:process_queue"]}
{"id": "C17", "title": "Higher priority first", "statement": "An executed request is never executed while a request of higher priority is waiting.", "quantifier": "every interleaving", "why_tests_cant": "Schedules.", "anchors": ["liblarch/processqueue.py:process"]}
{"id": "C18", "title": "The queue never stalls", "statement": "As long as requests are waiting exactly one idle callback is installed, and when none is waiting none is installed; so if idle callbacks keep firing and no request raises, everything waiting is eventually executed.", "quantifier": "every interleaving", "why_tests_cant": "Liveness over schedules.", "anchors": ["liblarch/processqueue.py:push", "liblarch/processqueue.py:process"]}
{"id": "C19", "title": "A raising request does not stop the others", "statement": "If a queued request raises, the remaining requests are still executed eventually.", "quantifier": "every interleaving and every raising request", "why_tests_cant": "Needs a raising request while others wait.", "anchors": ["liblarch/processqueue.py:process_queue", "liblarch/tree.py:_new_relationship"]}
{"id": "C20", "title": "Requests of one background thread take effect in the order they were made", "statement": "If a background thread makes two requests one after the other, the final tree is the one obtained by performing them in that order.", "quantifier": "every pair of requests and every schedule", "why_tests_cant": "Schedules; priorities of different calls differ.", "anchors": ["liblarch/processqueue.py:push", "liblarch/tree.py:add_node", "liblarch/tree.py:remove_node", "liblarch/tree.py:new_relationship", "liblarch/tree.py:break_relationship"]}
{"id": "C21", "title": "Calls from the creating thread are immediate", "statement": "A request pushed by the thread that created the tree is executed before the call returns and never enters the queue.", "quantifier": "every queue state and request", "why_tests_cant": "Independent of whatever is queued.", "anchors": ["liblarch/processqueue.py:push"]}
{"id": "C22", "title": "A refiltered view shows exactly the nodes that pass all filters", "statement": "After refilter (or apply/unapply/reset with refresh) the displayed nodes are exactly the nodes of the tree for which every applied filter holds, whatever the filters compute from the tree, whatever the view looked like before.", "quantifier": "every reachable tree, every list of filters (arbitrary predicates over tree and node), every previous valid view", "why_tests_cant": "All filters, all graphs.", "anchors": ["liblarch/filteredtree.py:refilter", "liblarch/filteredtree.py:__update_node", "liblarch/filteredtree.py:__is_displayed"]}
{"id": "C23", "title": "A view stays exact after every change", "statement": "For filters that depend only on a node's own data, after every tree call of the supported kinds the displayed nodes are again exactly the nodes of the tree that pass all filters, without any refilter.", "quantifier": "every history of supported calls, every set of own-data filters, every order in which Python iterates its sets", "why_tests_cant": "The update is a mutual up/down recursion over an arbitrary DAG in intermediate states.", "anchors": ["liblarch/filteredtree.py:__update_node", "liblarch/filteredtree.py:__external_modify"]}
{"id": "C24", "title": "The view has the structure of the tree restricted to displayed nodes", "statement": "In such a view the parents of a displayed node are its displayed parents in the tree, in the same order, or the virtual root if there is none (or if the view is flat); and a node is a child of p exactly when p is its parent, listed once.", "quantifier": "same as the previous property", "why_tests_cant": "Same.", "anchors": ["liblarch/filteredtree.py:__node_parents", "liblarch/filteredtree.py:__update_node", "liblarch/filteredtree.py:test_validity"]}
{"id": "C25", "title": "The signals of a view reconstruct it", "statement": "A client that starts from the current state and applies every added/deleted signal by path always has exactly the paths of the view; no added signal names an existing path or a path whose parent path is missing, no deleted signal names a missing path or one that still has paths below it, and every modified signal names an existing path.", "quantifier": "every history of supported calls and every set iteration order", "why_tests_cant": "Signals are emitted in the middle of updates; clients such as Gtk stores crash on a single inconsistent one.", "anchors": ["liblarch/filteredtree.py:send_add_tree", "liblarch/filteredtree.py:send_remove_tree", "liblarch/filteredtree.py:callback", "tests/tree_testing.py:TreeTester"]}
{"id": "C26", "title": "Updating a view never raises and always terminates", "statement": "In the situations of the previous properties no exception is raised inside a view and the recursion terminates.", "quantifier": "same", "why_tests_cant": "Recursion over arbitrary DAGs.", "anchors": ["liblarch/filteredtree.py:__update_node", "liblarch/filteredtree.py:get_paths_for_node"]}
{"id": "C27", "title": "Views tolerate filters that look at other nodes", "statement": "With a filter whose value for a node depends on its ancestors or descendants, a change announced for one node never makes the view raise.", "quantifier": "every pure filter over the tree, every history", "why_tests_cant": "Needs DAG shapes with shared descendants.", "anchors": ["liblarch/filteredtree.py:__update_node"]}
{"id": "C28", "title": "Postponed refresh is safe", "statement": "Applying or removing a filter with refresh=False and then changing the tree before refiltering never raises.", "quantifier": "every history", "why_tests_cant": "Needs several nodes whose status changed silently.", "anchors": ["liblarch/filteredtree.py:apply_filter", "liblarch/filteredtree.py:__update_node"]}
{"id": "C29", "title": "View paths and nodes correspond", "statement": "In a consistent view get_paths_for_node(n) returns, without duplicates, exactly the chains from a root child to n along displayed children; get_node_for_path(path) returns n exactly for those paths; and is_path_valid holds for exactly the virtual-root-prefixed chains.", "quantifier": "every consistent view, node and path", "why_tests_cant": "Exponential number of paths.", "anchors": ["liblarch/filteredtree.py:get_paths_for_node", "liblarch/filteredtree.py:get_node_for_path", "liblarch/filteredtree.py:is_path_valid"]}
{"id": "C30", "title": "Connecting late gives the whole state", "statement": "get_current_state sends to a client that knows nothing exactly one added signal for every path of the view, parents before children, and nothing else.", "quantifier": "every consistent view", "why_tests_cant": "All DAG views.", "anchors": ["liblarch/filteredtree.py:get_current_state", "liblarch/filteredtree.py:send_add_tree", "liblarch/viewtree.py:get_current_state"]}
{"id": "C31", "title": "Flat filters flatten", "statement": "If an applied filter is flat, every displayed node is a direct child of the virtual root and has no other parent and no children.", "quantifier": "every history with a flat filter applied", "why_tests_cant": "All histories.", "anchors": ["liblarch/filteredtree.py:refilter", "liblarch/filteredtree.py:__node_parents", "liblarch/filteredtree.py:__node_children", "liblarch/filters_bank.py:is_flat"]}
{"id": "C32", "title": "The view does not depend on set iteration order", "statement": "Displayed nodes and the parents of each displayed node are the same whatever order Python uses to iterate its sets; only the order of siblings may differ.", "quantifier": "all pairs of iteration orders, every history", "why_tests_cant": "Hash seeds.", "anchors": ["liblarch/filteredtree.py:__update_node"]}
{"id": "C33", "title": "Refreshing an up-to-date view changes nothing", "statement": "Announcing nodes that did not change (modify_node, refresh_all) sends only modified signals and leaves the view as it was.", "quantifier": "every up-to-date view, every node", "why_tests_cant": "All DAGs.", "anchors": ["liblarch/tree.py:refresh_all", "liblarch/tree.py:_modify_node", "liblarch/filteredtree.py:__update_node"]}
{"id": "C34", "title": "Child counts are right", "statement": "node_n_children(n, recursive=True) is the number of non-empty descending paths below n in the view, and the non-recursive form is the number of children.", "quantifier": "every consistent view and node", "why_tests_cant": "All DAGs.", "anchors": ["liblarch/filteredtree.py:node_n_children"]}
{"id": "C35", "title": "Counting with extra filters", "statement": "get_n_nodes/get_nodes(withfilters) returns exactly the displayed nodes that also satisfy every named filter known to the bank.", "quantifier": "every view and list of names", "why_tests_cant": "All filters.", "anchors": ["liblarch/filteredtree.py:get_nodes", "liblarch/filteredtree.py:get_n_nodes"]}
{"id": "C36", "title": "Applied filters form a set with conjunction semantics", "statement": "apply_filter adds a name at most once, unapply_filter removes it, reset_filters empties; the result is independent of the order in which filters were applied: a node passes iff it passes every applied filter, and an applied name unknown to the bank hides everything.", "quantifier": "every sequence of apply/unapply/reset", "why_tests_cant": "All sequences.", "anchors": ["liblarch/filteredtree.py:apply_filter", "liblarch/filteredtree.py:unapply_filter", "liblarch/filteredtree.py:reset_filters", "liblarch/filteredtree.py:__is_displayed"]}
{"id": "C37", "title": "Views are independent", "statement": "Applying a filter to one view does not change what another view should display.", "quantifier": "every pair of views and filters", "why_tests_cant": "Sharing through the bank.", "anchors": ["liblarch/filteredtree.py:apply_filter", "liblarch/filters_bank.py:set_parameters"]}
{"id": "C38", "title": "Actions queued for a node run once, when it is first shown", "statement": "An action queued for a node that is not displayed runs exactly once, at the first added signal for that node; an action queued for a displayed node is scheduled at once.", "quantifier": "every history", "why_tests_cant": "All histories.", "anchors": ["liblarch/filteredtree.py:set_callback", "liblarch/filteredtree.py:callback", "liblarch/viewtree.py:queue_action"]}
{"id": "C39", "title": "Every id can be used for a node", "statement": "Any non-empty string can be used as node id without making views fail.", "quantifier": "every id", "why_tests_cant": "Collisions with reserved strings.", "anchors": ["liblarch/filteredtree.py:callback", "liblarch/filteredtree.py:__update_node", "liblarch/tree.py:__init__"]}
{"id": "C40", "title": "ViewCount counts the matching nodes", "statement": "An initialised ViewCount reports the number of tree nodes that pass all its filters after every non-raising call, for filters on a node's own data.", "quantifier": "every history", "why_tests_cant": "All histories.", "anchors": ["liblarch/viewcount.py:__modify", "liblarch/viewcount.py:__delete", "liblarch/viewcount.py:apply_filter", "liblarch/viewcount.py:unapply_filter"]}
{"id": "C41", "title": "ViewCount callbacks fire exactly on changes", "statement": "The registered callbacks of a ViewCount run exactly once for each change of the counted set and never otherwise.", "quantifier": "every sequence of notifications", "why_tests_cant": "All sequences.", "anchors": ["liblarch/viewcount.py:__add", "liblarch/viewcount.py:__delete", "liblarch/viewcount.py:__callback"]}
{"id": "C42", "title": "ViewCount callbacks can be unregistered", "statement": "unregister_cllbck(func) removes a registered callback.", "quantifier": "every ViewCount", "why_tests_cant": "A call that no test makes.", "anchors": ["liblarch/viewcount.py:unregister_cllbck"]}
{"id": "C43", "title": "Filter bank behaves as a map", "statement": "add_filter returns True and adds exactly when the name is unknown, remove_filter removes exactly known custom names; listing shows each name once; lookups return the filter added last under that name and not removed.", "quantifier": "every sequence of additions and removals, every name", "why_tests_cant": "All sequences and names.", "anchors": ["liblarch/filters_bank.py:add_filter", "liblarch/filters_bank.py:remove_filter", "liblarch/filters_bank.py:get_filter", "liblarch/filters_bank.py:list_filters"]}
{"id": "C44", "title": "Negated filters are complements", "statement": "With the negate parameter a filter shows exactly the tree nodes it would hide without it.", "quantifier": "every tree, node and predicate", "why_tests_cant": "All predicates.", "anchors": ["liblarch/filters_bank.py:Filter.is_displayed"]}
{"id": "C45", "title": "Named views are remembered", "statement": "get_viewtree(name) returns the same view each time for the same name and different views for different names; anonymous views are always new.", "quantifier": "every sequence of requests", "why_tests_cant": "All sequences.", "anchors": ["liblarch/__init__.py:get_viewtree", "liblarch/__init__.py:get_viewcount"]}
{"id": "C46", "title": "The Gtk model mirrors the view", "statement": "A TreeModel connected to a view has at all times exactly one row per path of the view, at that path, and none of its handlers raises.", "quantifier": "every sequence of signals sent by a view", "why_tests_cant": "Cached iterators and positions may be stale after arbitrary histories.", "anchors": ["liblarch_gtk/treemodel.py:add_task", "liblarch_gtk/treemodel.py:remove_task", "liblarch_gtk/treemodel.py:update_task", "liblarch_gtk/treemodel.py:my_get_iter"]}
{"id": "C47", "title": "API compatibility check", "statement": "is_compatible('a.b') is true exactly when a is the library's major number and b is at most its minor number.", "quantifier": "every request string of two numbers", "why_tests_cant": "All numbers.", "anchors": ["liblarch/__init__.py:is_compatible"]}
{"id": "C48", "title": "Calls leave other nodes alone", "statement": "A call changes the data, the parents-enabled flag or the children-enabled flag of a node only if it is the call made for that and for that node; additions append to the list of nodes, deletions only take elements out of it, other calls leave it unchanged; an added node keeps the data and flags of its object.", "quantifier": "every history of calls (any of which may raise, listeners may raise), every next call, every node", "why_tests_cant": "Depends on every combination of call and history; a test looks at a few nodes.", "anchors": ["liblarch/tree.py:add_node", "liblarch/tree.py:remove_node", "liblarch/tree.py:new_relationship", "liblarch/treenode.py:set_parents_enabled", "liblarch/treenode.py:set_children_enabled"]}
{"id": "C49", "title": "Adding a node relates it exactly as declared", "statement": "A successful addition sends exactly one 'added' event; the node's parents and children are among the declared ones (parent argument, pending relations); the declared parent is a parent or remembered; pending relations of the node become real unless circular, or stay pending; relations between other nodes do not change.", "quantifier": "every history of calls, every new node object, every parent argument", "why_tests_cant": "Pending relations of arbitrary histories.", "anchors": ["liblarch/tree.py:add_node"]}
{"id": "C50", "title": "Disabling and enabling relations", "statement": "set_parents_enabled(False) removes exactly the relations to the parents, announces each, puts the node at top level if it had parents; set_children_enabled(False) removes exactly those to the children and puts the children that have no other parent at top level; enabling makes no relation and sends no event.", "quantifier": "every history of calls with ordinary ids, every node", "why_tests_cant": "All shapes of trees and flags.", "anchors": ["liblarch/treenode.py:set_parents_enabled", "liblarch/treenode.py:set_children_enabled", "liblarch/tree.py:break_relationship"]}
{"id": "C51", "title": "Announcements", "statement": "modify_node and a change of data send exactly one 'modified' event for the node, after the change, and change nothing else; refresh_all sends one for each node, in the order of the tree. (The id of the root is ignored.)", "quantifier": "every tree, every node with an id other than the root's", "why_tests_cant": "All trees.", "anchors": ["liblarch/tree.py:modify_node", "liblarch/tree.py:refresh_all", "liblarch/treenode.py:modified"]}
{"id": "C52", "title": "print_tree", "statement": "print_tree terminates without exception and lists the nodes depth first from the top-level nodes, children in order, with their depth (a node with several parents once under each).", "quantifier": "every history of ordinary calls whose additions and deletions do not raise", "why_tests_cant": "All acyclic graphs.", "anchors": ["liblarch/tree.py:print_tree"]}
{"id": "C53", "title": "Walking through a view", "statement": "On a consistent view, the children, the child at a position, whether there are children, the parents (without the root of the view), the next node below a given parent (the first parent if none is given) agree with the stored structure; ids that are not displayed raise the documented kind of exception; print_tree lists the view depth first.", "quantifier": "every consistent view, every id, every position", "why_tests_cant": "All shapes of views, including shared nodes.", "anchors": ["liblarch/filteredtree.py:node_all_children", "liblarch/filteredtree.py:node_has_child", "liblarch/filteredtree.py:node_nth_child", "liblarch/filteredtree.py:node_parents", "liblarch/filteredtree.py:next_node", "liblarch/filteredtree.py:print_tree", "liblarch/viewtree.py:node_nth_child"]}
{"id": "C54", "title": "Views and counts do not disturb each other", "statement": "With any number of views and counts over one tree and one bank, after any sequence of calls each view shows exactly the nodes and relations it should and each count is exact; no view or count raises; a call on the tree has the effect it has without views. If a view or count does raise, the tree is as it was when the event was sent.", "quantifier": "every sequence of calls on the tree, the bank, the views and the counts, in any order", "why_tests_cant": "Unbounded numbers of views, counts and calls.", "anchors": ["liblarch/__init__.py:get_viewtree", "liblarch/__init__.py:get_viewcount", "liblarch/tree.py:callback", "liblarch/viewtree.py:apply_filter", "liblarch/viewcount.py:apply_filter"]}
{"id": "C55", "title": "The main view reports the tree", "statement": "Children, numbers of children, child at a position, parents, nodes (also with filters) reported by the main view are those of the tree.", "quantifier": "every sequence of calls on the library, every node, every list of filters", "why_tests_cant": "All trees and histories; the main view keeps a hidden filtered tree.", "anchors": ["liblarch/viewtree.py:node_all_children", "liblarch/viewtree.py:node_n_children", "liblarch/viewtree.py:node_nth_child", "liblarch/viewtree.py:node_has_child", "liblarch/viewtree.py:node_parents", "liblarch/viewtree.py:get_nodes", "liblarch/viewtree.py:get_n_nodes"]}
{"id": "C56", "title": "Clients follow their view through every call", "statement": "A client that knows the paths of a view and hears its signals knows the paths of the view after every call of the application, whether on this view, on another one, on the bank or on the tree; each signal makes sense when it arrives.", "quantifier": "every sequence of calls on the library, every view, every client", "why_tests_cant": "Unbounded numbers of views and calls.", "anchors": ["liblarch/viewtree.py:get_current_state", "liblarch/filteredtree.py:get_current_state", "liblarch/filteredtree.py:callback"]}
{"id": "C57", "title": "Modified signals", "statement": "Announcing a displayed node, or changing its data when it stays displayed, sends a modified signal for each of its places in the view and for each place of a node above it on the way, and no other signal; the view does not change. refresh_all sends modified signals for all paths of the view and no other signals.", "quantifier": "every up-to-date view of an ordinary tree, every displayed node, arbitrary filters (for data changes: filters that look only at the data of the node)", "why_tests_cant": "All shapes of views, including nodes at many places.", "anchors": ["liblarch/filteredtree.py:__update_node", "liblarch/filteredtree.py:__external_modify", "liblarch/tree.py:modify_node", "liblarch/tree.py:refresh_all"]}
{"id": "C58", "title": "The Gtk model shows current data", "statement": "After every supported call each row of a connected Gtk model shows the current data of its node.", "quantifier": "every sequence of supported calls on the tree, the bank and the view, every row", "why_tests_cant": "Unbounded histories; rows of one node at several places.", "anchors": ["liblarch_gtk/treemodel.py:update_task", "liblarch_gtk/treemodel.py:add_task"]}
{"id": "C59", "title": "A refused move changes nothing", "statement": "When move_node raises (the destination is the node itself or below it), all nodes have the parents and children they had before.", "quantifier": "every reachable tree, every node and destination", "why_tests_cant": "The tests never move a node below itself, and the parents are removed before the relation is checked.", "anchors": ["liblarch/__init__.py:Tree.move_node", "liblarch/treenode.py:set_parent", "liblarch/tree.py:new_relationship"]}
{"id": "C60", "title": "Columns are built as described", "statement": "The widget has the columns of its description from left to right by their order (columns without one last, as they come), each shows the values of its function, is visible as described, and sorts by the column it names.", "quantifier": "every description of columns with distinct names, any orders, values, flags and sortings", "why_tests_cant": "The tests build no widget; shared Gtk columns and sortings that name other columns only matter in combination.", "anchors": ["liblarch_gtk/__init__.py:TreeView.__init__", "liblarch_gtk/__init__.py:TreeView.set_col_visible"]}
{"id": "C61", "title": "Background colour functions stay with their column", "statement": "set_bg_color changes the function of the named column and of no other column of any widget, and refuses a name that is not a column.", "quantifier": "every two descriptions and widgets built from them, every name and function", "why_tests_cant": "The lists [type, function] of the description are shared by reference, which only shows with two widgets.", "anchors": ["liblarch_gtk/__init__.py:TreeView.set_bg_color", "liblarch_gtk/treemodel.py:TreeModel.set_column_function"]}
{"id": "C62", "title": "Drags from other widgets reach their function", "statement": "Every source added with set_dnd_external is registered under its own number, the widget's own name under 0, and a drop from source number i calls the function of that source once for each dragged row, with the node it is dropped on as destination.", "quantifier": "every sequence of set_dnd_name and set_dnd_external calls, every widget in use, every drop", "why_tests_cant": "The tests have no widget and no drag; numbers, functions and destinations only meet when several sources are set.", "anchors": ["liblarch_gtk/__init__.py:TreeView.set_dnd_external", "liblarch_gtk/__init__.py:TreeView.__init_dnd", "liblarch_gtk/__init__.py:TreeView.on_drag_data_received"]}
{"id": "C63", "title": "A drop moves the dragged nodes", "statement": "Dropping rows moves exactly their nodes, in their order, below the node of the row they are dropped into or below the parent of the row they are dropped beside, or to the root; the widget goes on showing the view and nothing is raised.", "quantifier": "every history of a widget in use, every set of dragged rows and every place", "why_tests_cant": "Rows come and go while the drop is handled; no test drags anything.", "anchors": ["liblarch_gtk/__init__.py:TreeView.on_drag_data_received", "liblarch/__init__.py:Tree.move_node"]}
{"id": "C64", "title": "Rows open by themselves", "statement": "A widget shows the paths of its view, does not disturb calls on the tree, and every row that has rows below it is open unless a node on its path was collapsed.", "quantifier": "every history of calls on tree, bank and view, sorting, collapse_node and main loop callbacks", "why_tests_cant": "The tests build no widget; Gtk closes rows on its own when they are moved or lose children.", "anchors": ["liblarch_gtk/__init__.py:TreeView.on_child_toggled", "liblarch_gtk/__init__.py:TreeView.show", "liblarch_gtk/treemodel.py:TreeModel.add_task"]}
{"id": "C65", "title": "Collapsed nodes stay closed", "statement": "After collapse_node for a node, displayed or not yet, all its rows and all rows below it are closed once the main loop has run the pending callbacks, whatever happens meanwhile.", "quantifier": "every widget in use, every node, every order of later calls", "why_tests_cant": "The call is repeated through the actions of the view and the main loop, in an order no test produces.", "anchors": ["liblarch_gtk/__init__.py:TreeView.collapse_node", "liblarch_gtk/__init__.py:TreeView.expand_node", "liblarch/filteredtree.py:queue_action"]}
{"id": "C66", "title": "Places of rows and paths of nodes agree", "statement": "Every row has exactly one index path; the path given to the expansion callbacks is the node path of the row; selected rows give the right node ids, and serialising rows for a drag and reading them back gives the same rows.", "quantifier": "every widget in use, every row, every selection", "why_tests_cant": "Index paths depend on the sorting of all siblings; the tests have none.", "anchors": ["liblarch_gtk/__init__.py:TreeView.get_selected_nodes", "liblarch_gtk/__init__.py:TreeView.on_drag_data_get", "liblarch_gtk/__init__.py:TreeView.__emit"]}
{"id": "C67", "title": "A call disturbs only what it changes", "statement": "A path that a view has before and after a call on the main tree is neither deleted nor added by the signals of the call; a call that changes the parents of one node keeps every path that does not contain this node.", "quantifier": "every reachable tree and view, every supported call, every path", "why_tests_cant": "Tests compare the view after the call with what is expected; rows that go and come back in between (losing selection and expansion) stay unnoticed, and one call announces several nodes in several intermediate trees.", "anchors": ["liblarch/filteredtree.py:__update_node", "liblarch/filteredtree.py:send_remove_tree", "liblarch/tree.py:MainTree.break_relationship", "liblarch/treenode.py:_TreeNode.set_parent"]}
{"id": "C68", "title": "Rows outlive calls that do not concern them", "statement": "The row that a Gtk model has for a path which is there before and after a call on the main tree is the same row afterwards, so that selection, expansion and references to it survive.", "quantifier": "every history of a Gtk model connected to a view, every supported call, every path, every sorting", "why_tests_cant": "The test suite has no Gtk model; a row that is removed and inserted again looks the same in any dump of the store.", "anchors": ["liblarch_gtk/treemodel.py:add_task", "liblarch_gtk/treemodel.py:remove_task", "liblarch_gtk/treemodel.py:update_task", "liblarch/filteredtree.py:__update_node"]}
{"id": "C69", "title": "Known nodes can be looked up at every signal", "statement": "Whenever a view announces a node as added or modified, every node of every path that its client knows at that moment is in the tree, so a client that looks them up (to sort, to draw) never meets a node that is gone.", "quantifier": "every history of a client connected to a view, every supported call, every signal within it", "why_tests_cant": "The tests look at the tree after a call; the tree and the client disagree only between two signals of one call, and only a client that looks up other nodes than the announced one notices.", "anchors": ["liblarch/filteredtree.py:__update_node", "liblarch/filteredtree.py:__delete_node", "liblarch/tree.py:_remove_node", "liblarch_gtk/__init__.py:_sort_func"]}
{"id": "C70", "title": "Sorting and separators find their nodes", "statement": "The sort function of the widget, which Gtk calls for any two rows of a level while a row is inserted or changed, and the separator function find the nodes of the rows they are called for and never raise.", "quantifier": "every history of a Gtk model connected to a view in which no call raised an exception, every allocator of rows, every supported call, every pair of rows of a level, every sort function", "why_tests_cant": "The test suite has no Gtk model; which rows are compared depends on the algorithm of Gtk and on the data.", "anchors": ["liblarch_gtk/__init__.py:_sort_func", "liblarch_gtk/__init__.py:_separator_func", "liblarch_gtk/treemodel.py:add_task", "liblarch_gtk/treemodel.py:update_task", "liblarch/tree.py:get_node"]}
{"id": "C71", "title": "A new column function takes effect", "statement": "After set_bg_color the widget goes on as before: later calls do not raise and the rows stay those of the view; from the next refresh_all on every row has the value that the new function gives for the data of its node.", "quantifier": "every history of a connected Gtk model with changes of the column function at any time", "why_tests_cant": "The test suite has no Gtk model; rows made before and after the change differ until they are updated.", "anchors": ["liblarch_gtk/__init__.py:set_bg_color", "liblarch_gtk/treemodel.py:set_column_function", "liblarch_gtk/treemodel.py:update_task", "liblarch/tree.py:refresh_all"]}
{"id": "C72", "title": "Colours of cells depend on their row only", "statement": "A cell is drawn with the background colour of its row, and its text in white exactly if that colour is dark, whatever rows were drawn before with the same renderer and whatever the cache of brightnesses holds.", "quantifier": "every sequence of drawn cells, every colour, every history of the rows", "why_tests_cant": "There is no test of drawing; renderers are shared by all rows and the cache by all widgets, so a mistake shows in some drawing order only.", "anchors": ["liblarch_gtk/__init__.py:brightness", "liblarch_gtk/__init__.py:_celldatafunction"]}
{"id": "C73", "title": "The sort column is the one that is reported", "statement": "The header of a column sorts by the column that its description names, and get_sort_column reports the column and the order by which the rows are sorted.", "quantifier": "every description, every sequence of set_sort_column and clicks on headers", "why_tests_cant": "There is no test of the widget; the report is a separate variable that differs from the store after some sequences only.", "anchors": ["liblarch_gtk/__init__.py:__init__", "liblarch_gtk/__init__.py:set_sort_column", "liblarch_gtk/__init__.py:get_sort_column"]}
{"id": "C74", "title": "print_tree of the Gtk model lists each row once", "statement": "print_tree of the Gtk model terminates and prints one line for each path of the view, depth first, with one arrow for each row above it.", "quantifier": "every forest of rows, every history of a connected Gtk model", "why_tests_cant": "It prints to the console and is not tested; a lost or repeated branch depends on the shape of the forest.", "anchors": ["liblarch_gtk/treemodel.py:print_tree"]}
{"id": "C75", "title": "Showing a widget again changes nothing", "statement": "show() of the widget can be called again (the constructor has called it): the rows stay those of the view, and later changes of the view are handled once.", "quantifier": "every history of a connected widget, a second show() at any time, every later call", "why_tests_cant": "The test suite has no widget; the first effect is visible only as doubled rows, the second only when a node leaves the view.", "anchors": ["liblarch_gtk/__init__.py:show", "liblarch_gtk/__init__.py:__init__", "liblarch_gtk/treemodel.py:connect_model", "liblarch/viewtree.py:register_cllbck"]}
{"id": "C76", "title": "Callbacks may call the tree: no circles", "statement": "Functions registered for events may call the tree while the event is handled (add, remove, relate, break, node methods), catch exceptions and raise: the parents of the nodes never form a circle and the walk over the ancestors ends.", "quantifier": "every history of calls and of calls made by callbacks, every callback, only objects that were never in the tree are added", "why_tests_cant": "The test suite has no callback that calls the tree; the interleavings are unbounded.", "anchors": ["liblarch/tree.py:_callback", "liblarch/tree.py:_is_circular_relation", "liblarch/tree.py:_remove_node", "liblarch/processqueue.py:push"]}
{"id": "C77", "title": "Removed nodes may be added again", "statement": "A node object that was removed from the tree can be added again: the parents of the nodes form no circle, so the walk over the ancestors ends and the following calls return.", "quantifier": "every history in which each id has one object, which may be removed and added again any number of times", "why_tests_cant": "The test suite adds no object twice; the circle needs a deletion of a node with two parents, a recursive deletion and two additions.", "anchors": ["liblarch/tree.py:_remove_node", "liblarch/tree.py:_add_node", "liblarch/tree.py:_is_circular_relation", "liblarch/treenode.py:_set_tree"]}
{"id": "C78", "title": "Callbacks that call the tree lose no node", "statement": "When callbacks call the tree while an event is handled, the result is that of calls made one after the other: no node is lost, the root lists no node twice, and the deletion of a node succeeds.", "quantifier": "every history, every callback that calls the tree", "why_tests_cant": "The test suite has no callback that calls the tree.", "anchors": ["liblarch/tree.py:_remove_node", "liblarch/tree.py:_add_node", "liblarch/tree.py:_callback"]}
{"id": "C79", "title": "Views of nodes chosen by their children", "statement": "A view with filters that look at the children of a node (the leaves, the tasks without open subtask) is up to date after each call on the tree: nodes that satisfy the filters only because of a change of a child are shown, others are hidden.", "quantifier": "every history of calls on the tree, every filter that depends on the node and its children", "why_tests_cant": "The tests of the leaf filter use few trees and few histories; which parents are looked at again depends on the event and on what is displayed.", "anchors": ["liblarch/filteredtree.py:__update_node", "liblarch/filteredtree.py:__external_modify", "liblarch/filters_bank.py:FiltersBank", "liblarch/tree.py:_remove_node"]}
{"id": "C80", "title": "Filter functions that raise", "statement": "When a filter function raises while the tree tells a view of a change, the exception reaches the caller of the tree operation and the view stays usable: its nodes and their places agree, clients that follow its signals know what it displays, and a refilter with filters that do not raise brings it up to date.", "quantifier": "every history of calls, every filter that may raise any exception for any node at any time", "why_tests_cant": "The tests have no filter that raises; what is left behind depends on which of the nested updates the exception cuts short.", "anchors": ["liblarch/filteredtree.py:132-258", "liblarch/filteredtree.py:309-396", "liblarch/filteredtree.py:FilteredTree.__is_displayed"]}
{"id": "C81", "title": "Clients of a view that raise", "statement": "When a callback that a client registered raises while a view sends a signal, the exception reaches the caller of the tree operation, the clients have got exactly the signals up to that one, and the view stays usable: its nodes and their places agree, clients that follow its signals know what it displays, and a refilter brings it up to date.", "quantifier": "every history of calls, every client that may raise any exception at any signal", "why_tests_cant": "The tests register callbacks that never raise; what is left behind depends on which of the nested updates the exception cuts short, and shows only in later calls.", "anchors": ["liblarch/filteredtree.py:99-126", "liblarch/filteredtree.py:132-290", "liblarch/filteredtree.py:309-396", "liblarch/viewtree.py:111-119"]}
{"id": "C82", "title": "A node is taken back before it is announced elsewhere", "statement": "In a tree in which no node has two parents, whatever a call does, a view announces a node as added only when a client that follows its signals knows no place of that node; every displayed node has one place only.", "quantifier": "every history of supported calls, every call before and after which no node has two parents", "why_tests_cant": "A move or a change of what is displayed sends many signals for whole subtrees; the tests compare the final tree, not what a client knows at each signal.", "anchors": ["liblarch/filteredtree.py:132-290", "liblarch/filteredtree.py:99-126", "liblarch/treenode.py:90-111", "liblarch_gtk/treemodel.py:66-180"]}
{"id": "C83", "title": "Clients of the main view", "statement": "A client that registers functions on the main view knows, after every call, exactly the nodes of the tree: it may connect at any time and ask for the current state, and whatever other functions do. In particular a widget made of the main view shows the tree.", "quantifier": "every history of calls, every set of other registered functions", "why_tests_cant": "The tests wait for single signals of the main view; they never keep a list from them, connect to it late, or make a widget of it.", "anchors": ["liblarch/viewtree.py:54-65", "liblarch/viewtree.py:89-142", "liblarch/tree.py:52-79", "liblarch_gtk/treemodel.py:53-65"]}
{"id": "C84", "title": "One function that raises and the other views", "statement": "When a function that the application registered on the main view or on a count raises, the caller of the tree gets the exception, and the tree, all other views and all counts are as after the same call without the exception; at the latest after refilter.", "quantifier": "every library in use, every function that raises at any event, every call on the tree", "why_tests_cant": "The functions that the tests register raise only to report a failed test; no test looks at the library after such an exception.", "anchors": ["liblarch/tree.py:52-79", "liblarch/tree.py:215-256", "liblarch/viewtree.py:54-65", "liblarch/viewtree.py:111-121", "liblarch/viewcount.py:78-104"]}
{"id": "C85", "title": "Changes asked for by other threads reach the views", "statement": "Other threads may ask for changes of the tree at any time. Whatever the interleaving with the calls of the creating thread and the turns of the main loop, the tree, the views and the counts are as after the executed calls taken one after the other, every view and count shows the tree, and every change asked for is shown once the main loop has turned often enough.", "quantifier": "every number of threads, every interleaving of their requests with calls and turns of the main loop, all priorities", "why_tests_cant": "There are infinitely many interleavings, and the tests look at a few.", "anchors": ["liblarch/tree.py:42", "liblarch/tree.py:81-95", "liblarch/processqueue.py:41-111", "liblarch/filteredtree.py:163-211", "liblarch/viewcount.py:78-104"]}
{"id": "C86", "title": "A change made through a node by another thread ends as if made by the creating thread", "statement": "Methods of nodes and of the tree may be called by any thread. Once the main loop has executed the requests that such a call left, the tree is the one that the same call made by the creating thread gives.", "quantifier": "every tree, every method, every thread, every moment of the call", "why_tests_cant": "The tests call methods of nodes from the creating thread only.", "anchors": ["liblarch/treenode.py:66-117", "liblarch/treenode.py:146-172", "liblarch/tree.py:81-95", "liblarch/tree.py:293-314", "liblarch/processqueue.py:49-111"]}
{"id": "C87", "title": "expand_node opens the rows of one node", "statement": "expand_node opens every row of the node that has rows below it and no other row, closes none, and does not change the rows of the widget.", "quantifier": "every widget in use, every node, every number of rows of the node", "why_tests_cant": "The tests have no widget.", "anchors": ["liblarch_gtk/__init__.py:232-272"]}
{"id": "C88", "title": "A view with filters answers as the tree restricted to its nodes", "statement": "Asked through the ViewTree interface, a view that shows what it should answers about the nodes that satisfy its filters: its nodes, those that satisfy more filters and their number, children, number of children and of all ways down, the child at a position, the next one, parents, paths and the node at a path are those of the tree restricted to these nodes (all at the top if a filter is flat); a node that is not shown is refused. No question changes anything.", "quantifier": "every tree, every bank, every list of filters, every view that shows what it should, every node and path, every question", "why_tests_cant": "Tests ask about a few views of a few trees.", "anchors": ["liblarch/viewtree.py:148-266", "liblarch/filteredtree.py:350-352", "liblarch/filteredtree.py:415-440", "liblarch/filteredtree.py:466-583"]}
{"id": "C89", "title": "collapse_node closes the rows of one node", "statement": "collapse_node closes all rows of the node and the rows below them and no other row, opens none, and does not change the rows of the widget; for a node that is not displayed this happens in a callback of the main loop once it is.", "quantifier": "every history of calls, sorting, expand_node, collapse_node, main loop callbacks and rows opened by hand, every node, every number of rows of the node; addresses of rows that are never used again, or any addresses if no node has two parents", "why_tests_cant": "The tests have no widget.", "anchors": ["liblarch_gtk/__init__.py:232-279"]}
{"id": "C90", "title": "Rows of a collapsed node do not open by themselves", "statement": "After collapse_node no row of the node is open, neither those it had nor those it gets later, whatever is done with tree, bank, view, other nodes, the order of the rows and other rows, until expand_node for the node or the user opens one.", "quantifier": "every history before, every node, every history afterwards without expand_node for the node and opening of its rows by hand; addresses of rows that are never used again, or any addresses if no node has two parents", "why_tests_cant": "The tests have no widget; Gtk closes rows that lose their children and the widget opens rows that get one.", "anchors": ["liblarch_gtk/__init__.py:219-279"]}
{"id": "C91", "title": "What calls do to the rows that are open", "statement": "No call closes a row that has rows below it, nor moves it or replaces it by another row, unless a row directly below it is removed; and no call opens a row unless a row is added directly below it and its node is not among those that collapse_node and expand_node remember.", "quantifier": "every history before, with expand_node, collapse_node, sorting and rows opened and closed by hand; every call on the tree, the bank and the view; every row; addresses of rows that are never used again, or any addresses if no node has two parents", "why_tests_cant": "The tests have no widget; one call can send signals for many rows, and each can open or close rows.", "anchors": ["liblarch_gtk/__init__.py:219-230", "liblarch_gtk/treemodel.py:127-175"]}
{"id": "C92", "title": "Open rows stay open", "statement": "A row that is open and has rows below it stays where it is and open, whatever is done with tree, bank, view and widget, until a row directly below it is removed, collapse_node runs for a node on its path (at once, or later from the idle queue), or the user closes it. Until then the rows directly below it, also new ones, have this open row above them.", "quantifier": "every history before, every row, every history afterwards without these; addresses of rows that are never used again, or any addresses while no node has two parents", "why_tests_cant": "The tests have no widget; long histories with sorting, callbacks and rows opened by hand.", "anchors": ["liblarch_gtk/__init__.py:219-279", "liblarch_gtk/treemodel.py:127-175"]}
