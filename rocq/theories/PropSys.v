(** C54, C55, C56: the library as a whole. Nothing but property theorems in this
    file. *)
From Coq Require Import Permutation.
From Verif Require Import Base MainTree Spec Filters FTree ViewCount Api ViewApi SpecApi SpecView SpecViewing SpecSys SysFacts SysRead SysClient
  Witness ViewWitness ApiWitness SysCases.

(** C54. Any number of views and counts over one tree and one bank: after any calls
    that fit, each view shows exactly what it should and each count is exact. What
    is missing: calls outside [fits], such as recursive deletions of nodes with
    four parents or more and parameters of a filter that others use (both false, see
    below). *)
Theorem C54_all_right_partial : forall ord, (forall k l, Permutation (ord k l) l) -> forall y, library ord y ->
  forall l, In l (s_listeners y) -> shows (s_tree y) (s_bank y) l.
Proof. exact all_show. Qed.
Print Assumptions C54_all_right_partial.
Example C54_example : library keep lsys /\ get_all_nodes (s_tree lsys) = ["a"; "c"; "d"; "z"] /\ view_all_nodes (view_at lsys 1) = ["a"; "d"; "z"] /\
  filters (view_at lsys 1) = ["work"] /\ vc_n_nodes (count_at lsys 2) = 3 /\ view_all_nodes (view_at lsys 4) = [] /\ length (s_listeners lsys) = 5.
Proof. exact lsys_case. Qed.

(** C54. No view and no count raises: a call on the tree ends as it does on the tree
    alone, the others return. *)
Theorem C54_nothing_raises_partial : forall ord, (forall k l, Permutation (ord k l) l) -> forall y c, library ord y -> fits y c ->
  snd (lib_call ord c y) = match c with LTree o => outcome o (s_tree y) | _ => Ok tt end /\
  s_tree (fst (lib_call ord c y)) = match c with LTree o => after o (s_tree y) | _ => s_tree y end.
Proof. exact nothing_raises. Qed.
Print Assumptions C54_nothing_raises_partial.
Example C54_raises_example : library keep lsys /\ fits lsys (LTree (SetData "c" 4)) /\ fits lsys (LTree (DelNode "a" true)) /\ fits lsys (LApply 4 "work" None false) /\
  fits lsys (LBank (BRemove "unused")) /\ fits lsys (LState 1).
Proof. exact lsys_fits. Qed.

(** C54. Whatever the calls, a call on the tree leaves the tree as it is without any
    view, or a view or count raised and the tree is as it was when the event was
    sent. *)
Theorem C54_interrupted : forall ord o y, let y' := fst (tree_call ord o y) in let r := snd (tree_call ord o y) in
  s_bank y' = s_bank y /\ s_views y' = s_views y /\ s_counts y' = s_counts y /\
  ((s_tree y' = after o (s_tree y) /\ r = outcome o (s_tree y)) \/
   (r <> Ok tt /\ exists e, In e (events o (s_tree y)) /\ s_tree y' = ev_tree e)).
Proof. exact tree_call_cases. Qed.
Print Assumptions C54_interrupted.
Example C54_interrupted_example : let o := put "added" 1 (Some "p") in snd (tree_call keep o rsys) = Err TypeError /\ outcome o (s_tree rsys) = Ok tt /\
  In "added" (get_all_nodes (s_tree (fst (tree_call keep o rsys)))) /\ s_listeners (fst (tree_call keep o rsys)) <> s_listeners rsys.
Proof. exact raise_case. Qed.

(** C54 fails for a recursive deletion below which a node has four parents: the view
    raises although the tree alone does not. *)
Theorem C54_recursive_refuted : exists y o, library keep y /\ calm (s_tree y) o /\ outcome o (s_tree y) = Ok tt /\ snd (tree_call keep o y) = Err KeyError.
Proof. exact recursive_raises. Qed.
Print Assumptions C54_recursive_refuted.

(** C54 fails when one view gives parameters to a filter that another one uses. *)
Theorem C54_shared_refuted : exists y c l, library keep y /\ snd (lib_call keep c y) = Ok tt /\ c = LApply 1 "work" (Some (mkParams true false 0)) false /\
  In l (s_listeners (fst (lib_call keep c y))) /\ ~ shows (s_tree (fst (lib_call keep c y))) (s_bank (fst (lib_call keep c y))) l.
Proof. exact shared_stale. Qed.
Print Assumptions C54_shared_refuted.

(** C55. The main view reports the tree: children of a node, or of the root for
    None. *)
Theorem C55_children_partial : forall ord, (forall k l, Permutation (ord k l) l) -> forall y, library ord y -> forall n, standing (s_tree y) n ->
  vt_all_children 0 n y = Ok (main_kids (s_tree y) (id_of n)).
Proof. exact main_children. Qed.
Print Assumptions C55_children_partial.

(** C55. The numbers of children, direct and recursive (a node below several parents
    counts each time). *)
Theorem C55_counts_partial : forall ord, (forall k l, Permutation (ord k l) l) -> forall y, library ord y ->
  has_node (s_tree y) (root_name None) = false -> forall n, standing (s_tree y) n ->
  snd (vt_n_children ord 0 n false y) = Ok (length (main_kids (s_tree y) (id_of n))) /\
  exists L, NoDup L /\ (forall q, In q L <-> q <> [] /\ downward (main_kids (s_tree y)) (id_of n) q) /\
    snd (vt_n_children ord 0 n true y) = Ok (length L).
Proof. exact main_counts. Qed.
Print Assumptions C55_counts_partial.

(** C55. The nodes that pass some filters, and how many there are. *)
Theorem C55_nodes_partial : forall ord, (forall k l, Permutation (ord k l) l) -> forall y, library ord y ->
  has_node (s_tree y) (root_name None) = false -> forall names,
  exists l, snd (vt_nodes ord 0 names y) = Ok l /\ snd (vt_n_nodes ord 0 names y) = Ok (length l) /\
    Permutation l (filter (fun n => forallb (fun name => match get_filter (s_bank y) name with
      | Some f => xorb (f_fun f (s_tree y) n (f_dic f)) (match f_dic f with Some d => p_negate d | None => false end)
      | None => true
      end) names) (get_all_nodes (s_tree y))).
Proof. exact main_nodes. Qed.
Print Assumptions C55_nodes_partial.
Example C55_example : library keep lsys /\ has_node (s_tree lsys) (root_name None) = false /\ standing (s_tree lsys) (Some "a") /\
  vt_all_children 0 (Some "a") lsys = Ok ["c"] /\ snd (vt_n_children keep 0 (Some "a") false lsys) = Ok 1 /\
  snd (vt_n_children keep 0 None true lsys) = Ok 4 /\ snd (vt_nodes keep 0 ["work"] lsys) = Ok ["a"; "d"; "z"].
Proof. exact lsys_main. Qed.

Theorem C55_parents_partial : forall ord, (forall k l, Permutation (ord k l) l) -> forall y, library ord y -> forall x, has_node (s_tree y) x = true ->
  vt_parents 0 x y = Ok (get_parents (s_tree y) x) /\ vt_is_displayed 0 x y = true /\ In x (vt_all_nodes 0 y) /\
  vt_has_parent 0 x y = Ok (negb (mem x (root_children (s_tree y)))).
Proof. exact main_reads. Qed.
Print Assumptions C55_parents_partial.

(** C55. The main view displays the nodes of the tree, and answers about paths and
    next nodes as the tree does (C12, C13). *)
Theorem C55_answers : forall ord, (forall k l, Permutation (ord k l) l) -> forall y, library ord y ->
  (forall x, vt_is_displayed 0 x y = true <-> In x (get_all_nodes (s_tree y))) /\
  vt_all_nodes 0 y = get_all_nodes (s_tree y) /\
  (forall q, vt_node_for_path 0 q y = get_node_for_path (s_tree y) q) /\
  (forall n, vt_paths 0 n y = get_paths_for_node (s_tree y) n) /\
  (forall n p, vt_next_node 0 n p y = next_node (s_tree y) n p).
Proof. exact main_answers. Qed.
Print Assumptions C55_answers.
Example C55_answers_example : library keep lsys /\ vt_is_displayed 0 "c" lsys = true /\ vt_is_displayed 0 "nowhere" lsys = false /\
  vt_node_for_path 0 ["a"; "c"; "d"] lsys = Ok (Some "d") /\ vt_node_for_path 0 ["c"; "d"] lsys = Ok None /\
  vt_paths 0 "d" lsys = Ok [["a"; "c"; "d"]].
Proof. exact lsys_answers. Qed.

(** C55. Asked about a node that the tree does not have, the main view gives no
    children and otherwise raises ValueError. *)
Theorem C55_unknown : forall ord, (forall k l, Permutation (ord k l) l) -> forall y, library ord y ->
  forall x, x <> "" -> x <> main_root -> ~ In x (get_all_nodes (s_tree y)) ->
  vt_is_displayed 0 x y = false /\ vt_all_children 0 (Some x) y = Ok [] /\ vt_has_child 0 x y = Err ValueError /\
  (forall k, vt_nth_child 0 (Some x) k y = Err ValueError) /\ vt_parents 0 x y = Err ValueError /\ vt_has_parent 0 x y = Err ValueError /\
  vt_paths 0 x y = Err ValueError /\ (forall p, vt_next_node 0 x p y = Err ValueError) /\
  (forall q, vt_node_for_path 0 (q ++ [x]) y = Err ValueError).
Proof. exact main_unknown. Qed.
Print Assumptions C55_unknown.
Example C55_unknown_example : library keep lsys /\ "nowhere" <> "" /\ "nowhere" <> main_root /\ ~ In "nowhere" (get_all_nodes (s_tree lsys)).
Proof. exact lsys_unknown. Qed.

(** C55. The child at a position, and whether there is a child, for the root and for
    nodes that list only nodes of the tree. *)
Theorem C55_nth_partial : forall ord, (forall k l, Permutation (ord k l) l) -> forall y, library ord y -> forall n k, standing (s_tree y) n ->
  (forall x c, n = Some x -> In c (childs (s_tree y) x) -> has_node (s_tree y) c = true) ->
  vt_nth_child 0 n k y = match nth_error (main_kids (s_tree y) (id_of n)) k with Some c => Ok c | None => Err ValueError end.
Proof. exact main_nth. Qed.
Print Assumptions C55_nth_partial.

Theorem C55_has_child_partial : forall ord, (forall k l, Permutation (ord k l) l) -> forall y, library ord y -> forall x, has_node (s_tree y) x = true ->
  (forall c, In c (childs (s_tree y) x) -> has_node (s_tree y) c = true) ->
  exists b, vt_has_child 0 x y = Ok b /\ (b = true <-> get_children (s_tree y) x <> []).
Proof. exact main_has. Qed.
Print Assumptions C55_has_child_partial.
Example C55_nth_example : library keep lsys /\ standing (s_tree lsys) (Some "c") /\ (forall x c, Some "c" = Some x -> In c (childs (s_tree lsys) x) -> has_node (s_tree lsys) c = true) /\
  vt_nth_child 0 (Some "c") 0 lsys = Ok "d" /\ vt_has_child 0 "c" lsys = Ok true /\ vt_has_parent 0 "c" lsys = Ok true.
Proof. exact lsys_nth. Qed.

(** C55 fails after a node with several parents was deleted: the main view gives the
    deleted node as a child, or says that there is a child where there is none. *)
Theorem C55_nth_refuted : exists y x c, library keep y /\ standing (s_tree y) (Some x) /\
  vt_nth_child 0 (Some x) 0 y = Ok c /\ has_node (s_tree y) c = false /\ vt_all_children 0 (Some x) y = Ok ["e"].
Proof. exact stale_nth. Qed.
Print Assumptions C55_nth_refuted.

Theorem C55_has_child_refuted : exists y x, library keep y /\ has_node (s_tree y) x = true /\
  vt_has_child 0 x y = Ok true /\ vt_all_children 0 (Some x) y = Ok [].
Proof. exact stale_has. Qed.
Print Assumptions C55_has_child_refuted.

(** C56. A client that knows the paths of a view follows it through every call of
    the application, on this view, on others and on the tree. *)
Theorem C56_clients_partial : forall ord, (forall k l, Permutation (ord k l) l) -> forall y, library ord y ->
  forall c i s, fits y c -> nth_error (s_listeners y) i = Some (LView s) -> c <> LState i ->
  exists s' l, nth_error (s_listeners (fst (lib_call ord c y))) i = Some (LView s') /\ sent s' = sent s ++ l /\
    forall cs, NoDup cs -> (forall q, In q cs <-> view_path s q) ->
      exists cs', hear_all cs l cs' /\ NoDup cs' /\ forall q, In q cs' <-> view_path s' q.
Proof. exact clients. Qed.
Print Assumptions C56_clients_partial.
Example C56_example : library keep lsys /\ fits lsys (LTree (SetData "c" 4)) /\ nth_error (s_listeners lsys) 1 = Some (LView (view_at lsys 1)) /\
  length (sent (view_at lsys 1)) = 43.
Proof. exact lsys_client. Qed.

(** C56 fails when another client of the view asks for the current state: the first
    one is told again of paths it knows. *)
Theorem C56_twice_refuted : exists y s s' l cs, library keep y /\ fits y (LState 1) /\ nth_error (s_listeners y) 1 = Some (LView s) /\
  nth_error (s_listeners (fst (lib_call keep (LState 1) y))) 1 = Some (LView s') /\ sent s' = sent s ++ l /\
  NoDup cs /\ (forall q, In q cs <-> view_path s q) /\ forall cs', ~ hear_all cs l cs'.
Proof. exact heard_twice. Qed.
Print Assumptions C56_twice_refuted.
