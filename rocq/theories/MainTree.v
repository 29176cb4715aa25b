(** Model of liblarch/treenode.py (class _Node) and liblarch/tree.py (class
    MainTree), for calls made from the thread that created the tree (other
    threads go through [Queue]). *)
From Verif Require Import Base.

(** treenode.py:23-40, the attributes of a _Node. [data] stands for whatever
    attributes the application adds to its nodes (e.g. DummyNode.colors in the
    tests). [npend] is [pending_relationships]; a relation is a pair (parent,
    child) and the parent may be Python's None (add_parent(None),
    set_parent(None)). [self.tree] is not stored: a node of the dict has it set,
    a node that was never added does not. Simplification: [add_child(None)] and
    falsy ids other than None and "" are not modelled. *)
Record node := mkNode {
  par : list id;
  chi : list id;
  pen : bool;
  cen : bool;
  npend : list (option id * id);
  data : nat
}.

(** tree.py:33-40. The root _Node only matters through its list of children: it
    has no parents and its two flags are never changed. *)
Record mtree := mkTree {
  nodes : dict node;
  pend : list (option id * id);
  rootc : list id
}.

(** tree.py:27-42 *)
Definition empty_tree : mtree := mkTree [] [] [].

(** tree.py:38 *)
Definition main_root : id := "root".

(** tree.py:74-79, the events sent by [_callback]. An event carries the snapshot
    of the tree seen by the callbacks. Simplification: callbacks do not change
    the tree themselves. *)
Inductive ekind := EAdded | EModified | EDeleted.
Record event := Ev { ev_kind : ekind; ev_id : id; ev_tree : mtree }.

(** State-and-events monad. *)
Definition M (A : Type) := mtree -> mtree * list event * res A.

Definition ret {A} (a : A) : M A := fun t => (t, [], Ok a).
Definition raise {A} (e : exn) : M A := fun t => (t, [], Err e).
Definition diverge {A} : M A := fun t => (t, [], Diverge).
Definition get : M mtree := fun t => (t, [], Ok t).
Definition modify (f : mtree -> mtree) : M unit := fun t => (f t, [], Ok tt).

Definition bind {A B} (m : M A) (k : A -> M B) : M B := fun t =>
  match m t with
  | (t1, e1, Ok a) =>
      match k a t1 with
      | (t2, e2, r) => (t2, e1 ++ e2, r)
      end
  | (t1, e1, Err e) => (t1, e1, Err e)
  | (t1, e1, Diverge) => (t1, e1, Diverge)
  end.

Declare Scope m_scope.
Delimit Scope m_scope with M.
Notation "x <- m ;; k" := (bind m (fun x => k))
  (at level 61, m at next level, right associativity) : m_scope.
Notation "m ;; k" := (bind m (fun _ => k))
  (at level 61, right associativity) : m_scope.
Open Scope m_scope.

Fixpoint for_each {X} (l : list X) (body : X -> M unit) : M unit :=
  match l with
  | [] => ret tt
  | x :: rest => body x ;; for_each rest body
  end.

(** tree.py:74-79 *)
Definition callback (k : ekind) (n : id) : M unit := fun t => (t, [Ev k n t], Ok tt).

(** Reading and writing fields. *)
Definition set_nodes (d : dict node) (t : mtree) : mtree := mkTree d (pend t) (rootc t).
Definition set_pend (p : list (option id * id)) (t : mtree) : mtree := mkTree (nodes t) p (rootc t).
Definition set_rootc (r : list id) (t : mtree) : mtree := mkTree (nodes t) (pend t) r.

Definition set_par (l : list id) (nd : node) : node :=
  mkNode l (chi nd) (pen nd) (cen nd) (npend nd) (data nd).
Definition set_chi (l : list id) (nd : node) : node :=
  mkNode (par nd) l (pen nd) (cen nd) (npend nd) (data nd).
Definition set_pen (b : bool) (nd : node) : node :=
  mkNode (par nd) (chi nd) b (cen nd) (npend nd) (data nd).
Definition set_cen (b : bool) (nd : node) : node :=
  mkNode (par nd) (chi nd) (pen nd) b (npend nd) (data nd).
Definition set_npend (l : list (option id * id)) (nd : node) : node :=
  mkNode (par nd) (chi nd) (pen nd) (cen nd) l (data nd).
Definition set_data (v : nat) (nd : node) : node :=
  mkNode (par nd) (chi nd) (pen nd) (cen nd) (npend nd) v.

(** Mutation of the node stored under an id. *)
Definition upd_node (n : id) (f : node -> node) (t : mtree) : mtree :=
  match dget n (nodes t) with
  | Some nd => set_nodes (dset n (f nd) (nodes t)) t
  | None => t
  end.

(** [self.nodes[n]], KeyError when absent. *)
Definition node_at (n : id) : M node := fun t =>
  match dget n (nodes t) with
  | Some nd => (t, [], Ok nd)
  | None => (t, [], Err KeyError)
  end.

(** tree.py:317-319 *)
Definition has_node (t : mtree) (n : id) : bool := dmem n (nodes t).

(** treenode.py:135-143, for the node stored under [n] (the flag test and the
    filter on nodes that are in the tree). *)
Definition get_parents (t : mtree) (n : id) : list id :=
  match dget n (nodes t) with
  | Some nd => if pen nd then filter (has_node t) (par nd) else []
  | None => []
  end.

(** treenode.py:188-196 *)
Definition get_children (t : mtree) (n : id) : list id :=
  match dget n (nodes t) with
  | Some nd => if cen nd then filter (has_node t) (chi nd) else []
  | None => []
  end.

(** treenode.py:188-196 for the root node (root.get_children()). *)
Definition root_children (t : mtree) : list id := filter (has_node t) (rootc t).

(** treenode.py:119-133, [has_parent()] without argument: looks at the raw list. *)
Definition has_parent (t : mtree) (n : id) : bool :=
  match dget n (nodes t) with
  | Some nd => pen nd && negb (match par nd with [] => true | _ => false end)
  | None => false
  end.

(** treenode.py:174-186, [has_child()] without argument: looks at the raw list. *)
Definition has_child (t : mtree) (n : id) : bool :=
  match dget n (nodes t) with
  | Some nd => cen nd && negb (match chi nd with [] => true | _ => false end)
  | None => false
  end.

(** tree.py:103-115 *)
Definition create_relationship (p c : id) : M unit :=
  pn <- node_at p ;;
  cn <- node_at c ;;
  modify (fun t =>
    let t1 := upd_node p (fun nd => if mem c (chi nd) then nd else set_chi (chi nd ++ [c]) nd) t in
    let t2 := upd_node c (fun nd => if mem p (par nd) then nd else set_par (par nd ++ [p]) nd) t1 in
    set_rootc (remove1 c (rootc t2)) t2).

(** tree.py:117-126 *)
Definition destroy_relationship (p c : id) : M unit :=
  pn <- node_at p ;;
  cn <- node_at c ;;
  modify (fun t =>
    let t1 := upd_node p (fun nd => set_chi (remove1 c (chi nd)) nd) t in
    upd_node c (fun nd => set_par (remove1 p (par nd)) nd) t1).

(** tree.py:128-149. [visited] is never filled, so it is left out. The loop state
    is the list [ancestors]. *)
Definition circ_step (t : mtree) (child : id) (anc : list id) : ctl (list id) bool :=
  match anc with
  | [] => Stop false
  | x :: rest =>
      if String.eqb x child then Stop true
      else match dget x (nodes t) with
           | None => Go rest
           | Some nd => Go (rest ++ par nd)
           end
  end.

Definition is_circular (p c : id) : M bool := fun t =>
  match loop (walk_budget (length (nodes t))) (circ_step t c) [p] with
  | Stop b => (t, [], Ok b)
  | Go _ => (t, [], Diverge)
  end.

(** Equality and membership of pending relations (Python tuples). *)
Definition rel_eqb (a b : option id * id) : bool :=
  match fst a, fst b with
  | Some x, Some y => String.eqb x y && String.eqb (snd a) (snd b)
  | None, None => String.eqb (snd a) (snd b)
  | _, _ => false
  end.
Definition rel_mem (r : option id * id) (l : list (option id * id)) : bool :=
  existsb (rel_eqb r) l.
Fixpoint rel_remove1 (r : option id * id) (l : list (option id * id)) :=
  match l with
  | [] => []
  | x :: t => if rel_eqb r x then t else x :: rel_remove1 r t
  end.

(** [self.pending_relationships.remove(r)], ValueError when absent. *)
Definition pend_remove (r : option id * id) : M unit := fun t =>
  if rel_mem r (pend t) then (set_pend (rel_remove1 r (pend t)) t, [], Ok tt)
  else (t, [], Err ValueError).

Definition pend_append (r : option id * id) : M unit :=
  modify (fun t => set_pend (pend t ++ [r]) t).

Definition opt_in (t : mtree) (p : option id) : bool :=
  match p with Some x => has_node t x | None => false end.

(** tree.py:175-196, one iteration of the loop over the copy of the pending
    relations. Returns the new value of [add_to_root]. The two lists
    parents_to_refresh / children_to_refresh are never read, so left out. *)
Definition build_pending (n : id) (r : option id * id) (add_to_root : bool) : M bool :=
  t <- get ;;
  a1 <- (if String.eqb (snd r) n && opt_in t (fst r) then
           match fst r with
           | Some rp =>
               circ <- is_circular rp n ;;
               a <- (if circ then ret add_to_root
                     else create_relationship rp n ;; ret false) ;;
               pend_remove r ;;
               ret a
           | None => ret add_to_root
           end
         else ret add_to_root) ;;
  t' <- get ;;
  (if (match fst r with Some rp => String.eqb rp n | None => false end) && has_node t' (snd r) then
     circ <- is_circular n (snd r) ;;
     (if circ then ret tt else create_relationship n (snd r)) ;;
     pend_remove r ;;
     ret a1
   else ret a1).

Fixpoint build_pendings (n : id) (l : list (option id * id)) (add_to_root : bool) : M bool :=
  match l with
  | [] => ret add_to_root
  | r :: rest =>
      a <- build_pending n r add_to_root ;;
      build_pendings n rest a
  end.

(** tree.py:163-165 *)
Fixpoint merge_pending (l acc : list (option id * id)) : list (option id * id) :=
  match l with
  | [] => acc
  | r :: rest => merge_pending rest (if rel_mem r acc then acc else acc ++ [r])
  end.

(** tree.py:151-217. [nd] is the node object, [n] its id. *)
Definition add_node (n : id) (nd : node) (parent_id : option id) : M unit :=
  t <- get ;;
  if has_node t n then ret tt
  else
    modify (fun t => set_pend (merge_pending (npend nd) (pend t)) t) ;;
    modify (fun t => set_nodes (dset n (set_npend [] nd) (nodes t)) t) ;;
    t1 <- get ;;
    a <- build_pendings n (pend t1) true ;;
    a' <- (match parent_id with
           | None => ret a
           | Some p =>
               circ <- is_circular p n ;;
               if circ then raise Circular
               else
                 t2 <- get ;;
                 if has_node t2 p then create_relationship p n ;; ret false
                 else pend_append (Some p, n) ;; ret a
           end) ;;
    (if a' then modify (fun t => set_rootc (rootc t ++ [n]) t) else ret tt) ;;
    callback EAdded n.

(** tree.py:238-240: [for parent_id in node.parents] while the body removes
    elements from that very list; [i] is the position of the list iterator. The
    budget is the length of the list at the start of the loop. *)
Fixpoint remove_parents (fuel : nat) (n : id) (i : nat) : M unit :=
  nd <- node_at n ;;
  match nth_error (par nd) i with
  | None => ret tt
  | Some p =>
      match fuel with
      | 0 => diverge
      | S f =>
          destroy_relationship p n ;;
          callback EModified p ;;
          remove_parents f n (S i)
      end
  end.

(** tree.py:247-250 *)
Definition remove_child (n c : id) : M unit :=
  destroy_relationship n c ;;
  callback EModified c ;;
  cn <- node_at c ;;
  match par cn with
  | [] => modify (fun t => set_rootc (rootc t ++ [c]) t)
  | _ => ret tt
  end.

(** tree.py:231-233: drop every pending relation that mentions the node. *)
Definition mentions (n : id) (r : option id * id) : bool :=
  (match fst r with Some p => String.eqb p n | None => false end) || String.eqb (snd r) n.

(** tree.py:219-256. The budget bounds the depth of the recursive calls. The test
    [node_id is None] never holds for a string. *)
Fixpoint remove_node (fuel : nat) (n : id) (recursive : bool) : M unit :=
  t <- get ;;
  if negb (has_node t n) then ret tt
  else
    modify (fun t => set_pend (filter (fun r => negb (mentions n r)) (pend t)) t) ;;
    nd <- node_at n ;;
    remove_parents (length (par nd)) n 0 ;;
    nd' <- node_at n ;;
    (match fuel with
     | 0 => diverge
     | S f =>
         for_each (chi nd') (fun c =>
           if recursive then remove_node f c true else remove_child n c)
     end) ;;
    modify (fun t => set_rootc (remove1 n (rootc t)) t) ;;
    nd'' <- node_at n ;;                       (* self.nodes.pop raises KeyError *)
    modify (fun t => set_nodes (ddel n (nodes t)) t) ;;
    callback EDeleted n.

(** Budget for the depth of that recursion. *)
Definition remove_budget (t : mtree) : nat :=
  let n := length (nodes t) in S ((n * n + 1) * (n + 2)).

(** tree.py:85-86 *)
Definition del_node (n : id) (recursive : bool) : M unit :=
  t <- get ;; remove_node (remove_budget t) n recursive.

(** tree.py:258-261 *)
Definition modify_node (n : id) : M unit :=
  t <- get ;;
  if negb (String.eqb n main_root) && has_node t n then callback EModified n else ret tt.

(** Python truth of a string id. *)
Definition truthy (x : id) : bool := negb (String.eqb x "").

(** tree.py:263-291 *)
Definition new_relationship (p c : id) : M unit :=
  modify (fun t => set_pend (rel_remove1 (Some p, c) (pend t)) t) ;;
  if negb (truthy p) || negb (truthy c) || String.eqb p c then ret tt
  else
    t <- get ;;
    if negb (has_node t p) || negb (has_node t c) then pend_append (Some p, c)
    else
      circ <- is_circular p c ;;
      if circ then destroy_relationship p c ;; raise Circular
      else
        create_relationship p c ;;
        modify (fun t => set_rootc (remove1 c (rootc t)) t) ;;
        callback EModified p ;;
        callback EModified c.

(** treenode.py:155-172 for the root node, called at tree.py:311 with a child that
    is in the tree. *)
Definition root_add_child (c : id) : M unit :=
  if String.eqb c main_root then ret tt
  else
    t <- get ;;
    if mem c (rootc t) then ret tt
    else match dget c (nodes t) with
         | None => pend_append (Some main_root, c)
         | Some cn =>
             if pen cn then
               modify (fun t => set_rootc (rootc t ++ [c]) t) ;;
               new_relationship main_root c
             else ret tt
         end.

(** tree.py:293-314 *)
Definition break_relationship (p c : id) : M unit :=
  modify (fun t => set_pend (filter (fun r => negb (rel_eqb (Some p, c) r)) (pend t)) t) ;;
  if negb (truthy p) || negb (truthy c) || String.eqb p c then ret tt
  else
    t <- get ;;
    if negb (has_node t p) || negb (has_node t c) then ret tt
    else
      destroy_relationship p c ;;
      t1 <- get ;;
      (match get_parents t1 c with
       | [] => root_add_child c
       | _ => ret tt
       end) ;;
      callback EModified p ;;
      callback EModified c.

(** Node methods. They are called on the node object stored in the tree under
    [n]; an application obtains it with [tree.get_node(n)], which raises
    ValueError when there is none (tree.py:321-328). Simplification: an object
    that was removed from the tree and is still held by the application is not
    modelled, except that it can be added again ([AddNode] takes an arbitrary
    node object). *)
Definition live (n : id) : M node := fun t =>
  match dget n (nodes t) with
  | Some nd => (t, [], Ok nd)
  | None => (t, [], Err ValueError)
  end.

Definition oid_eqb (a : option id) (b : id) : bool :=
  match a with Some x => String.eqb x b | None => false end.

(** treenode.py:75-88 on a node of the tree *)
Definition add_parent (n : id) (p : option id) : M unit :=
  nd <- live n ;;
  if negb (oid_eqb p n) && pen nd && negb (match p with Some x => mem x (par nd) | None => false end) then
    t <- get ;;
    match p with
    | Some x =>
        match dget x (nodes t) with
        | None => pend_append (p, n)
        | Some pn => if cen pn then new_relationship x n else ret tt
        end
    | None => pend_append (p, n)
    end
  else ret tt.

(** treenode.py:113-117 *)
Definition remove_parent (n p : id) : M unit :=
  nd <- live n ;;
  if pen nd && mem p (par nd) then
    modify (upd_node n (fun nd => set_par (remove1 p (par nd)) nd)) ;;
    break_relationship p n
  else ret tt.

(** treenode.py:105-109: [for node_id in self.parents] while the body removes
    elements from that very list. Returns [is_already_parent_flag]. *)
Fixpoint drop_other_parents (fuel : nat) (n p : id) (i : nat) (flag : bool) : M bool :=
  nd <- live n ;;
  match nth_error (par nd) i with
  | None => ret flag
  | Some q =>
      match fuel with
      | 0 => diverge
      | S f =>
          if String.eqb q p then drop_other_parents f n p (S i) true
          else remove_parent n q ;; drop_other_parents f n p (S i) flag
      end
  end.

(** treenode.py:90-111 on a node of the tree *)
Definition set_parent (n : id) (p : option id) : M unit :=
  nd <- live n ;;
  if negb (oid_eqb p n) && pen nd then
    t <- get ;;
    match p with
    | Some x =>
        match dget x (nodes t) with
        | None =>
            for_each (get_parents t n) (fun q => break_relationship q n) ;;
            pend_append (p, n)
        | Some pn =>
            if cen pn then
              flag <- drop_other_parents (S (length (par nd))) n x 0 false ;;
              if truthy x && negb flag then add_parent n p else ret tt
            else ret tt
        end
    | None =>
        for_each (get_parents t n) (fun q => break_relationship q n) ;;
        pend_append (p, n)
    end
  else ret tt.

(** treenode.py:66-70 *)
Definition set_parents_enabled (n : id) (b : bool) : M unit :=
  nd <- live n ;;
  t <- get ;;
  (if b then ret tt else for_each (get_parents t n) (fun p => remove_parent n p)) ;;
  modify (upd_node n (set_pen b)).

(** treenode.py:146-150 *)
Definition set_children_enabled (n : id) (b : bool) : M unit :=
  nd <- live n ;;
  t <- get ;;
  (if b then ret tt else for_each (get_children t n) (fun c => break_relationship n c)) ;;
  modify (upd_node n (set_cen b)).

(** treenode.py:155-172 on a node of the tree *)
Definition add_child (n c : id) : M unit :=
  nd <- live n ;;
  if cen nd && negb (String.eqb c n) then
    if mem c (chi nd) then ret tt
    else
      t <- get ;;
      match dget c (nodes t) with
      | None => pend_append (Some n, c)
      | Some cn =>
          if pen cn then
            modify (upd_node n (fun nd => set_chi (chi nd ++ [c]) nd)) ;;
            new_relationship n c
          else ret tt
      end
  else ret tt.

(** An application changes an attribute of a node of the tree and calls
    [modified()] (treenode.py:49-52, as DummyNode.add_color of the tests does). *)
Definition set_node_data (n : id) (v : nat) : M unit :=
  nd <- live n ;;
  modify (upd_node n (set_data v)) ;;
  modify_node n.

(** tree.py:97-100 *)
Definition refresh_all : M unit :=
  t <- get ;; for_each (dkeys (nodes t)) modify_node.

(** __init__.py:93-103 *)
Definition move_node (n : id) (p : option id) : M unit :=
  t <- get ;; if has_node t n then set_parent n p else ret tt.

(** __init__.py:105-113 *)
Definition tree_add_parent (n : id) (p : option id) : M unit :=
  t <- get ;; if has_node t n then add_parent n p else ret tt.

(** Nodes that are not in a tree yet. *)

(** treenode.py:23-40 without a parent *)
Definition new_node (v : nat) : node := mkNode [] [] true true [] v.

(** treenode.py:75-81 when [self.tree] is None. [par] is empty on such a node. *)
Definition detached_add_parent (n : id) (p : option id) (nd : node) : node :=
  if negb (oid_eqb p n) && pen nd && negb (match p with Some x => mem x (par nd) | None => false end)
  then set_npend (npend nd ++ [(p, n)]) nd else nd.

(** treenode.py:90-95 when [self.tree] is None *)
Definition detached_set_parent (n : id) (p : option id) (nd : node) : node :=
  if negb (oid_eqb p n) && pen nd then set_npend (npend nd ++ [(p, n)]) nd else nd.

(** treenode.py:155-161 when [self.tree] is None *)
Definition detached_add_child (n c : id) (nd : node) : node :=
  if cen nd && negb (String.eqb c n) && negb (mem c (chi nd))
  then set_npend (npend nd ++ [(Some n, c)]) nd else nd.

(** treenode.py:66-70, 146-150 when [self.tree] is None: get_parents() and
    get_children() are empty, only the flags change. *)
Definition detached_set_parents_enabled (b : bool) (nd : node) : node := set_pen b nd.
Definition detached_set_children_enabled (b : bool) (nd : node) : node := set_cen b nd.

(** The calls of an application. *)
Inductive mop :=
| AddNode (n : id) (nd : node) (parent : option id)
| DelNode (n : id) (recursive : bool)
| ModifyNode (n : id)
| SetData (n : id) (v : nat)
| RefreshAll
| NewRelationship (p c : id)
| BreakRelationship (p c : id)
| AddParent (n : id) (p : option id)
| SetParent (n : id) (p : option id)
| RemoveParent (n p : id)
| AddChild (n c : id)
| SetParentsEnabled (n : id) (b : bool)
| SetChildrenEnabled (n : id) (b : bool)
| MoveNode (n : id) (p : option id)
| TreeAddParent (n : id) (p : option id).

Definition run_op (o : mop) : M unit :=
  match o with
  | AddNode n nd p => add_node n nd p
  | DelNode n r => del_node n r
  | ModifyNode n => modify_node n
  | SetData n v => set_node_data n v
  | RefreshAll => refresh_all
  | NewRelationship p c => new_relationship p c
  | BreakRelationship p c => break_relationship p c
  | AddParent n p => add_parent n p
  | SetParent n p => set_parent n p
  | RemoveParent n p => remove_parent n p
  | AddChild n c => add_child n c
  | SetParentsEnabled n b => set_parents_enabled n b
  | SetChildrenEnabled n b => set_children_enabled n b
  | MoveNode n p => move_node n p
  | TreeAddParent n p => tree_add_parent n p
  end.

(** The tree after a call, whatever its outcome; the events; the outcome. *)
Definition after (o : mop) (t : mtree) : mtree := fst (fst (run_op o t)).
Definition events (o : mop) (t : mtree) : list event := snd (fst (run_op o t)).
Definition outcome (o : mop) (t : mtree) : res unit := snd (run_op o t).

(** The tree after a history of calls; a call that raises leaves the tree as it
    was when the exception was raised and the application goes on. *)
Definition run (ops : list mop) (t : mtree) : mtree :=
  fold_left (fun t o => after o t) ops t.

(** Reading functions. *)

(** tree.py:344-362. Paths are tuples of ids. The budget bounds the recursion. *)
Fixpoint paths_for (fuel : nat) (t : mtree) (n : id) : res (list (list id)) :=
  match fuel with
  | 0 => Diverge
  | S f =>
      if negb (truthy n) || String.eqb n main_root then Ok [[]]
      else if has_node t n then
        if has_parent t n then
          (fix go (ps : list id) : res (list (list id)) :=
             match ps with
             | [] => Ok []
             | p :: rest =>
                 if has_node t p then
                   match paths_for f t p with
                   | Ok paths =>
                       match go rest with
                       | Ok more => Ok (map (fun q => q ++ [n]) paths ++ more)
                       | Err e => Err e
                       | Diverge => Diverge
                       end
                   | Err e => Err e
                   | Diverge => Diverge
                   end
                 else go rest
             end) (get_parents t n)
        else Ok [[n]]
      else Err ValueError
  end.

Definition get_paths_for_node (t : mtree) (n : id) : res (list (list id)) :=
  paths_for (S (S (length (nodes t)))) t n.

Fixpoint path_eqb (a b : list id) : bool :=
  match a, b with
  | [], [] => true
  | x :: a', y :: b' => String.eqb x y && path_eqb a' b'
  | _, _ => false
  end.

(** tree.py:330-342. [path[-1]] of a non-empty tuple. *)
Definition get_node_for_path (t : mtree) (path : list id) : res (option id) :=
  match path with
  | [] => Ok None
  | _ =>
      let n := last path "" in
      match get_paths_for_node t n with
      | Ok ps => Ok (if existsb (path_eqb path) ps then Some n else None)
      | Err e => Err e
      | Diverge => Diverge
      end
  end.

(** tree.py:364-366 *)
Definition get_all_nodes (t : mtree) : list id := dkeys (nodes t).

(** tree.py:321-328 followed by the accesses of next_node: raw children and
    get_children of the parent chosen at 378-389. *)
Definition raw_children (t : mtree) (n : id) : option (bool * list id) :=
  match dget n (nodes t) with
  | Some nd => Some (cen nd, chi nd)
  | None => if String.eqb n main_root then Some (true, rootc t) else None
  end.

(** tree.py:368-400 with treenode.py:198-216. *)
Definition next_node (t : mtree) (n : id) (parent_id : option id) : res (option id) :=
  if negb (has_node t n) && negb (String.eqb n main_root) then Err ValueError
  else
    let parents := get_parents t n in
    let parid :=
      match parents with
      | [] => main_root
      | p0 :: _ =>
          match parent_id with
          | Some p => if mem p parents then p else p0
          | None => p0
          end
      end in
    match raw_children t parid with
    | None => Err ValueError
    | Some (enabled, raw) =>
        match (if enabled then index_of n raw else None) with
        | None => Err IndexError
        | Some i =>
            (* get_n_children() counts get_children(), get_nth_child() indexes the raw list *)
            if Nat.ltb (S i) (length (if enabled then filter (has_node t) raw else [])) then
              match nth_error raw (S i) with
              | Some x => Ok (Some x)
              | None => Err ValueError
              end
            else Ok None
        end
    end.

(** tree.py:402-416: the lines of print_tree after the first, as (depth, id). *)
Definition print_step (t : mtree) (s : list (nat * id) * list (nat * id))
  : ctl (list (nat * id) * list (nat * id)) (res (list (nat * id))) :=
  let '(stack, out) := s in          (* top of the Python stack first *)
  match stack with
  | [] => Stop (Ok out)
  | (d, n) :: rest =>
      match dget n (nodes t) with
      | None => Stop (Err KeyError)
      | Some _ => Go (map (fun c => (S d, c)) (get_children t n) ++ rest, out ++ [(d, n)])
      end
  end.

Definition print_tree (t : mtree) : res (list (nat * id)) :=
  match loop (walk_budget (length (nodes t))) (print_step t)
             (map (fun c => (1, c)) (rootc t), []) with
  | Stop r => r
  | Go _ => Diverge
  end.
