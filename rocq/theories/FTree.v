(** Model of liblarch/filteredtree.py (class FilteredTree). *)
From Verif Require Import Base MainTree Filters.

(** filteredtree.py:54-61: one entry of [self.nodes]. *)
Record fnode := mkF { fpar : list id; fchi : list id }.

(** What a view sends: the callbacks 'added', 'deleted', 'modified' with node id
    and path, and the execution of an action registered with 'runonce'. The
    event 'reordered' is never sent by the code. *)
Inductive sig :=
| SAdded (n : id) (path : list id)
| SDeleted (n : id) (path : list id)
| SModified (n : id) (path : list id)
| SRun (n : id) (action : nat).

(** filteredtree.py:51-77. [fnodes] is [self.nodes], [flat] is [self.__flat],
    [runonce] the part of [self.cllbcks] filled by set_callback('runonce'); the
    other part (four event handlers, viewtree.py:69-80) is modelled by [sent],
    the signals sent so far, and by the test of [reserved] below. [tick] counts
    the set iterations done so far and feeds the oracle for their order.
    [filter_cache] stays empty in the code (it is only ever emptied) and
    [cache_paths] is never read: both are left out. *)
Record ft := mkFT {
  froot : id;
  fnodes : dict fnode;
  flat : bool;
  filters : list id;
  runonce : dict (list nat);
  sent : list sig;
  tick : nat
}.

Definition set_fnodes (d : dict fnode) (s : ft) : ft :=
  mkFT (froot s) d (flat s) (filters s) (runonce s) (sent s) (tick s).
Definition set_flat (b : bool) (s : ft) : ft :=
  mkFT (froot s) (fnodes s) b (filters s) (runonce s) (sent s) (tick s).
Definition set_filters (l : list id) (s : ft) : ft :=
  mkFT (froot s) (fnodes s) (flat s) l (runonce s) (sent s) (tick s).
Definition set_runonce (d : dict (list nat)) (s : ft) : ft :=
  mkFT (froot s) (fnodes s) (flat s) (filters s) d (sent s) (tick s).
Definition send (x : sig) (s : ft) : ft :=
  mkFT (froot s) (fnodes s) (flat s) (filters s) (runonce s) (sent s ++ [x]) (tick s).
Definition bump (s : ft) : ft :=
  mkFT (froot s) (fnodes s) (flat s) (filters s) (runonce s) (sent s) (S (tick s)).

(** filteredtree.py:56-59 *)
Definition root_name (name : option id) : id :=
  match name with
  | None => "anonymous_root"
  | Some x => append "root_" x
  end.

(** filteredtree.py:51-74, before the optional refilter *)
Definition new_ft (name : option id) : ft :=
  mkFT (root_name name) [(root_name name, mkF [] [])] false [] [] [] 0.

(** State monad with exceptions. *)
Definition FM (A : Type) := ft -> ft * res A.
Definition fret {A} (a : A) : FM A := fun s => (s, Ok a).
Definition fraise {A} (e : exn) : FM A := fun s => (s, Err e).
Definition fdiverge {A} : FM A := fun s => (s, Diverge).
Definition fget : FM ft := fun s => (s, Ok s).
Definition fmodify (f : ft -> ft) : FM unit := fun s => (f s, Ok tt).
Definition fbind {A B} (m : FM A) (k : A -> FM B) : FM B := fun s =>
  match m s with
  | (s1, Ok a) => k a s1
  | (s1, Err e) => (s1, Err e)
  | (s1, Diverge) => (s1, Diverge)
  end.

Declare Scope f_scope.
Delimit Scope f_scope with F.
Notation "x <- m ;; k" := (fbind m (fun x => k))
  (at level 61, m at next level, right associativity) : f_scope.
Notation "m ;; k" := (fbind m (fun _ => k))
  (at level 61, right associativity) : f_scope.
Close Scope m_scope.
Open Scope f_scope.

Fixpoint ffor {X} (l : list X) (body : X -> FM unit) : FM unit :=
  match l with
  | [] => fret tt
  | x :: rest => body x ;; ffor rest body
  end.

(** [self.nodes[n]], KeyError when absent. *)
Definition fnode_at (n : id) : FM fnode := fun s =>
  match dget n (fnodes s) with
  | Some e => (s, Ok e)
  | None => (s, Err KeyError)
  end.

(** filteredtree.py:350-353 *)
Definition is_displayed (s : ft) (n : id) : bool := dmem n (fnodes s).

(** The keys of [self.cllbcks] that hold an event handler rather than a list of
    actions (viewtree.py:69-80). Iterating such a value at line 112 tries to
    unpack a function and raises TypeError. *)
Definition reserved : list id := ["added"; "deleted"; "modified"; "reordered"].

(** filteredtree.py:99-126 for 'added'. The actions stored for the node are run,
    in order, and forgotten; [nid] is always the node itself. *)
Definition callback_added (n : id) (path : list id) : FM unit := fun s =>
  if mem n reserved then (s, Err TypeError)
  else
    match dget n (runonce s) with
    | None => (send (SAdded n path) s, Ok tt)
    | Some [] => (send (SAdded n path) s, Ok tt)
    | Some acts =>
        if is_displayed s n then
          let s1 := fold_left (fun s a => send (SRun n a) s) acts s in
          let s2 := set_runonce (ddel n (runonce s1)) s1 in
          (send (SAdded n path) s2, Ok tt)
        else (s, Err PyException)
    end.

(** filteredtree.py:99-126 for the two other events *)
Definition callback_deleted (n : id) (path : list id) : FM unit := fmodify (send (SDeleted n path)).
Definition callback_modified (n : id) (path : list id) : FM unit := fmodify (send (SModified n path)).

(** filteredtree.py:415-439. The budget bounds the recursion. *)
Fixpoint fpaths (fuel : nat) (s : ft) (n : id) : res (list (list id)) :=
  match fuel with
  | 0 => Diverge
  | S f =>
      if String.eqb n (froot s) then Ok [[]]
      else match dget n (fnodes s) with
           | None => Ok [[]]
           | Some e =>
               (fix go (ps : list id) : res (list (list id)) :=
                  match ps with
                  | [] => Ok []
                  | p :: rest =>
                      match dget p (fnodes s) with
                      | None => Err PyException
                      | Some pe =>
                          if mem n (fchi pe) then
                            match fpaths f s p with
                            | Ok paths =>
                                match go rest with
                                | Ok more => Ok (map (fun q => q ++ [n]) paths ++ more)
                                | Err e => Err e
                                | Diverge => Diverge
                                end
                            | Err e => Err e
                            | Diverge => Diverge
                            end
                          else Err PyException
                      end
                  end) (fpar e)
           end
  end.

Definition view_paths (s : ft) (n : id) : res (list (list id)) :=
  fpaths (S (S (length (fnodes s)))) s n.

Definition paths_of (n : id) : FM (list (list id)) := fun s => (s, view_paths s n).

(** filteredtree.py:264-272: one turn of the loop of send_add_tree. *)
Definition add_step (paths : list (list id)) (x : list (id * list id) * ft)
  : ctl (list (id * list id) * ft) (ft * res unit) :=
  let '(queue, s) := x in
  match queue with
  | [] => Stop (s, Ok tt)
  | (n, rel) :: rest =>
      match ffor paths (fun start => callback_added n (start ++ rel)) s with
      | (s1, Ok _) =>
          match dget n (fnodes s1) with
          | None => Stop (s1, Err KeyError)
          | Some e => Go (rest ++ map (fun c => (c, rel ++ [c])) (fchi e), s1)
          end
      | (s1, r) => Stop (s1, r)
      end
  end.

(** filteredtree.py:260-272 *)
Definition send_add_tree (n p : id) : FM unit :=
  paths <- paths_of p ;;
  fun s =>
    match loop (walk_budget (length (fnodes s))) (add_step paths) ([(n, [n])], s) with
    | Stop r => r
    | Go (_, s') => (s', Diverge)
    end.

(** filteredtree.py:278-290: one turn of the loop of send_remove_tree; the top of
    the Python stack is the head of the list. *)
Definition remove_step (paths : list (list id)) (x : list (id * list id * bool) * ft)
  : ctl (list (id * list id * bool) * ft) (ft * res unit) :=
  let '(stack, s) := x in
  match stack with
  | [] => Stop (s, Ok tt)
  | (n, rel, true) :: rest =>
      match dget n (fnodes s) with
      | None => Stop (s, Err KeyError)
      | Some e => Go (rev (map (fun c => (c, rel ++ [c], true)) (fchi e)) ++ (n, rel, false) :: rest, s)
      end
  | (n, rel, false) :: rest =>
      match ffor paths (fun start => callback_deleted n (start ++ rel)) s with
      | (s1, Ok _) => Go (rest, s1)
      | (s1, r) => Stop (s1, r)
      end
  end.

(** filteredtree.py:274-290 *)
Definition send_remove_tree (n p : id) : FM unit :=
  paths <- paths_of p ;;
  fun s =>
    match loop (S (walk_budget (length (fnodes s)))) (remove_step paths) ([(n, [n], true)], s) with
    | Stop r => r
    | Go (_, s') => (s', Diverge)
    end.

(** Mutation of the entry of a node; KeyError when there is none. *)
Definition upd_f (n : id) (f : fnode -> fnode) : FM unit := fun s =>
  match dget n (fnodes s) with
  | Some e => (set_fnodes (dset n (f e) (fnodes s)) s, Ok tt)
  | None => (s, Err KeyError)
  end.

(** [self.nodes[p]['children'].remove(n)] and [...['parents'].remove(n)]:
    KeyError without entry, ValueError when not in the list. *)
Definition children_remove (p n : id) : FM unit :=
  e <- fnode_at p ;;
  if mem n (fchi e) then upd_f p (fun e => mkF (fpar e) (remove1 n (fchi e)))
  else fraise ValueError.
Definition parents_remove (c n : id) : FM unit :=
  e <- fnode_at c ;;
  if mem n (fpar e) then upd_f c (fun e => mkF (remove1 n (fpar e)) (fchi e))
  else fraise ValueError.

Inductive direction := Up | Down | Both.
Definition goes_up (d : direction) : bool := match d with Down => false | _ => true end.
Definition goes_down (d : direction) : bool := match d with Up => false | _ => true end.

Section Update.
  (** The order in which Python iterates its sets: the k-th iteration of a set
      with elements [l] visits [ord k l]. *)
  Variable ord : nat -> list id -> list id.
  (** The main tree and the filters during the update: [T] is the tree,
      [D n] is the value of [__is_displayed n] (lines 335-348). *)
  Variable T : mtree.
  Variable D : id -> bool.

  Definition iterate_set (l : list id) (body : id -> FM unit) : FM unit := fun s =>
    ffor (ord (tick s) l) body (bump s).

  (** filteredtree.py:377-396 *)
  Definition node_parents_of (n : id) (s : ft) : list id :=
    let ps := if flat s then []
              else filter (fun p => is_displayed s p && D p) (get_parents T n) in
    match ps with [] => [froot s] | _ => ps end.

  (** filteredtree.py:355-375, for a node that is not the root *)
  Definition node_children_of (n : id) (s : ft) : list id :=
    if flat s then [] else filter D (get_children T n).

  (** filteredtree.py:171-231, the branch for 'added' and 'modified'. [rec] is the
      recursive call. [tree.get_node(n)] at line 178 cannot fail here because
      [D n] requires the node to be in the tree. *)
  Definition update_shown (rec : id -> direction -> FM unit) (n : id) (dir : direction)
             (added : bool) : FM unit :=
    e <- fnode_at n ;;
    s <- fget ;;
    let new_parents := node_parents_of n s in
    (if added then
       ffor (get_parents T n) (fun p =>
         if negb (mem p new_parents) && negb (mem p (fpar e)) then rec p Up else fret tt)
     else fret tt) ;;
    e1 <- fnode_at n ;;
    s1 <- fget ;;
    let cur := fpar e1 in
    let new := node_parents_of n s1 in
    upd_f n (fun e => mkF (filter (is_displayed s1) new) (fchi e)) ;;
    let remove_from := set_diff cur new in
    let add_to := set_diff new cur in
    let stay := set_diff new add_to in
    let dir := if (match dir with Down => true | _ => false end) && mem (froot s1) add_to
               then Both else dir in
    iterate_set remove_from (fun p =>
      send_remove_tree n p ;;
      children_remove p n ;;
      if goes_up dir then rec p Up else fret tt) ;;
    iterate_set add_to (fun p =>
      s2 <- fget ;;
      if is_displayed s2 p then
        upd_f p (fun e => mkF (fpar e) (fchi e ++ [n])) ;;
        send_add_tree n p ;;
        if goes_up dir then rec p Up else fret tt
      else fraise PyException) ;;
    (if goes_up dir then iterate_set stay (fun p => rec p Up) else fret tt) ;;
    (if added then fret tt
     else paths <- paths_of n ;; ffor paths (fun p => callback_modified n p)) ;;
    e3 <- fnode_at n ;;
    s3 <- fget ;;
    (if goes_down dir then
       ffor (node_children_of n s3) (fun c =>
         e4 <- fnode_at n ;;
         if mem c (fchi e4) then fret tt else rec c Down)
     else fret tt).

  (** filteredtree.py:233-256, the branch for 'deleted' *)
  Definition update_hidden (rec : id -> direction -> FM unit) (n : id) : FM unit :=
    paths <- paths_of n ;;
    e <- fnode_at n ;;
    ffor (rev (fchi e)) (fun c =>
      send_remove_tree c n ;;
      parents_remove c n ;;
      rec c Down) ;;
    e' <- fnode_at n ;;
    fmodify (fun s => set_fnodes (ddel n (fnodes s)) s) ;;
    ffor paths (fun p => callback_deleted n p) ;;
    ffor (fpar e') (fun p =>
      children_remove p n ;;
      rec p Up) ;;
    (if has_node T n then
       ffor (get_parents T n) (fun p =>
         s <- fget ;;
         if is_displayed s p then fret tt else rec p Up)
     else fret tt).

  (** filteredtree.py:132-258 *)
  Definition update_body (rec : id -> direction -> FM unit) (n : id) (dir : direction) : FM unit :=
    s <- fget ;;
    if String.eqb n (froot s) then fret tt
    else
      let current_display := is_displayed s n in
      let new_display := D n in
      match current_display, new_display with
      | false, false =>
          if has_node T n then ffor (get_parents T n) (fun p => rec p Up) else fret tt
      | false, true =>
          fmodify (fun s => set_fnodes (dset n (mkF [] []) (fnodes s)) s) ;;
          update_shown rec n dir true
      | true, true => update_shown rec n dir false
      | true, false => update_hidden rec n
      end.

  Fixpoint update_node (fuel : nat) (n : id) (dir : direction) : FM unit :=
    match fuel with
    | 0 => fdiverge
    | S f => update_body (update_node f) n dir
    end.

  (** Budget for the depth of the recursion. *)
  Definition update_budget (s : ft) : nat :=
    3 * (length (nodes T) + length (fnodes s)) + 6.

  Definition update (n : id) (dir : direction) : FM unit := fun s =>
    update_node (update_budget s) n dir s.

  (** filteredtree.py:329-333: one turn of the loop of refilter. *)
  Definition refilter_step (x : list id * ft) : ctl (list id * ft) (ft * res unit) :=
    let '(queue, s) := x in
    match queue with
    | [] => Stop (s, Ok tt)
    | n :: rest =>
        match update n Both s with
        | (s1, Ok _) =>
            match dget n (nodes T) with
            | None => if String.eqb n main_root then Go (rest ++ root_children T, s1)
                      else Stop (s1, Err ValueError)
            | Some _ => Go (rest ++ get_children T n, s1)
            end
        | (s1, r) => Stop (s1, r)
        end
    end.

  (** filteredtree.py:319-333 *)
  Definition rebuild : FM unit :=
    s <- fget ;;
    e <- fnode_at (froot s) ;;
    ffor (rev (fchi e)) (fun c => send_remove_tree c (froot s)) ;;
    fmodify (fun s => set_fnodes [(froot s, mkF [] [])] s) ;;
    fun s =>
      match loop (walk_budget (length (nodes T))) refilter_step (root_children T, s) with
      | Stop r => r
      | Go (_, s') => (s', Diverge)
      end.
End Update.

Section Calls.
  Variable ord : nat -> list id -> list id.

  (** The value of __is_displayed for a view (lines 335-348). *)
  Definition shown (b : bank) (T : mtree) (s : ft) (n : id) : bool :=
    should_display b T (filters s) n.

  (** filteredtree.py:129-130, called for each event of the main tree *)
  Definition external_modify (b : bank) (T : mtree) (n : id) : FM unit := fun s =>
    update ord T (shown b T s) n Both s.

  (** The view hears the events of a call on the tree, one after the other, each
      with the tree as it is at that moment (lines 67-69). *)
  Definition feed (b : bank) (es : list event) : FM unit :=
    ffor es (fun e => external_modify b (ev_tree e) (ev_id e)).

  (** filteredtree.py:309-333 *)
  Definition refilter (b : bank) (T : mtree) : FM unit := fun s =>
    rebuild ord T (shown b T s) (set_flat (any_flat b (filters s)) s).

  (** filteredtree.py:598-630. [parameters] is None or a non-empty dict. The
      returned boolean is the method's result. *)
  Definition apply_filter (T : mtree) (name : id) (parameters : option params)
             (reset refresh : bool) (b : bank) (s : ft) : bank * ft * res bool :=
    let s1 := if reset then set_filters [] s else s in
    let go (b : bank) (should : bool) :=
      let fresh := negb (mem name (filters s1)) in
      let s2 := if fresh then set_filters (filters s1 ++ [name]) s1 else s1 in
      if refresh && (should || fresh) then
        match refilter b T s2 with
        | (s3, Ok _) => (b, s3, Ok fresh)
        | (s3, Err e) => (b, s3, Err e)
        | (s3, Diverge) => (b, s3, Diverge)
        end
      else (b, s2, Ok fresh) in
    match parameters with
    | None => go b false
    | Some _ =>
        match get_filter b name with
        | Some _ => go (bank_set_parameters name parameters b) true
        | None => (b, s1, Err ValueError)
        end
    end.

  (** filteredtree.py:632-645 *)
  Definition unapply_filter (b : bank) (T : mtree) (name : id) (refresh : bool) : FM bool :=
    s <- fget ;;
    if mem name (filters s) then
      fmodify (fun s => set_filters (remove1 name (filters s)) s) ;;
      (if refresh then refilter b T else fret tt) ;;
      fret true
    else fret false.

  (** filteredtree.py:647-654 *)
  Definition reset_filters (b : bank) (T : mtree) (refresh : bool) : FM unit :=
    fmodify (set_filters []) ;;
    (if refresh then refilter b T else fret tt).
End Calls.

(** filteredtree.py:86-95 for 'runonce' ([ViewTree.queue_action], viewtree.py:82-83).
    The boolean tells that the action was handed to GObject.idle_add. *)
Definition queue_action (n : id) (action : nat) : FM bool := fun s =>
  if negb (truthy n) then (s, Err PyException)
  else if is_displayed s n then (s, Ok true)
  else
    let old := match dget n (runonce s) with Some l => l | None => [] end in
    (set_runonce (dset n (old ++ [action]) (runonce s)) s, Ok false).

(** filteredtree.py:584-592. The iterated list is not changed meanwhile. *)
Definition get_current_state : FM unit :=
  s <- fget ;;
  e <- fnode_at (froot s) ;;
  ffor (fchi e) (fun c => send_add_tree c (froot s)).

(** filteredtree.py:292-306, as a boolean (an assertion that would fail, or a
    KeyError, gives false). *)
Definition test_validity (s : ft) : bool :=
  forallb (fun '(n, e) =>
    forallb (fun p => match dget p (fnodes s) with Some pe => mem n (fchi pe) | None => false end) (fpar e)
    && (match fpar e with [] => String.eqb n (froot s) | _ => true end)
    && forallb (fun c => match dget c (fnodes s) with Some ce => mem n (fpar ce) | None => false end) (fchi e))
    (fnodes s).

(** filteredtree.py:399-413. The argument includes the virtual root. *)
Fixpoint valid_chain (s : ft) (p : list id) : bool :=
  match p with
  | a :: ((b :: _) as rest) =>
      match dget a (fnodes s) with
      | Some e => mem b (fchi e) && valid_chain s rest
      | None => false
      end
  | _ => true
  end.
Definition is_path_valid (s : ft) (p : list id) : bool :=
  match p with [_] => false | _ => valid_chain s p end.

(** filteredtree.py:466-469 *)
Definition view_all_nodes (s : ft) : list id := remove1 (froot s) (dkeys (fnodes s)).

(** filteredtree.py:481-516; the cache of line 492 is always empty. *)
Definition view_nodes (b : bank) (T : mtree) (s : ft) (withfilters : list id) : list id :=
  match withfilters with
  | [] => view_all_nodes s
  | _ =>
      let fs := flat_map (fun name => match get_filter b name with Some f => [f] | None => [] end)
                         withfilters in
      filter (fun n => negb (String.eqb n (froot s)) && forallb (fun f => filt_displayed T f n) fs)
             (dkeys (fnodes s))
  end.

(** filteredtree.py:471-479 *)
Definition view_n_nodes (b : bank) (T : mtree) (s : ft) (withfilters : list id) : nat :=
  length (view_nodes b T s withfilters).

(** filteredtree.py:518-526 *)
Definition view_node_for_path (s : ft) (path : list id) : res (option id) :=
  match path with
  | [] => Ok None
  | _ =>
      let n := last path "" in
      match view_paths s n with
      | Ok ps => Ok (if existsb (path_eqb path) ps then Some n else None)
      | Err e => Err e
      | Diverge => Diverge
      end
  end.

(** filteredtree.py:528-546 *)
Definition view_next_node (s : ft) (n : id) (parent_id : option id) : res (option id) :=
  if String.eqb n (froot s) then Err PyException
  else match dget n (fnodes s) with
       | None => Err PyException
       | Some e =>
           let chosen :=
             match parent_id with
             | Some p => if truthy p then (if mem p (fpar e) then Ok p else Err PyException)
                         else match fpar e with p0 :: _ => Ok p0 | [] => Err IndexError end
             | None => match fpar e with p0 :: _ => Ok p0 | [] => Err IndexError end
             end in
           match chosen with
           | Ok p =>
               match dget p (fnodes s) with
               | None => Err KeyError
               | Some pe =>
                   match index_of n (fchi pe) with
                   | None => Err ValueError
                   | Some i => Ok (nth_error (fchi pe) (S i))
                   end
               end
           | Err x => Err x
           | Diverge => Diverge
           end
       end.

(** filteredtree.py:548-551 *)
Definition view_all_children (s : ft) (n : option id) : res (list id) :=
  match dget (match n with None => froot s | Some x => x end) (fnodes s) with
  | Some e => Ok (fchi e)
  | None => Err KeyError
  end.

(** filteredtree.py:556-571, recursive form. The budget bounds the recursion. *)
Fixpoint count_below (fuel : nat) (s : ft) (n : id) : res nat :=
  match fuel with
  | 0 => Diverge
  | S f =>
      match dget n (fnodes s) with
      | None => Ok 0
      | Some e =>
          (fix go (cs : list id) : res nat :=
             match cs with
             | [] => Ok 0
             | c :: rest =>
                 match count_below f s c with
                 | Ok k => match go rest with
                           | Ok m => Ok (k + 1 + m)
                           | Err e => Err e
                           | Diverge => Diverge
                           end
                 | Err e => Err e
                 | Diverge => Diverge
                 end
             end) (fchi e)
      end
  end.

(** filteredtree.py:556-571 *)
Definition view_n_children (s : ft) (n : option id) (recursive : bool) : res nat :=
  let x := match n with None => froot s | Some x => x end in
  if recursive then count_below (S (S (length (fnodes s)))) s x
  else match dget x (fnodes s) with
       | None => Ok 0
       | Some e => Ok (length (fchi e))
       end.

(** filteredtree.py:573-574 behind viewtree.py:239-243, for a displayed node *)
Definition view_nth_child (s : ft) (n : option id) (i : nat) : res id :=
  match view_n_children s n false with
  | Ok k =>
      if Nat.leb k i then Err ValueError
      else match n with
           | None => Err KeyError      (* self.nodes[None] *)
           | Some x =>
               match dget x (fnodes s) with
               | Some e => match nth_error (fchi e) i with Some c => Ok c | None => Err IndexError end
               | None => Err KeyError
               end
           end
  | Err e => Err e
  | Diverge => Diverge
  end.

(** filteredtree.py:576-582 *)
Definition view_parents (s : ft) (n : id) : res (list id) :=
  match dget n (fnodes s) with
  | None => Err IndexError
  | Some e => Ok (remove1 (froot s) (fpar e))
  end.
