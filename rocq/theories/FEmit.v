(** liblarch/filteredtree.py again, with callbacks of clients that raise. What FTree.v
    leaves out: an exception of a callback passes through __update_node, which stops
    where it is. *)
From Verif Require Import Base MainTree Filters FTree SpecView SpecViewing.
Open Scope f_scope.

(** The exceptions: what the clients of a view raise when they get a signal. The number
    is the position of the signal among all signals of the view, so a client can raise
    at any time whatever it likes. *)
Definition upset := nat -> sig -> option exn.

Section Emit.
  Variable bad : upset.

  (** filteredtree.py:121-126, viewtree.py:111-119: the clients are called. A signal
      counts as sent if some client raised. *)
  Definition e_send (x : sig) : FM unit := fun s =>
    (send x s, match bad (length (sent s)) x with Some e => Err e | None => Ok tt end).

  (** filteredtree.py:111-120. The actions are forgotten after the first one. *)
  Definition e_actions (n : id) (acts : list nat) : FM unit :=
    match acts with
    | [] => fret tt
    | a :: rest =>
        e_send (SRun n a) ;;
        fmodify (fun s => set_runonce (ddel n (runonce s)) s) ;;
        ffor rest (fun a => e_send (SRun n a))
    end.

  (** filteredtree.py:99-126 *)
  Definition e_added (n : id) (path : list id) : FM unit := fun s =>
    if mem n reserved then (s, Err TypeError)
    else
      match dget n (runonce s) with
      | None => e_send (SAdded n path) s
      | Some [] => e_send (SAdded n path) s
      | Some acts =>
          if is_displayed s n then (e_actions n acts ;; e_send (SAdded n path)) s
          else (s, Err PyException)
      end.
  Definition e_deleted (n : id) (path : list id) : FM unit := e_send (SDeleted n path).
  Definition e_modified (n : id) (path : list id) : FM unit := e_send (SModified n path).

  (** filteredtree.py:264-272 *)
  Definition e_add_step (paths : list (list id)) (x : list (id * list id) * ft)
    : ctl (list (id * list id) * ft) (ft * res unit) :=
    let '(queue, s) := x in
    match queue with
    | [] => Stop (s, Ok tt)
    | (n, rel) :: rest =>
        match ffor paths (fun start => e_added n (start ++ rel)) s with
        | (s1, Ok _) =>
            match dget n (fnodes s1) with
            | None => Stop (s1, Err KeyError)
            | Some e => Go (rest ++ map (fun c => (c, rel ++ [c])) (fchi e), s1)
            end
        | (s1, r) => Stop (s1, r)
        end
    end.

  (** filteredtree.py:260-272 *)
  Definition e_add_tree (n p : id) : FM unit :=
    paths <- paths_of p ;;
    fun s =>
      match loop (walk_budget (length (fnodes s))) (e_add_step paths) ([(n, [n])], s) with
      | Stop r => r
      | Go (_, s') => (s', Diverge)
      end.

  (** filteredtree.py:278-290 *)
  Definition e_remove_step (paths : list (list id)) (x : list (id * list id * bool) * ft)
    : ctl (list (id * list id * bool) * ft) (ft * res unit) :=
    let '(stack, s) := x in
    match stack with
    | [] => Stop (s, Ok tt)
    | (n, rel, true) :: rest =>
        match dget n (fnodes s) with
        | None => Stop (s, Err KeyError)
        | Some e => Go (rev (map (fun c => (c, rel ++ [c], true)) (fchi e)) ++ (n, rel, false) :: rest, s)
        end
    | (n, rel, false) :: rest =>
        match ffor paths (fun start => e_deleted n (start ++ rel)) s with
        | (s1, Ok _) => Go (rest, s1)
        | (s1, r) => Stop (s1, r)
        end
    end.

  (** filteredtree.py:274-290 *)
  Definition e_remove_tree (n p : id) : FM unit :=
    paths <- paths_of p ;;
    fun s =>
      match loop (S (walk_budget (length (fnodes s)))) (e_remove_step paths) ([(n, [n], true)], s) with
      | Stop r => r
      | Go (_, s') => (s', Diverge)
      end.

  Section Update.
    Variable ord : nat -> list id -> list id.
    Variable T : mtree.
    Variable D : id -> bool.

    (** filteredtree.py:184-231: the node is put below its new parents. *)
    Definition e_place (rec : id -> direction -> FM unit) (n : id) (dir : direction) (added : bool) : FM unit :=
      e1 <- fnode_at n ;;
      s1 <- fget ;;
      let cur := fpar e1 in
      let new := node_parents_of T D n s1 in
      upd_f n (fun e => mkF (filter (is_displayed s1) new) (fchi e)) ;;
      let remove_from := set_diff cur new in
      let add_to := set_diff new cur in
      let stay := set_diff new add_to in
      let dir := if (match dir with Down => true | _ => false end) && mem (froot s1) add_to
                 then Both else dir in
      iterate_set ord remove_from (fun p =>
        e_remove_tree n p ;;
        children_remove p n ;;
        if goes_up dir then rec p Up else fret tt) ;;
      iterate_set ord add_to (fun p =>
        s2 <- fget ;;
        if is_displayed s2 p then
          upd_f p (fun e => mkF (fpar e) (fchi e ++ [n])) ;;
          e_add_tree n p ;;
          if goes_up dir then rec p Up else fret tt
        else fraise PyException) ;;
      (if goes_up dir then iterate_set ord stay (fun p => rec p Up) else fret tt) ;;
      (if added then fret tt
       else paths <- paths_of n ;; ffor paths (fun p => e_modified n p)) ;;
      e3 <- fnode_at n ;;
      s3 <- fget ;;
      (if goes_down dir then
         ffor (node_children_of T D n s3) (fun c =>
           e4 <- fnode_at n ;;
           if mem c (fchi e4) then fret tt else rec c Down)
       else fret tt).

    (** filteredtree.py:171-231 *)
    Definition e_shown (rec : id -> direction -> FM unit) (n : id) (dir : direction) (added : bool) : FM unit :=
      e <- fnode_at n ;;
      s <- fget ;;
      let new_parents := node_parents_of T D n s in
      (if added then
         ffor (get_parents T n) (fun p =>
           if negb (mem p new_parents) && negb (mem p (fpar e)) then rec p Up else fret tt)
       else fret tt) ;;
      e_place rec n dir added.

    (** filteredtree.py:233-256 *)
    Definition e_hidden (rec : id -> direction -> FM unit) (n : id) : FM unit :=
      paths <- paths_of n ;;
      e <- fnode_at n ;;
      ffor (rev (fchi e)) (fun c =>
        e_remove_tree c n ;;
        parents_remove c n ;;
        rec c Down) ;;
      e' <- fnode_at n ;;
      fmodify (fun s => set_fnodes (ddel n (fnodes s)) s) ;;
      ffor paths (fun p => e_deleted n p) ;;
      ffor (fpar e') (fun p =>
        children_remove p n ;;
        rec p Up) ;;
      (if has_node T n then
         ffor (get_parents T n) (fun p =>
           s <- fget ;;
           if is_displayed s p then fret tt else rec p Up)
       else fret tt).

    (** filteredtree.py:132-258 *)
    Definition e_body (rec : id -> direction -> FM unit) (n : id) (dir : direction) : FM unit :=
      s <- fget ;;
      if String.eqb n (froot s) then fret tt
      else
        match is_displayed s n, D n with
        | false, false =>
            if has_node T n then ffor (get_parents T n) (fun p => rec p Up) else fret tt
        | false, true =>
            fmodify (fun s => set_fnodes (dset n (mkF [] []) (fnodes s)) s) ;;
            e_shown rec n dir true
        | true, true => e_shown rec n dir false
        | true, false => e_hidden rec n
        end.

    Fixpoint e_update (fuel : nat) (n : id) (dir : direction) : FM unit :=
      match fuel with
      | 0 => fdiverge
      | S f => e_body (e_update f) n dir
      end.

    (** filteredtree.py:329-333 *)
    Definition e_step (x : list id * ft) : ctl (list id * ft) (ft * res unit) :=
      let '(queue, s) := x in
      match queue with
      | [] => Stop (s, Ok tt)
      | n :: rest =>
          match e_update (update_budget T s) n Both s with
          | (s1, Ok _) =>
              match dget n (nodes T) with
              | None => if String.eqb n main_root then Go (rest ++ root_children T, s1)
                        else Stop (s1, Err ValueError)
              | Some _ => Go (rest ++ get_children T n, s1)
              end
          | (s1, r) => Stop (s1, r)
          end
      end.

    (** filteredtree.py:319-333 *)
    Definition e_rebuild : FM unit :=
      s <- fget ;;
      e <- fnode_at (froot s) ;;
      ffor (rev (fchi e)) (fun c => e_remove_tree c (froot s)) ;;
      fmodify (fun s => set_fnodes [(froot s, mkF [] [])] s) ;;
      fun s =>
        match loop (walk_budget (length (nodes T))) e_step (root_children T, s) with
        | Stop r => r
        | Go (_, s') => (s', Diverge)
        end.
  End Update.

  Section Calls.
    Variable ord : nat -> list id -> list id.
    Variable b : bank.

    (** filteredtree.py:129-130 *)
    Definition e_modify (t : mtree) (n : id) : FM unit := fun s =>
      e_update ord t (shown b t s) (update_budget t s) n Both s.

    (** The events of a call on the tree. An exception stops the call there: the tree
        stays as it was at that moment (tree.py:74-79; the view is the only listener). *)
    Fixpoint e_feed (es : list event) (last : mtree) (s : ft) : mtree * ft * res unit :=
      match es with
      | [] => (last, s, Ok tt)
      | e :: rest =>
          match e_modify (ev_tree e) (ev_id e) s with
          | (s1, Ok _) => e_feed rest last s1
          | (s1, r) => (ev_tree e, s1, r)
          end
      end.

    (** A call on the tree, as the view sees it. *)
    Definition e_call (o : mop) (t : mtree) (s : ft) : mtree * ft * res unit := e_feed (events o t) (after o t) s.

    (** filteredtree.py:309-333 *)
    Definition e_refilter (t : mtree) : FM unit := fun s =>
      e_rebuild ord t (shown b t s) (set_flat (any_flat b (filters s)) s).
  End Calls.
End Emit.
