(** liblarch/filteredtree.py again, with filter functions that raise. What FTree.v leaves
    out: an exception of a filter function passes through __update_node, which stops
    where it is. *)
From Verif Require Import Base MainTree Filters FTree SpecView SpecViewing.
Open Scope f_scope.

(** The exceptions: what the function of a filter, given by its name, raises when it is
    called for a node. *)
Definition trouble := id -> mtree -> id -> option exn.

(** filteredtree.py:335-348, 37-49 of filters_bank.py. The filters are asked in order
    until one says no. *)
Fixpoint asked (b : bank) (bad : trouble) (t : mtree) (names : list id) (n : id) : res bool :=
  match names with
  | [] => Ok true
  | name :: rest =>
      match get_filter b name with
      | None => Ok false
      | Some f =>
          match bad name t n with
          | Some e => Err e
          | None => if filt_displayed t f n then asked b bad t rest n else Ok false
          end
      end
  end.
Definition evaluated (b : bank) (bad : trouble) (t : mtree) (names : list id) (n : id) : res bool :=
  if truthy n && has_node t n then asked b bad t names n else Ok false.

(** The nodes of a list for which the filters say yes, filteredtree.py:370-373, 388-390. *)
Fixpoint chosen (test : id -> res bool) (l : list id) : res (list id) :=
  match l with
  | [] => Ok []
  | x :: rest =>
      match test x with
      | Ok v =>
          match chosen test rest with
          | Ok k => Ok (if v then x :: k else k)
          | Err e => Err e
          | Diverge => Diverge
          end
      | Err e => Err e
      | Diverge => Diverge
      end
  end.

Section Update.
  Variable ord : nat -> list id -> list id.
  (** [F n] is what [__is_displayed n] does. *)
  Variable T : mtree.
  Variable F : id -> res bool.

  Definition evaluate (n : id) : FM bool := fun s => (s, F n).

  (** filteredtree.py:377-396 *)
  Definition r_parents (n : id) : FM (list id) := fun s =>
    if flat s then (s, Ok [froot s])
    else
      match chosen (fun p => if is_displayed s p then F p else Ok false) (get_parents T n) with
      | Ok [] => (s, Ok [froot s])
      | Ok l => (s, Ok l)
      | Err e => (s, Err e)
      | Diverge => (s, Diverge)
      end.

  (** filteredtree.py:355-375 *)
  Definition r_children (n : id) : FM (list id) := fun s =>
    if flat s then (s, Ok []) else (s, chosen F (get_children T n)).

  (** filteredtree.py:184-231: the node is put below its new parents. *)
  Definition r_place (rec : id -> direction -> FM unit) (n : id) (dir : direction) (added : bool) : FM unit :=
    e1 <- fnode_at n ;;
    let cur := fpar e1 in
    new <- r_parents n ;;
    s1 <- fget ;;
    upd_f n (fun e => mkF (filter (is_displayed s1) new) (fchi e)) ;;
    let remove_from := set_diff cur new in
    let add_to := set_diff new cur in
    let stay := set_diff new add_to in
    let dir := if (match dir with Down => true | _ => false end) && mem (froot s1) add_to
               then Both else dir in
    iterate_set ord remove_from (fun p =>
      send_remove_tree n p ;;
      children_remove p n ;;
      if goes_up dir then rec p Up else fret tt) ;;
    iterate_set ord add_to (fun p =>
      s2 <- fget ;;
      if is_displayed s2 p then
        upd_f p (fun e => mkF (fpar e) (fchi e ++ [n])) ;;
        send_add_tree n p ;;
        if goes_up dir then rec p Up else fret tt
      else fraise PyException) ;;
    (if goes_up dir then iterate_set ord stay (fun p => rec p Up) else fret tt) ;;
    (if added then fret tt
     else paths <- paths_of n ;; ffor paths (fun p => callback_modified n p)) ;;
    e3 <- fnode_at n ;;
    new_children <- r_children n ;;
    (if goes_down dir then
       ffor new_children (fun c =>
         e4 <- fnode_at n ;;
         if mem c (fchi e4) then fret tt else rec c Down)
     else fret tt).

  (** filteredtree.py:171-231 *)
  Definition r_shown (rec : id -> direction -> FM unit) (n : id) (dir : direction) (added : bool) : FM unit :=
    e <- fnode_at n ;;
    new_parents <- r_parents n ;;
    (if added then
       ffor (get_parents T n) (fun p =>
         if negb (mem p new_parents) && negb (mem p (fpar e)) then rec p Up else fret tt)
     else fret tt) ;;
    r_place rec n dir added.

  (** filteredtree.py:132-258; the branch for 'deleted' evaluates nothing itself. *)
  Definition r_body (rec : id -> direction -> FM unit) (n : id) (dir : direction) : FM unit :=
    s <- fget ;;
    if String.eqb n (froot s) then fret tt
    else
      new_display <- evaluate n ;;
      match is_displayed s n, new_display with
      | false, false =>
          if has_node T n then ffor (get_parents T n) (fun p => rec p Up) else fret tt
      | false, true =>
          fmodify (fun s => set_fnodes (dset n (mkF [] []) (fnodes s)) s) ;;
          r_shown rec n dir true
      | true, true => r_shown rec n dir false
      | true, false => update_hidden T rec n
      end.

  Fixpoint r_update (fuel : nat) (n : id) (dir : direction) : FM unit :=
    match fuel with
    | 0 => fdiverge
    | S f => r_body (r_update f) n dir
    end.

  (** filteredtree.py:329-333 *)
  Definition r_step (x : list id * ft) : ctl (list id * ft) (ft * res unit) :=
    let '(queue, s) := x in
    match queue with
    | [] => Stop (s, Ok tt)
    | n :: rest =>
        match r_update (update_budget T s) n Both s with
        | (s1, Ok _) =>
            match dget n (nodes T) with
            | None => if String.eqb n main_root then Go (rest ++ root_children T, s1)
                      else Stop (s1, Err ValueError)
            | Some _ => Go (rest ++ get_children T n, s1)
            end
        | (s1, r) => Stop (s1, r)
        end
    end.

  (** filteredtree.py:319-333 *)
  Definition r_rebuild : FM unit :=
    s <- fget ;;
    e <- fnode_at (froot s) ;;
    ffor (rev (fchi e)) (fun c => send_remove_tree c (froot s)) ;;
    fmodify (fun s => set_fnodes [(froot s, mkF [] [])] s) ;;
    fun s =>
      match loop (walk_budget (length (nodes T))) r_step (root_children T, s) with
      | Stop r => r
      | Go (_, s') => (s', Diverge)
      end.
End Update.

Section Calls.
  Variable ord : nat -> list id -> list id.
  Variable b : bank.
  Variable bad : trouble.

  (** filteredtree.py:129-130 *)
  Definition r_modify (t : mtree) (n : id) : FM unit := fun s =>
    r_update ord t (evaluated b bad t (filters s)) (update_budget t s) n Both s.

  (** The events of a call on the tree. An exception stops the call there: the tree stays
      as it was at that moment (tree.py:74-79; the view is the only listener). *)
  Fixpoint r_feed (es : list event) (last : mtree) (s : ft) : mtree * ft * res unit :=
    match es with
    | [] => (last, s, Ok tt)
    | e :: rest =>
        match r_modify (ev_tree e) (ev_id e) s with
        | (s1, Ok _) => r_feed rest last s1
        | (s1, r) => (ev_tree e, s1, r)
        end
    end.

  (** A call on the tree, as the view sees it. *)
  Definition r_call (o : mop) (t : mtree) (s : ft) : mtree * ft * res unit := r_feed (events o t) (after o t) s.

  (** filteredtree.py:309-333 *)
  Definition r_refilter (t : mtree) : FM unit := fun s =>
    r_rebuild ord t (evaluated b bad t (filters s)) (set_flat (any_flat b (filters s)) s).
End Calls.
