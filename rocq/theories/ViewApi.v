(** Model of the reading functions of a view: what is left of liblarch/filteredtree.py
    and the functions of liblarch/viewtree.py that choose between the main tree
    (static view) and the FilteredTree. *)
From Verif Require Import Base MainTree Filters FTree ViewCount Api.

(** filteredtree.py:553-554 *)
Definition view_has_child (s : ft) (n : id) : res bool :=
  match dget n (fnodes s) with
  | Some e => Ok (match fchi e with [] => false | _ => true end)
  | None => Err KeyError
  end.

(** filteredtree.py:440-464: the lines of print_tree between the two rules, as
    (depth, id). The first element of a stack is the one popped next. *)
Definition view_print_step (s : ft) (z : list (nat * id) * list (nat * id))
  : ctl (list (nat * id) * list (nat * id)) (res (list (nat * id))) :=
  let '(stack, out) := z in
  match stack with
  | [] => Stop (Ok out)
  | (d, n) :: rest =>
      match dget n (fnodes s) with
      | None => Stop (Err KeyError)
      | Some e => Go (map (fun c => (S d, c)) (fchi e) ++ rest, out ++ [(d, n)])
      end
  end.

Definition view_print (s : ft) : res (list (nat * id)) :=
  match loop (walk_budget (length (fnodes s))) (view_print_step s) ([(0, froot s)], []) with
  | Stop r => r
  | Go _ => Diverge
  end.

(** The main tree behind a static view. *)

(** tree.py:321-328: [get_node], as the list of raw children and the flag; no id
    stands for None. *)
Definition node_of (t : mtree) (n : option id) : res (bool * list id) :=
  match n with
  | None => Ok (true, rootc t)
  | Some x => match raw_children t x with Some r => Ok r | None => Err ValueError end
  end.

(** viewtree.py:201-202 with treenode.py:174-186 *)
Definition static_has_child (t : mtree) (n : id) : res bool :=
  match node_of t (Some n) with
  | Ok (enabled, raw) => Ok (enabled && negb (match raw with [] => true | _ => false end))
  | Err e => Err e
  | Diverge => Diverge
  end.

(** [not node_id]: None and the empty string *)
Definition falsy (n : option id) : bool := match n with None => true | Some x => negb (truthy x) end.

(** viewtree.py:208-212 with treenode.py:188-196 *)
Definition static_all_children (t : mtree) (n : option id) : res (list id) :=
  if falsy n || (match n with Some x => has_node t x | None => false end) then
    match node_of t n with
    | Ok (enabled, raw) => Ok (if enabled then filter (has_node t) raw else [])
    | Err e => Err e
    | Diverge => Diverge
    end
  else Ok [].

(** viewtree.py:227-237 with treenode.py:198-210. Simplification: no negative
    positions. *)
Definition static_nth_child (t : mtree) (n : option id) (i : nat) : res id :=
  match (if falsy n || (match n with Some x => String.eqb x main_root | None => false end)
         then Ok (true, rootc t) else node_of t n) with
  | Ok (enabled, raw) =>
      if Nat.ltb i (length (if enabled then filter (has_node t) raw else [])) then
        match nth_error raw i with Some c => Ok c | None => Err ValueError end
      else Err ValueError
  | Err e => Err e
  | Diverge => Diverge
  end.

(** viewtree.py:256-257 with treenode.py:135-143; the root has no parents. *)
Definition static_parents (t : mtree) (n : id) : res (list id) :=
  if has_node t n then Ok (get_parents t n)
  else if String.eqb n main_root then Ok [] else Err ValueError.

Section Views.
  Variable ord : nat -> list id -> list id.

  (** viewtree.py:199-204, for the view at position [i]. Other listeners are not
      views. *)
  Definition vt_has_child (i : nat) (n : id) (y : sys) : res bool :=
    match nth_error (s_listeners y) i with
    | Some (LMain _) => static_has_child (s_tree y) n
    | Some (LView s) => view_has_child s n
    | _ => Err AttributeError
    end.

  (** viewtree.py:206-214 *)
  Definition vt_all_children (i : nat) (n : option id) (y : sys) : res (list id) :=
    match nth_error (s_listeners y) i with
    | Some (LMain _) => static_all_children (s_tree y) n
    | Some (LView s) => view_all_children s n
    | _ => Err AttributeError
    end.

  (** The FilteredTree of a view; a static view makes one (viewtree.py:159-161,
      171-173, 220-222). *)
  Definition vt_filtered (i : nat) (y : sys) : sys * res ft :=
    match nth_error (s_listeners y) i with
    | Some (LMain _) =>
        match main_filtered ord y with
        | (y1, Ok j) => match nth_error (s_listeners y1) j with
                        | Some (LView s) => (y1, Ok s)
                        | _ => (y1, Err AttributeError)
                        end
        | (y1, Err e) => (y1, Err e)
        | (y1, Diverge) => (y1, Diverge)
        end
    | Some (LView s) => (y, Ok s)
    | _ => (y, Err AttributeError)
    end.

  (** viewtree.py:216-223 *)
  Definition vt_n_children (i : nat) (n : option id) (recursive : bool) (y : sys) : sys * res nat :=
    match vt_filtered i y with
    | (y1, Ok s) => (y1, view_n_children s n recursive)
    | (y1, Err e) => (y1, Err e)
    | (y1, Diverge) => (y1, Diverge)
    end.

  (** viewtree.py:164-174 *)
  Definition vt_nodes (i : nat) (withfilters : list id) (y : sys) : sys * res (list id) :=
    match vt_filtered i y with
    | (y1, Ok s) => (y1, Ok (view_nodes (s_bank y1) (s_tree y1) s withfilters))
    | (y1, Err e) => (y1, Err e)
    | (y1, Diverge) => (y1, Diverge)
    end.

  (** viewtree.py:152-162 *)
  Definition vt_n_nodes (i : nat) (withfilters : list id) (y : sys) : sys * res nat :=
    match vt_filtered i y with
    | (y1, Ok s) => (y1, Ok (view_n_nodes (s_bank y1) (s_tree y1) s withfilters))
    | (y1, Err e) => (y1, Err e)
    | (y1, Diverge) => (y1, Diverge)
    end.

  (** viewtree.py:225-243 *)
  Definition vt_nth_child (i : nat) (n : option id) (k : nat) (y : sys) : res id :=
    match nth_error (s_listeners y) i with
    | Some (LMain _) => static_nth_child (s_tree y) n k
    | Some (LView s) => view_nth_child s n k
    | _ => Err AttributeError
    end.

  (** viewtree.py:249-259 *)
  Definition vt_parents (i : nat) (n : id) (y : sys) : res (list id) :=
    match nth_error (s_listeners y) i with
    | Some (LMain _) => static_parents (s_tree y) n
    | Some (LView s) => view_parents s n
    | _ => Err AttributeError
    end.

  (** viewtree.py:245-247 *)
  Definition vt_has_parent (i : nat) (n : id) (y : sys) : res bool :=
    match vt_parents i n y with
    | Ok l => Ok (match l with [] => false | _ => true end)
    | Err e => Err e
    | Diverge => Diverge
    end.

  (** viewtree.py:261-266 *)
  Definition vt_is_displayed (i : nat) (n : id) (y : sys) : bool :=
    match nth_error (s_listeners y) i with
    | Some (LMain _) => has_node (s_tree y) n
    | Some (LView s) => is_displayed s n
    | _ => false
    end.

  (** viewtree.py:148-150 *)
  Definition vt_all_nodes (i : nat) (y : sys) : list id :=
    match nth_error (s_listeners y) i with
    | Some (LMain _) => get_all_nodes (s_tree y)
    | Some (LView s) => view_all_nodes s
    | _ => []
    end.

  (** viewtree.py:176-180 *)
  Definition vt_node_for_path (i : nat) (q : list id) (y : sys) : res (option id) :=
    match nth_error (s_listeners y) i with
    | Some (LMain _) => get_node_for_path (s_tree y) q
    | Some (LView s) => view_node_for_path s q
    | _ => Err AttributeError
    end.

  (** viewtree.py:182-188 *)
  Definition vt_paths (i : nat) (n : id) (y : sys) : res (list (list id)) :=
    match nth_error (s_listeners y) i with
    | Some (LMain _) => get_paths_for_node (s_tree y) n
    | Some (LView s) => view_paths s n
    | _ => Err AttributeError
    end.

  (** viewtree.py:191-197 *)
  Definition vt_next_node (i : nat) (n : id) (parent_id : option id) (y : sys) : res (option id) :=
    match nth_error (s_listeners y) i with
    | Some (LMain _) => next_node (s_tree y) n parent_id
    | Some (LView s) => view_next_node s n parent_id
    | _ => Err AttributeError
    end.
End Views.

(** Calls on one view or count of the library. *)
Section Calls.
  Variable ord : nat -> list id -> list id.

  (** viewtree.py:82-83; a static view has no FilteredTree, unless it made one to
      count. *)
  Definition view_queue_action (i : nat) (n : id) (action : nat) (y : sys) : sys * res unit :=
    match nth_error (s_listeners y) i with
    | Some (LView s) =>
        let '(s1, r) := queue_action n action s in
        (mkSys (s_tree y) (s_bank y) (set_nth i (LView s1) (s_listeners y)) (s_views y) (s_counts y),
         match r with Ok _ => Ok tt | Err e => Err e | Diverge => Diverge end)
    | _ => (y, Err AttributeError)
    end.

  (** viewtree.py:133-142 *)
  Definition view_current_state (i : nat) (y : sys) : sys * res unit :=
    match nth_error (s_listeners y) i with
    | Some (LMain _) => tree_call ord RefreshAll y
    | Some (LView s) =>
        let '(s1, r) := get_current_state s in
        (mkSys (s_tree y) (s_bank y) (set_nth i (LView s1) (s_listeners y)) (s_views y) (s_counts y), r)
    | _ => (y, Err AttributeError)
    end.

  (** viewcount.py:45-58 *)
  Definition count_apply_filter (i : nat) (name : id) (refresh : bool) (y : sys) : sys * res unit :=
    match nth_error (s_listeners y) i with
    | Some (LCount v) =>
        let '(v1, r) := vc_apply_filter (s_bank y) (s_tree y) name refresh v in
        (mkSys (s_tree y) (s_bank y) (set_nth i (LCount v1) (s_listeners y)) (s_views y) (s_counts y), r)
    | _ => (y, Err AttributeError)
    end.

  (** viewcount.py:60-64 *)
  Definition count_unapply_filter (i : nat) (name : id) (y : sys) : sys * res unit :=
    match nth_error (s_listeners y) i with
    | Some (LCount v) =>
        let '(v1, r) := vc_unapply_filter (s_bank y) (s_tree y) name v in
        (mkSys (s_tree y) (s_bank y) (set_nth i (LCount v1) (s_listeners y)) (s_views y) (s_counts y), r)
    | _ => (y, Err AttributeError)
    end.

  (** viewcount.py:67-69 *)
  Definition count_register (i : nat) (f : nat) (y : sys) : sys * res unit :=
    match nth_error (s_listeners y) i with
    | Some (LCount v) =>
        (mkSys (s_tree y) (s_bank y) (set_nth i (LCount (vc_register f v)) (s_listeners y)) (s_views y) (s_counts y), Ok tt)
    | _ => (y, Err AttributeError)
    end.

  (** The calls on the bank through the library (__init__.py:152-173). *)
  Definition on_bank (f : bank -> bank) (y : sys) : sys :=
    mkSys (s_tree y) (f (s_bank y)) (s_listeners y) (s_views y) (s_counts y).
End Calls.
