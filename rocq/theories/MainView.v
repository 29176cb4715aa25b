(** Model of the main (static) view and of the functions registered on it
    (viewtree.py:54-65 and 89-142), and of the four functions that a TreeModel
    registers on its view (treemodel.py:53-65). *)
From Verif Require Import Base MainTree Callbacks FTree Gtk.

(** viewtree.py:57-65: the event that the main view makes of an event of the tree. *)
Definition main_signal (k : ekind) : id :=
  match k with
  | EAdded => "node-added"
  | EModified => "node-modified"
  | EDeleted => "node-deleted"
  end.

Section Client.
  (** What the registered functions work on. *)
  Context {S : Type}.

  (** A registered function, called with an id and a path (viewtree.py:116-121). It
      may read the tree. Simplification: it does not call the library back. *)
  Definition fn := mtree -> id -> option (list id) -> S -> S * res unit.

  (** viewtree.py:111-121: the functions in the order of registration; one that
      raises stops the rest. *)
  Fixpoint call_each (fs : list fn) (t : mtree) (n : id) (p : option (list id)) (s : S) : S * res unit :=
    match fs with
    | [] => (s, Ok tt)
    | f :: rest =>
        match f t n p s with
        | (s1, Ok _) => call_each rest t n p s1
        | (s1, r) => (s1, r)
        end
    end.

  (** tree.py:74-79 with viewtree.py:57-65: the tree calls the view with an id
      alone, so the path is None. *)
  Definition main_emit (r : registry fn) (e : event) (s : S) : S * res unit :=
    call_each (called (main_signal (ev_kind e)) r) (ev_tree e) (ev_id e) None s.

  Fixpoint main_emits (r : registry fn) (es : list event) (s : S) : S * option (mtree * res unit) :=
    match es with
    | [] => (s, None)
    | e :: rest =>
        match main_emit r e s with
        | (s1, Ok _) => main_emits r rest s1
        | (s1, x) => (s1, Some (ev_tree e, x))
        end
    end.

  (** A call on a tree whose only listener is its main view. As in [tree_call]
      (Api.v), an exception of a function ends the call at that event. *)
  Definition main_call (o : mop) (st : mtree * registry fn * S) : (mtree * registry fn * S) * res unit :=
    let '(t, r, s) := st in
    let '(t1, es, x) := run_op o t in
    match main_emits r es s with
    | (s1, None) => ((t1, r, s1), x)
    | (s1, Some (t2, x2)) => ((t2, r, s1), x2)
    end.

  (** viewtree.py:133-140 on the main view *)
  Definition main_current_state (st : mtree * registry fn * S) : (mtree * registry fn * S) * res unit :=
    main_call RefreshAll st.
End Client.
Arguments fn : clear implicits.

(** A TreeModel registered on the main view. *)
Section TreeModel.
  Variable pf : platform.

  (** A method of the TreeModel as a registered function. With a path that is None
      it raises TypeError (treemodel.py:127-182 take its length or a part of it). *)
  Definition method (m : mtree -> id -> list id -> gtk -> gtk * res unit) : fn gtk :=
    fun t n p g => match p with Some path => m t n path g | None => (g, Err TypeError) end.

  (** treemodel.py:184-202 is called with a third argument; a call with two raises
      TypeError. *)
  Definition reorder_method : fn gtk := fun _ _ _ g => (g, Err TypeError).

  (** treemodel.py:59-62 *)
  Definition connect_functions (r : registry (fn gtk)) : registry (fn gtk) :=
    let r1 := fst (register "node-added-inview" (method (add_task pf)) r) in
    let r2 := fst (register "node-deleted-inview" (method (fun _ => remove_task)) r1) in
    let r3 := fst (register "node-modified-inview" (method (fun t => update_task pf t true)) r2) in
    fst (register "node-children-reordered" reorder_method r3).

  (** treemodel.py:53-65 *)
  Definition connect_model (st : mtree * registry (fn gtk) * gtk) : (mtree * registry (fn gtk) * gtk) * res unit :=
    let '(t, r, g) := st in main_current_state (t, connect_functions r, g).
End TreeModel.
