(** Model of liblarch_gtk/treemodel.py (class TreeModel) and of the few functions
    of Gtk.TreeStore it uses. *)
From Verif Require Import Base MainTree Filters FTree.

(** A row of the Gtk.TreeStore. A Gtk.TreeIter is the address of the row, here a
    number. Column 0 is the node id; there is one other column, which may be empty. *)
Record row := mkRow { r_addr : nat; r_parent : option nat; r_id : id; r_col : option nat }.

(** Dicts whose keys are paths. *)
Section PathDict.
  Context {V : Type}.
  Fixpoint pget (k : list id) (d : list (list id * V)) : option V :=
    match d with
    | [] => None
    | (k', v) :: t => if path_eqb k k' then Some v else pget k t
    end.
  Fixpoint pset (k : list id) (v : V) (d : list (list id * V)) : list (list id * V) :=
    match d with
    | [] => [(k, v)]
    | (k', v') :: t => if path_eqb k k' then (k, v) :: t else (k', v') :: pset k v t
    end.
  Fixpoint pdel (k : list id) (d : list (list id * V)) : list (list id * V) :=
    match d with
    | [] => []
    | (k', v') :: t => if path_eqb k k' then t else (k', v') :: pdel k t
    end.
End PathDict.

(** treemodel.py:26-39. Siblings are in the order of [rows]. [clock] counts the
    changes of the rows. *)
Record gtk := mkGtk {
  rows : list row;
  clock : nat;
  cache_paths : list (list id * option nat);
  cache_position : list (list id * nat)
}.
Definition new_gtk : gtk := mkGtk [] 0 [] [].

Definition row_at (a : nat) (g : gtk) : option row :=
  find (fun r => Nat.eqb (r_addr r) a) (rows g).

Definition parent_is (p : option nat) (r : row) : bool :=
  match p, r_parent r with
  | None, None => true
  | Some a, Some b => Nat.eqb a b
  | _, _ => false
  end.

(** Gtk: the children of a row, or the top rows for None (iter_children,
    get_iter_first, iter_next, iter_nth_child, iter_n_children). *)
Definition store_children (p : option nat) (g : gtk) : list row := filter (parent_is p) (rows g).

(** What the rows get from outside: [address] is the memory allocator, given the
    time and the addresses in use. [arrange] is the order in which the store keeps
    its rows: __init__.py:186-189 and 302-308 make the store sort them, by column
    functions of the application, whenever a row is inserted or changed. [column] is
    the function of the application that computes the column from the data of a
    node; it may return None. *)
Record platform := mkPlatform {
  address : nat -> list nat -> nat;
  arrange : nat -> list row -> list row;
  column : nat -> option nat
}.

(** Gtk: insert(parent, -1, row) puts the row after its siblings. *)
Definition store_insert (addr : nat) (p : option nat) (n : id) (v : option nat) (g : gtk) : gtk :=
  mkGtk (rows g ++ [mkRow addr p n v]) (S (clock g)) (cache_paths g) (cache_position g).

(** Gtk: the store sorts its rows. *)
Definition store_sort (pf : platform) (g : gtk) : gtk :=
  mkGtk (arrange pf (clock g) (rows g)) (clock g) (cache_paths g) (cache_position g).

(** Gtk: remove(iter) removes the row and everything below it. [is_under] goes up
    from [r]; a row has at most as many ancestors as there are rows. *)
Fixpoint is_under (fuel : nat) (l : list row) (a : nat) (r : row) : bool :=
  Nat.eqb (r_addr r) a ||
  match fuel, r_parent r with
  | S f, Some p =>
      match find (fun q => Nat.eqb (r_addr q) p) l with
      | Some q => is_under f l a q
      | None => false
      end
  | _, _ => false
  end.
Definition drop_rows (a : nat) (l : list row) : list row :=
  filter (fun r => negb (is_under (length l) l a r)) l.
Definition store_remove (a : nat) (g : gtk) : gtk :=
  mkGtk (drop_rows a (rows g)) (S (clock g)) (cache_paths g) (cache_position g).

(** treemodel.py:67-102. The path is given reversed, so that [path[:-1]] is the
    tail. *)
Fixpoint my_get_iter_rev (rpath : list id) (g : gtk) : gtk * option nat :=
  match rpath with
  | [] => (g, None)
  | nid :: rparent =>
      let path := rev rpath in
      let cached :=
        match pget path (cache_paths g) with
        | Some (Some a) =>
            match row_at a g with
            | Some r => if String.eqb nid (r_id r) then Some a else None
            | None => None
            end
        | _ => None
        end in
      match cached with
      | Some a => (g, Some a)
      | None =>
          let '(g1, root) := my_get_iter_rev rparent g in
          let at_pos :=
            match pget path (cache_position g1) with
            | Some (S k) =>
                match nth_error (store_children root g1) (S k) with
                | Some r => if String.eqb (r_id r) nid then Some (r_addr r) else None
                | None => None
                end
            | _ => None
            end in
          let it :=
            match at_pos with
            | Some a => Some a
            | None => option_map r_addr (find (fun r => String.eqb (r_id r) nid) (store_children root g1))
            end in
          (mkGtk (rows g1) (clock g1) (pset path it (cache_paths g1)) (cache_position g1), it)
      end
  end.
Definition my_get_iter (path : list id) (g : gtk) : gtk * option nat := my_get_iter_rev (rev path) g.

(** The row after the one at [a] among its siblings. *)
Fixpoint next_row (a : nat) (siblings : list row) : option nat :=
  match siblings with
  | [] => None
  | r :: t => if Nat.eqb (r_addr r) a then option_map r_addr (hd_error t) else next_row a t
  end.

Section Model.
  Variable pf : platform.
  (** The main tree: get_node raises ValueError for an unknown id. *)
  Variable T : mtree.

  (** treemodel.py:127-146. The column 0 function gives the id. *)
  Definition add_task (n : id) (path : list id) (g : gtk) : gtk * res unit :=
    match dget n (nodes T) with
    | None => (g, Err ValueError)
    | Some nd =>
        let '(g1, it) := my_get_iter (removelast path) g in
        let g2 := mkGtk (rows g1) (clock g1) (cache_paths g1)
                        (pset path (length (store_children it g1)) (cache_position g1)) in
        (store_sort pf (store_insert (address pf (clock g2) (map r_addr (rows g2))) it n (column pf (data nd)) g2), Ok tt)
    end.

  (** treemodel.py:148-161. The iterator, which is the one kept in cache_paths, is
      changed by Gtk.TreeStore.remove: it is set to the next sibling, or made invalid
      if there is none. *)
  Definition remove_task (n : id) (path : list id) (g : gtk) : gtk * res unit :=
    let '(g1, it) := my_get_iter path g in
    match it with
    | None => (g1, Err PyException)
    | Some a =>
        match row_at a g1 with
        | None => (g1, Err AssertionError)
        | Some r =>
            if String.eqb (r_id r) n then
              let next := next_row a (store_children (r_parent r) g1) in
              let g1' := mkGtk (rows g1) (clock g1) (pset path next (cache_paths g1)) (cache_position g1) in
              let g2 := store_remove a g1' in
              match pget path (cache_position g2) with
              | None => (g2, Err KeyError)
              | Some _ => (mkGtk (rows g2) (clock g2) (cache_paths g2) (pdel path (cache_position g2)), Ok tt)
              end
            else (g1, Err AssertionError)
        end
    end.

  (** treemodel.py:179-182: a value that is None is not stored. *)
  Definition set_row (a : nat) (n : id) (v : option nat) (g : gtk) : gtk :=
    mkGtk (map (fun r => if Nat.eqb (r_addr r) a
                         then mkRow a (r_parent r) n (match v with Some _ => v | None => r_col r end)
                         else r) (rows g))
          (S (clock g)) (cache_paths g) (cache_position g).

  (** treemodel.py:163-182. [displayed] is [self.tree.is_displayed(node_id)]. *)
  Definition update_task (displayed : bool) (n : id) (path : list id) (g : gtk) : gtk * res unit :=
    if displayed then
      match dget n (nodes T) with
      | None => (g, Err ValueError)
      | Some nd =>
          let '(g1, it) := my_get_iter path g in
          match it with
          | Some a => (store_sort pf (set_row a n (column pf (data nd)) g1), Ok tt)
          | None => (g1, Ok tt)
          end
      end
    else (g, Ok tt).

  (** treemodel.py:59-62: the signals the model is connected to. A 'modified'
      signal is only sent for a displayed node. *)
  Definition on_signal (s : sig) (g : gtk) : gtk * res unit :=
    match s with
    | SAdded n p => add_task n p g
    | SDeleted n p => remove_task n p g
    | SModified n p => update_task true n p g
    | SRun _ _ => (g, Ok tt)
    end.

  Fixpoint on_signals (l : list sig) (g : gtk) : gtk * res unit :=
    match l with
    | [] => (g, Ok tt)
    | s :: rest =>
        match on_signal s g with
        | (g1, Ok _) => on_signals rest g1
        | (g1, r) => (g1, r)
        end
    end.
End Model.
