(** Model of the columns of the widget: liblarch_gtk/__init__.py, TreeView.__init__
    (lines 100-191) and set_bg_color (326-348), and TreeModel.set_column_function
    (treemodel.py:41-51). *)
From Coq Require Import ZArith.
From Verif Require Import Base.

(** __init__.py:72-98: the description of a column. [d_value] stands for the list
    [type, function]: it is a reference to that list, whose function is kept in
    [functions] below. The title, the renderer, and the flags expandable and
    resizable are left out. *)
Record desc := mkDesc {
  d_order : option Z;
  d_value : nat;
  d_new_column : bool;
  d_visible : bool;
  d_sorting : option id;
  d_sorting_func : bool
}.
Definition description := list (id * desc).

(** __init__.py:109-116: [order_of_column]. *)
Fixpoint order_of_column (last : Z) (d : description) : list (Z * id) :=
  match d with
  | [] => []
  | (n, c) :: r => (match d_order c with Some o => o | None => last end, n) :: order_of_column (last + 1) r
  end.

(** [sorted] on pairs (number, string). *)
Definition pair_leb (a b : Z * id) : bool :=
  Z.ltb (fst a) (fst b) || (Z.eqb (fst a) (fst b) && String.leb (snd a) (snd b)).
Fixpoint insert_pair (x : Z * id) (l : list (Z * id)) : list (Z * id) :=
  match l with
  | [] => [x]
  | y :: r => if pair_leb x y then x :: l else y :: insert_pair x r
  end.
Definition sorted_pairs (l : list (Z * id)) : list (Z * id) := fold_right insert_pair [] l.

(** A Gtk.TreeViewColumn: the model columns its renderers show, in order, whether it
    is visible, and the model column it sorts by. *)
Record tvcolumn := mkTv { tv_cells : list nat; tv_visible : bool; tv_sort : option nat }.
Definition new_tv : tvcolumn := mkTv [] true None.

(** The widget while it is built. The Gtk.TreeViewColumn objects are in [objects];
    [col] is the variable of that name, [appended] the columns of the widget,
    [columns] the dict of that name. *)
Record building := mkBuilding {
  objects : list tvcolumn;
  col : nat;
  appended : list nat;
  columns : list (id * (nat * nat));
  types : list nat;
  sort_col : option id;
  sort_funcs : list (nat * nat)
}.

Fixpoint change_nth {A} (k : nat) (f : A -> A) (l : list A) : list A :=
  match l, k with
  | [], _ => []
  | x :: r, 0 => f x :: r
  | x :: r, S k' => x :: change_nth k' f r
  end.

(** __init__.py:124-172: one turn of the loop, for the column [num] called [name]. *)
Definition column_step (d : description) (num : nat) (name : id) (s : building) : res building :=
  match dget name d with
  | None => Err KeyError
  | Some c =>
      let obs := if d_new_column c then objects s ++ [new_tv] else objects s in
      let k := if d_new_column c then length (objects s) else col s in
      let obs := change_nth k (fun v => mkTv (tv_cells v ++ [num]) (d_visible c) (tv_sort v)) obs in
      let app := if d_new_column c then appended s ++ [k] else appended s in
      let cols := dset name (num, k) (columns s) in
      let tys := types s ++ [d_value c] in
      let funcs := if d_sorting_func c then sort_funcs s ++ [(num, k)] else sort_funcs s in
      match d_sorting c with
      | None => Ok (mkBuilding obs k app cols tys (sort_col s) funcs)
      | Some other =>
          match dget other cols with
          | None => Err KeyError
          | Some (sn, _) =>
              Ok (mkBuilding (change_nth k (fun v => mkTv (tv_cells v) (tv_visible v) (Some sn)) obs) k app cols tys (Some other) funcs)
          end
      end
  end.
Fixpoint column_steps (d : description) (num : nat) (names : list id) (s : building) : res building :=
  match names with
  | [] => Ok s
  | n :: r => match column_step d num n s with Ok s1 => column_steps d (S num) r s1 | Err e => Err e | Diverge => Diverge end
  end.

(** __init__.py:118-121: the first Gtk.TreeViewColumn is made before the loop. *)
Definition start_building : building := mkBuilding [new_tv] 0 [] [] [] None [].

(** __init__.py:109-189. The last step makes the columns with a sorting function
    sort by themselves (186-189). *)
Definition build_columns (d : description) : res building :=
  match column_steps d 1 (map snd (sorted_pairs (order_of_column 9999 d))) start_building with
  | Ok s =>
      Ok (mkBuilding (fold_left (fun obs '(num, k) => change_nth k (fun v => mkTv (tv_cells v) (tv_visible v) (Some num)) obs) (sort_funcs s) (objects s))
                     (col s) (appended s) (columns s) (types s) (sort_col s) (sort_funcs s))
  | Err e => Err e
  | Diverge => Diverge
  end.

(** The functions of the [type, function] lists of all descriptions, by reference.
    treemodel.py:33: the types of the model are the lists themselves, after the one
    for the id, so that column [num] has the list [nth (num - 1) types]. *)
Definition functions := nat -> nat.
Definition column_ref (s : building) (num : nat) : option nat :=
  match num with 0 => None | S i => nth_error (types s) i end.

(** treemodel.py:41-51, for columns other than the one of the id: the list is changed
    in place. *)
Definition set_column_function (s : building) (num : nat) (f : nat) (h : functions) : functions :=
  match column_ref s num with
  | None => h
  | Some r => fun r' => if Nat.eqb r' r then f else h r'
  end.

(** __init__.py:326-348. The default colour is left out, but asking for it goes
    through the widget of the Gtk column, and a column that was not appended to the
    widget has none. The result is the number of the column that gives the
    background. *)
Definition set_bg_color (s : building) (name : id) (f : nat) (h : functions) : functions * res nat :=
  match dget name (columns s) with
  | None => (h, Err ValueError)
  | Some (num, k) =>
      if existsb (Nat.eqb k) (appended s) then (set_column_function s num f h, Ok num)
      else (h, Err AttributeError)
  end.

(** __init__.py:315-319: set_col_visible. *)
Definition set_col_visible (name : id) (v : bool) (s : building) : res building :=
  match dget name (columns s) with
  | None => Err KeyError
  | Some (_, k) =>
      Ok (mkBuilding (change_nth k (fun o => mkTv (tv_cells o) v (tv_sort o)) (objects s)) (col s) (appended s) (columns s)
                     (types s) (sort_col s) (sort_funcs s))
  end.
