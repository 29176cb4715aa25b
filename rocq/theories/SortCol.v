(** Model of the sort column of the widget and of the functions that look up a column
    by its name: liblarch_gtk/__init__.py:286-313. ENABLE_SORTING is True. *)
From Verif Require Import Base Columns.

(** The order of a sort column: True is Gtk.SortType.ASCENDING. *)
Definition ascending : bool := true.

(** __init__.py:100-102: the attributes sort_col and sort_order of the widget, and what
    the store sorts by (the result of its get_sort_column_id). *)
Record sorting := mkSorting { w_col : option id; w_order : bool; store_sorts : option (nat * bool) }.

(** __init__.py:101-102 and 164-167: what the constructor leaves. The store is not
    sorted. *)
Definition start_sorting (w : building) : sorting := mkSorting (sort_col w) ascending None.

(** __init__.py:302-308. The attributes are set before the column is looked up. *)
Definition set_sort_column (w : building) (name : id) (order : bool) (st : sorting) : sorting * res unit :=
  match dget name (columns w) with
  | None => (mkSorting (Some name) order (store_sorts st), Err KeyError)
  | Some (num, _) => (mkSorting (Some name) order (Some (num, order)), Ok tt)
  end.

(** __init__.py:310-313 *)
Definition get_sort_column (st : sorting) : option id * bool := (w_col st, w_order st).

(** Gtk: the user clicks on the header of the Gtk column [k]: the store is sorted by
    the column set with set_sort_column_id, and a second click turns the order round. *)
Definition click_header (w : building) (k : nat) (st : sorting) : sorting :=
  match nth_error (objects w) k with
  | Some v =>
      match tv_sort v with
      | Some num =>
          mkSorting (w_col st) (w_order st)
            (Some (num, match store_sorts st with
                        | Some (m, o) => if Nat.eqb m num then negb o else ascending
                        | None => ascending
                        end))
      | None => st
      end
  | None => st
  end.

(** What the program and the user do. *)
Inductive sort_call := CSet (name : id) (order : bool) | CClick (k : nat).
Definition do_sort (w : building) (c : sort_call) (st : sorting) : sorting :=
  match c with
  | CSet name order => fst (set_sort_column w name order st)
  | CClick k => click_header w k st
  end.
Definition do_sorts (w : building) (l : list sort_call) (st : sorting) : sorting := fold_left (fun st c => do_sort w c st) l st.

(** __init__.py:286-288 *)
Definition get_columns (w : building) : list id := map fst (columns w).

(** __init__.py:290-294: the number given to Gtk.TreeView.set_search_column. *)
Definition set_main_search_column (w : building) (name : id) : res nat :=
  match dget name (columns w) with Some (num, _) => Ok num | None => Err KeyError end.

(** __init__.py:296-300: the Gtk column that becomes the expander column. *)
Definition set_expander_column (w : building) (name : id) : res nat :=
  match dget name (columns w) with Some (_, k) => Ok k | None => Err KeyError end.
