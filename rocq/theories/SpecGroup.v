(** Vocabulary of the property theorems about columns that share a Gtk column.
    Definitions only. *)
From Verif Require Import Base Columns SpecColumns SortCol SpecSortCol.

(** The columns in groups: the first one has those before the first that begins a
    Gtk column, each other one those of one Gtk column. *)
Fixpoint groups (d : description) (l : list id) : list (list id) :=
  match l with
  | [] => [[]]
  | n :: r =>
      match groups d r with
      | g :: gs => match dget n d with
                   | Some c => if d_new_column c then [] :: (n :: g) :: gs else (n :: g) :: gs
                   | None => (n :: g) :: gs
                   end
      | [] => []
      end
  end.

(** The last word on whether the group is visible. *)
Fixpoint group_visible (d : description) (g : list id) (b : bool) : bool :=
  match g with
  | [] => b
  | n :: r => group_visible d r (match dget n d with Some c => d_visible c | None => b end)
  end.

(** The last column of the group with a function to sort by. *)
Fixpoint last_func (d : description) (g : list id) (o : option id) : option id :=
  match g with
  | [] => o
  | n :: r => last_func d r (match dget n d with Some c => if d_sorting_func c then Some n else o | None => o end)
  end.

(** What a click on the header of the group sorts by. *)
Definition group_sort (d : description) (l g : list id) : option nat :=
  match last_func d g None with
  | Some n => place_in n l
  | None => match last_sorting d g None with Some o => place_in o l | None => None end
  end.

Definition places (l g : list id) : list nat := flat_map (fun n => match place_in n l with Some k => [k] | None => [] end) g.

(** The Gtk columns of the widget, from left to right. *)
Definition gtk_columns (w : building) : list tvcolumn :=
  flat_map (fun k => match nth_error (objects w) k with Some v => [v] | None => [] end) (appended w).
