(** Vocabulary of the property theorems about the sort column. Definitions only. *)
From Verif Require Import Base Columns SpecColumns SortCol.

(** The model column that a click on the header of the column [n] sorts by. *)
Definition header (w : building) (n : id) : option nat :=
  match dget n (columns w) with
  | Some (_, k) => match nth_error (objects w) k with Some v => tv_sort v | None => None end
  | None => None
  end.

(** The place of a name in a list, from 1. *)
Fixpoint place_in (n : id) (l : list id) : option nat :=
  match l with
  | [] => None
  | m :: r => if String.eqb n m then Some 1 else option_map S (place_in n r)
  end.

(** The column that the column [n] is described to sort by. *)
Definition sorts_by (d : description) (n : id) : option id :=
  match dget n d with
  | Some c => if d_sorting_func c then Some n else d_sorting c
  | None => None
  end.

(** get_sort_column tells the truth: its column and order are those of the store. *)
Definition truthful (l : list id) (st : sorting) : Prop :=
  exists n num, fst (get_sort_column st) = Some n /\ place_in n l = Some num /\ store_sorts st = Some (num, snd (get_sort_column st)).

(** The last column, from left to right, that has a 'sorting'. *)
Fixpoint last_sorting (d : description) (l : list id) (o : option id) : option id :=
  match l with
  | [] => o
  | n :: r => last_sorting d r (match dget n d with Some c => match d_sorting c with Some m => Some m | None => o end | None => o end)
  end.

(** The last column and order given to set_sort_column, or [o] if there are none. *)
Fixpoint last_set (cs : list sort_call) (o : option id * bool) : option id * bool :=
  match cs with
  | [] => o
  | CSet n b :: r => last_set r (Some n, b)
  | CClick _ :: r => last_set r o
  end.
