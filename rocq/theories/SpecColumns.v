(** Vocabulary of the property theorems about the columns of the widget. Definitions
    only. *)
From Coq Require Import ZArith Sorted Permutation.
From Verif Require Import Base Columns.

(** The place a column asks for: its order, or 9999 and more for the columns
    without one, as they come in the description. *)
Definition place_of (d : description) (i : nat) (c : desc) : Z :=
  match d_order c with Some o => o | None => (9999 + Z.of_nat i)%Z end.

(** [earlier d m n]: the column [m] is to be left of [n]. *)
Definition earlier (d : description) (m n : id) : Prop :=
  exists i j c e, nth_error d i = Some (m, c) /\ nth_error d j = Some (n, e) /\
    (place_of d i c < place_of d j e \/ place_of d i c = place_of d j e /\ String.ltb m n = true)%Z.

(** [in_order d l]: the columns of [d] from left to right. *)
Definition in_order (d : description) (l : list id) : Prop :=
  Permutation l (map fst d) /\ StronglySorted (earlier d) l.

Definition value_of (d : description) (n : id) : option nat := option_map d_value (dget n d).

(** How many of the first columns are not to begin a new one. *)
Fixpoint leading (d : description) (l : list id) : nat :=
  match l with
  | [] => 0
  | n :: r => match dget n d with
              | Some c => if d_new_column c then 0 else S (leading d r)
              | None => 0
              end
  end.

(** What the widget shows: the model columns, from left to right. *)
Definition cells_shown (w : building) : list nat :=
  flat_map (fun k => match nth_error (objects w) k with Some v => tv_cells v | None => [] end) (appended w).

(** Is the column visible? *)
Definition visible_in (w : building) (n : id) : option bool :=
  match dget n (columns w) with
  | Some (_, k) => option_map tv_visible (nth_error (objects w) k)
  | None => None
  end.

(** The function that computes a column. *)
Definition function_of (h : functions) (w : building) (n : id) : option nat :=
  match dget n (columns w) with
  | Some (num, _) => option_map h (column_ref w num)
  | None => None
  end.
