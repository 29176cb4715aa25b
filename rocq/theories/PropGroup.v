(** Properties of columns that share a Gtk column. *)
From Coq Require Import ZArith.
From Verif Require Import Base Columns SpecColumns ColumnFacts SortCol SpecSortCol SpecGroup GroupFacts.

(** C60 and C73. The Gtk columns of a new widget, exactly, for every description:
    one for each group, with the columns of the group, visible if the last of them
    is, and sorting by its last column with a function, or else by what the last
    column with a 'sorting' asks for. *)
Theorem C60_exact : forall d l w, NoDup (map fst d) -> in_order d l -> build_columns d = Ok w ->
  gtk_columns w = map (fun g => mkTv (places l g) (group_visible d g true) (group_sort d l g)) (tl (groups d l)).
Proof. exact gtk_exact. Qed.
Print Assumptions C60_exact.
Example C60_exact_example : NoDup (map fst shelf) /\ in_order shelf shelf_order /\ build_columns shelf = Ok (get_ok shelf) /\
  groups shelf shelf_order = [["lost"]; ["title"; "color"]; ["date"; "tags"; "count"]] /\
  gtk_columns (get_ok shelf) = [mkTv [2; 3] false (Some 2); mkTv [4; 5; 6] true (Some 2)].
Proof. exact case_shelf. Qed.

(** C60 and C73. Each column looks and sorts as its group, shown or not. *)
Theorem C60_group : forall d l w g n, NoDup (map fst d) -> in_order d l -> build_columns d = Ok w -> In g (groups d l) -> In n g ->
  visible_in w n = Some (group_visible d g true) /\ header w n = group_sort d l g.
Proof. exact group_look. Qed.
Print Assumptions C60_group.
Example C60_group_example : NoDup (map fst shelf) /\ in_order shelf shelf_order /\ build_columns shelf = Ok (get_ok shelf) /\
  In ["date"; "tags"; "count"] (groups shelf shelf_order) /\
  group_visible shelf ["date"; "tags"; "count"] true = true /\ group_sort shelf shelf_order ["date"; "tags"; "count"] = Some 2.
Proof. exact case_group. Qed.

(** C60. set_col_visible changes the columns of the group and nothing else. *)
Theorem C60_set_visible_exact : forall d l w g n v, NoDup (map fst d) -> in_order d l -> build_columns d = Ok w -> In g (groups d l) -> In n g ->
  exists w', set_col_visible n v w = Ok w' /\
    (forall m, In m l -> visible_in w' m = if mem m g then Some v else visible_in w m) /\
    map tv_cells (gtk_columns w') = map tv_cells (gtk_columns w) /\ forall m, header w' m = header w m.
Proof. exact group_set. Qed.
Print Assumptions C60_set_visible_exact.
Example C60_set_visible_exact_example : NoDup (map fst shelf) /\ in_order shelf shelf_order /\ build_columns shelf = Ok (get_ok shelf) /\
  In ["title"; "color"] (groups shelf shelf_order) /\ visible_in (get_ok shelf) "title" = Some false /\ visible_in (get_ok shelf) "date" = Some true.
Proof. exact case_set. Qed.
