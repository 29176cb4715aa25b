(** Property theorems about the columns of the widget (C60, C61). Nothing else in this
    file. *)
From Coq Require Import ZArith.
From Verif Require Import Base Columns SpecColumns ColumnFacts.

(** C60. A description says in which order the columns are. *)
Theorem C60_order : forall d, NoDup (map fst d) -> exists l, in_order d l /\ forall l', in_order d l' -> l' = l.
Proof. exact order_exists. Qed.
Print Assumptions C60_order.
Example C60_order_example : NoDup (map fst tasks) /\ in_order tasks ["date"; "title"; "tags"; "color"].
Proof. exact (conj (proj1 tasks_example) (proj1 (proj2 tasks_example))). Qed.

(** C60. A widget that is built has the columns of its description in that order,
    numbered from 1 in the model, with their values; it shows them in that order,
    except those that stand first and are not to begin a column. *)
Theorem C60_columns : forall d l w, NoDup (map fst d) -> in_order d l -> build_columns d = Ok w ->
  map Some (types w) = map (value_of d) l /\
  (forall n, dget n (columns w) <> None <-> In n (map fst d)) /\
  (forall i n, nth_error l i = Some n -> exists k, dget n (columns w) = Some (S i, k)) /\
  cells_shown w = skipn (leading d l) (seq 1 (length l)).
Proof. exact columns_spec. Qed.
Print Assumptions C60_columns.
Example C60_columns_example : NoDup (map fst tasks) /\ in_order tasks ["date"; "title"; "tags"; "color"] /\ build_columns tasks = Ok (get_ok tasks) /\
  dget "tags" (columns (get_ok tasks)) = Some (3, 2) /\ types (get_ok tasks) = [3; 0; 2; 1] /\ cells_shown (get_ok tasks) = [1; 2; 3; 4] /\
  map tv_cells (objects (get_ok tasks)) = [[]; [1]; [2; 3]; [4]].
Proof. exact tasks_example. Qed.

(** C60 fails for a first column that is not to begin a new one: it is never shown,
    although the code makes a Gtk column for this case. *)
Theorem C60_shown_refuted : exists d w n num k, NoDup (map fst d) /\ build_columns d = Ok w /\ dget n (columns w) = Some (num, k) /\ ~ In num (cells_shown w).
Proof. exact column_lost. Qed.
Print Assumptions C60_shown_refuted.

(** C60. When the widget is built: exactly when every column sorts by itself or by a
    column left of it. Otherwise a KeyError is raised. *)
Theorem C60_builds_partial : forall d l, NoDup (map fst d) -> in_order d l ->
  ((exists w, build_columns d = Ok w) <->
   forall i n c o, nth_error l i = Some n -> dget n d = Some c -> d_sorting c = Some o -> In o (firstn (S i) l)) /\
  ((exists w, build_columns d = Ok w) \/ build_columns d = Err KeyError).
Proof. exact builds_iff. Qed.
Print Assumptions C60_builds_partial.
Example C60_builds_example : NoDup (map fst tasks) /\ in_order tasks ["date"; "title"; "tags"; "color"] /\ build_columns tasks = Ok (get_ok tasks).
Proof. exact (conj (proj1 tasks_example) (conj (proj1 (proj2 tasks_example)) eq_refl)). Qed.

(** C60 fails for a column that sorts by a column right of it: the widget cannot be
    built. *)
Theorem C60_builds_refuted : exists d, NoDup (map fst d) /\ (forall n c o, In (n, c) d -> d_sorting c = Some o -> In o (map fst d)) /\
  build_columns d = Err KeyError.
Proof. exact later_sorting. Qed.
Print Assumptions C60_builds_refuted.

(** C60. A column is visible as described, if all columns begin a new one. What is
    missing: columns that share a Gtk column (false, see below). *)
Theorem C60_visible_partial : forall d w, NoDup (map fst d) -> build_columns d = Ok w -> (forall n c, In (n, c) d -> d_new_column c = true) ->
  forall n c, dget n d = Some c -> visible_in w n = Some (d_visible c).
Proof. exact visible_spec. Qed.
Print Assumptions C60_visible_partial.
Example C60_visible_example : let d := [("title", plain_desc (Some 1%Z) 0); ("color", mkDesc None 1 true false None false)] in
  build_columns d = Ok (get_ok d) /\ visible_in (get_ok d) "title" = Some true /\ visible_in (get_ok d) "color" = Some false.
Proof. exact (conj eq_refl (conj eq_refl eq_refl)). Qed.

(** C60 fails for columns that share a Gtk column: the last one decides. *)
Theorem C60_visible_refuted : exists d w n c, NoDup (map fst d) /\ build_columns d = Ok w /\ dget n d = Some c /\ d_visible c = true /\ visible_in w n = Some false.
Proof. exact column_hidden. Qed.
Print Assumptions C60_visible_refuted.

(** C60. set_col_visible changes one column, under the same restriction. *)
Theorem C60_set_visible_partial : forall d w n v, NoDup (map fst d) -> build_columns d = Ok w -> (forall n c, In (n, c) d -> d_new_column c = true) ->
  In n (map fst d) ->
  exists w', set_col_visible n v w = Ok w' /\ visible_in w' n = Some v /\ (forall m, m <> n -> visible_in w' m = visible_in w m) /\
    cells_shown w' = cells_shown w.
Proof. exact set_visible_spec. Qed.
Print Assumptions C60_set_visible_partial.
Example C60_set_visible_example : let d := [("title", plain_desc (Some 1%Z) 0); ("color", mkDesc None 1 true false None false)] in
  exists w, set_col_visible "color" true (get_ok d) = Ok w /\ visible_in w "color" = Some true /\ visible_in w "title" = Some true.
Proof. exact (ex_intro _ _ (conj eq_refl (conj eq_refl eq_refl))). Qed.

(** C61. set_bg_color changes the function of a column that is shown, and of no column
    with another [type, function] list, in this widget or another. *)
Theorem C61_function_partial : forall d w n f h num k, NoDup (map fst d) -> build_columns d = Ok w ->
  dget n (columns w) = Some (num, k) -> In num (cells_shown w) ->
  exists h', set_bg_color w n f h = (h', Ok num) /\ function_of h' w n = Some f /\
    forall d' w', NoDup (map fst d') -> build_columns d' = Ok w' -> forall m, In m (map fst d') -> value_of d' m <> value_of d n ->
      function_of h' w' m = function_of h w' m.
Proof. exact bg_spec. Qed.
Print Assumptions C61_function_partial.
Example C61_example : build_columns tasks = Ok (get_ok tasks) /\ dget "color" (columns (get_ok tasks)) = Some (4, 3) /\ In 4 (cells_shown (get_ok tasks)) /\
  function_of (fst (set_bg_color (get_ok tasks) "color" 9 (fun r => r))) (get_ok tasks) "color" = Some 9 /\
  function_of (fst (set_bg_color (get_ok tasks) "color" 9 (fun r => r))) (get_ok tasks) "tags" = Some 2.
Proof. exact (conj eq_refl (conj eq_refl (conj (or_intror (or_intror (or_intror (or_introl eq_refl)))) (conj eq_refl eq_refl)))). Qed.

(** C61. A name that is not a column is refused, and so is a column that is not
    shown; nothing changes. *)
Theorem C61_refused : forall d w n f h, NoDup (map fst d) -> build_columns d = Ok w ->
  (~ In n (map fst d) -> set_bg_color w n f h = (h, Err ValueError)) /\
  (forall num k, dget n (columns w) = Some (num, k) -> ~ In num (cells_shown w) -> set_bg_color w n f h = (h, Err AttributeError)).
Proof. exact bg_refused. Qed.
Print Assumptions C61_refused.
Example C61_refused_example : set_bg_color (get_ok tasks) "nowhere" 9 (fun r => r) = ((fun r => r), Err ValueError) /\
  build_columns first_joined = Ok (get_ok first_joined) /\ cells_shown (get_ok first_joined) = [2] /\
  set_bg_color (get_ok first_joined) "a" 9 (fun r => r) = ((fun r => r), Err AttributeError).
Proof. exact (conj eq_refl (conj eq_refl (conj eq_refl eq_refl))). Qed.

(** C61 fails for widgets whose descriptions share a [type, function] list:
    set_bg_color on one changes the column of the other. *)
Theorem C61_shared_refuted : exists d d' w w' n m f h, NoDup (map fst d) /\ NoDup (map fst d') /\ build_columns d = Ok w /\ build_columns d' = Ok w' /\
  map fst d <> map fst d' /\ function_of h w' m = Some 7 /\ function_of (fst (set_bg_color w n f h)) w' m = Some 9.
Proof. exact shared_function. Qed.
Print Assumptions C61_shared_refuted.
