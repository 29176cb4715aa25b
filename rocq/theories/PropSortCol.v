(** Property theorems about the sort column, and about columns looked up by name. *)
From Coq Require Import ZArith.
From Verif Require Import Base Columns SpecColumns ColumnFacts SortCol SpecSortCol SortColFacts.

(** C60. get_columns lists the columns from left to right; the search column is the
    model column of the name; the expander column is the Gtk column that holds it. A
    name that is not a column is refused. *)
Theorem C60_names : forall d l w, NoDup (map fst d) -> in_order d l -> build_columns d = Ok w ->
  get_columns w = l /\
  (forall n, set_main_search_column w n = match place_in n l with Some num => Ok num | None => Err KeyError end) /\
  (forall n, match set_expander_column w n with
             | Ok k => exists v num, nth_error (objects w) k = Some v /\ place_in n l = Some num /\ In num (tv_cells v)
             | r => r = Err KeyError /\ ~ In n l
             end).
Proof. exact names_spec. Qed.
Print Assumptions C60_names.
Example C60_names_example : NoDup (map fst sheet) /\ in_order sheet sheet_order /\ build_columns sheet = Ok (get_ok sheet) /\
  map fst sheet = ["title"; "color"; "date"; "tags"] /\ get_columns (get_ok sheet) = sheet_order /\
  set_main_search_column (get_ok sheet) "title" = Ok 2 /\ set_expander_column (get_ok sheet) "tags" = Ok 3 /\
  set_expander_column (get_ok sheet) "nowhere" = Err KeyError.
Proof. exact case_names. Qed.

(** C73. The header of a column sorts by the column itself if it has a sorting
    function, and otherwise by the column named in its 'sorting', if all columns begin
    a new one. What is missing: columns that share a Gtk column (false, see below). *)
Theorem C73_headers_partial : forall d l w, NoDup (map fst d) -> in_order d l -> build_columns d = Ok w -> (forall n c, In (n, c) d -> d_new_column c = true) ->
  forall n, In n l -> header w n = match sorts_by d n with Some o => place_in o l | None => None end.
Proof. exact headers_spec. Qed.
Print Assumptions C73_headers_partial.
Example C73_headers_example : NoDup (map fst sheet) /\ in_order sheet sheet_order /\ build_columns sheet = Ok (get_ok sheet) /\
  (forall n c, In (n, c) sheet -> d_new_column c = true) /\
  map (header (get_ok sheet)) sheet_order = [Some 1; Some 1; Some 3; None] /\ map (sorts_by sheet) sheet_order = [Some "date"; Some "date"; Some "tags"; None].
Proof. exact case_headers. Qed.

(** C73 fails for columns that share a Gtk column: the last one decides. *)
Theorem C73_headers_refuted : exists d l w n, NoDup (map fst d) /\ in_order d l /\ build_columns d = Ok w /\ In n l /\ sorts_by d n = Some n /\
  place_in n l = Some 1 /\ header w n = Some 2.
Proof. exact shared_header. Qed.
Print Assumptions C73_headers_refuted.

(** C73. A new widget reports the column named last by a 'sorting', from left to
    right. *)
Theorem C73_initial : forall d l w, NoDup (map fst d) -> in_order d l -> build_columns d = Ok w ->
  get_sort_column (start_sorting w) = (last_sorting d l None, ascending).
Proof. exact initial_spec. Qed.
Print Assumptions C73_initial.
Example C73_initial_example : NoDup (map fst sheet) /\ in_order sheet sheet_order /\ build_columns sheet = Ok (get_ok sheet) /\
  get_sort_column (start_sorting (get_ok sheet)) = (Some "title", true) /\ store_sorts (start_sorting (get_ok sheet)) = None.
Proof. exact case_initial. Qed.

(** C73 fails for a new widget: it reports a sort column, but the rows are not sorted. *)
Theorem C73_initial_refuted : exists d l w n, NoDup (map fst d) /\ in_order d l /\ build_columns d = Ok w /\
  fst (get_sort_column (start_sorting w)) = Some n /\ ~ truthful l (start_sorting w).
Proof. exact never_sorted. Qed.
Print Assumptions C73_initial_refuted.

(** C73. Whatever was done before, after set_sort_column for a column the rows are
    sorted by it, in the given order, and get_sort_column says so. *)
Theorem C73_set_partial : forall d l w cs n o, NoDup (map fst d) -> in_order d l -> build_columns d = Ok w -> In n l ->
  let st := do_sorts w (cs ++ [CSet n o]) (start_sorting w) in truthful l st /\ get_sort_column st = (Some n, o).
Proof. exact truthful_spec. Qed.
Print Assumptions C73_set_partial.
Example C73_set_example : NoDup (map fst sheet) /\ in_order sheet sheet_order /\ build_columns sheet = Ok (get_ok sheet) /\ In "tags" sheet_order /\
  store_sorts (do_sorts (get_ok sheet) [CSet "nowhere" true; CClick 2; CClick 2] (start_sorting (get_ok sheet))) = Some (1, false) /\
  do_sorts (get_ok sheet) ([CSet "nowhere" true; CClick 2; CClick 2] ++ [CSet "tags" false]) (start_sorting (get_ok sheet)) =
    mkSorting (Some "tags") false (Some (3, false)).
Proof. exact case_told. Qed.

(** C73. get_sort_column reports the last column and order given to set_sort_column,
    and before the first such call that of C73_initial. *)
Theorem C73_report : forall d l w cs, NoDup (map fst d) -> in_order d l -> build_columns d = Ok w ->
  get_sort_column (do_sorts w cs (start_sorting w)) = last_set cs (last_sorting d l None, ascending).
Proof. exact report_spec. Qed.
Print Assumptions C73_report.
Example C73_report_example : NoDup (map fst sheet) /\ in_order sheet sheet_order /\ build_columns sheet = Ok (get_ok sheet) /\
  get_sort_column (do_sorts (get_ok sheet) [CClick 3; CSet "date" false; CClick 1; CClick 1] (start_sorting (get_ok sheet))) = (Some "date", false) /\
  get_sort_column (do_sorts (get_ok sheet) [CClick 3] (start_sorting (get_ok sheet))) = (Some "title", true).
Proof. exact case_report. Qed.

(** C73 fails after a click on a header: get_sort_column still reports the column and
    order set last. *)
Theorem C73_click_refuted : exists d l w n o k, NoDup (map fst d) /\ in_order d l /\ build_columns d = Ok w /\
  truthful l (do_sorts w [CSet n o] (start_sorting w)) /\ ~ truthful l (do_sorts w [CSet n o; CClick k] (start_sorting w)).
Proof. exact clicked. Qed.
Print Assumptions C73_click_refuted.

(** C73 fails for a name that is not a column: set_sort_column raises a KeyError, and
    get_sort_column reports that name from then on. *)
Theorem C73_unknown_refuted : exists d l w n o m st, NoDup (map fst d) /\ in_order d l /\ build_columns d = Ok w /\
  truthful l (do_sorts w [CSet n o] (start_sorting w)) /\ ~ In m l /\
  set_sort_column w m o (do_sorts w [CSet n o] (start_sorting w)) = (st, Err KeyError) /\ fst (get_sort_column st) = Some m /\ ~ truthful l st.
Proof. exact unknown_sort. Qed.
Print Assumptions C73_unknown_refuted.
