(** C88: what a view with filters answers. Nothing but property theorems in this
    file. *)
From Coq Require Import Permutation.
From Verif Require Import Base MainTree Spec Filters FTree ViewCount Api ViewApi SpecApi SpecView SpecViewing SpecSys SpecAnswers AnswerFacts SysCases Witness ApiWitness ViewWitness AnswerCases.

(** C88. A view that shows what it should (C54 and C85 say when) has the nodes that
    satisfy its filters, and finds those that satisfy more filters. *)
Theorem C88_nodes : forall ord y i s, nth_error (s_listeners y) i = Some (LView s) -> shows (s_tree y) (s_bank y) (LView s) ->
  let shown := satisfying (s_bank y) (s_tree y) (filters s) in
  Permutation (vt_all_nodes i y) shown /\
  (forall x, x <> froot s -> (vt_is_displayed i x y = true <-> In x shown)) /\
  forall names, exists l, vt_nodes ord i names y = (y, Ok l) /\ vt_n_nodes ord i names y = (y, Ok (length l)) /\
    Permutation l (filter (fun n => forallb (fun name => match get_filter (s_bank y) name with
      | Some f => xorb (f_fun f (s_tree y) n (f_dic f)) (match f_dic f with Some d => p_negate d | None => false end)
      | None => true
      end) names) shown).
Proof. exact answers_nodes. Qed.
Print Assumptions C88_nodes.

(** C88. Below a shown node, or at the top for None: the children, their number, the
    number of ways down, whether there is one, the one at a position, the next one.
    The system stays as it is. *)
Theorem C88_rows : forall ord y i s fl, nth_error (s_listeners y) i = Some (LView s) -> shows (s_tree y) (s_bank y) (LView s) ->
  (fl = true <-> flattened (s_bank y) (filters s)) ->
  let t := s_tree y in let shown := satisfying (s_bank y) (s_tree y) (filters s) in
  forall n, among shown n -> exists l, vt_all_children i n y = Ok l /\ Permutation l (rows_below fl t shown n) /\
    vt_n_children ord i n false y = (y, Ok (length l)) /\
    (exists L, NoDup L /\ (forall q, In q L <-> way_down fl t shown n q) /\ vt_n_children ord i n true y = (y, Ok (length L))) /\
    forall x, n = Some x -> (exists b, vt_has_child i x y = Ok b /\ (b = true <-> l <> [])) /\
      (forall k, vt_nth_child i n k y = match nth_error l k with Some c => Ok c | None => Err ValueError end) /\
      forall k c, x <> "" -> nth_error l k = Some c -> vt_next_node i c n y = Ok (nth_error l (S k)).
Proof. exact answers_rows. Qed.
Print Assumptions C88_rows.

(** C88. The parents of a shown node that are shown, in the order of the node. *)
Theorem C88_parents : forall y i s fl, nth_error (s_listeners y) i = Some (LView s) -> shows (s_tree y) (s_bank y) (LView s) ->
  (fl = true <-> flattened (s_bank y) (filters s)) ->
  let t := s_tree y in let shown := satisfying (s_bank y) (s_tree y) (filters s) in
  forall x, In x shown -> exists l, vt_parents i x y = Ok l /\ l = rows_above fl t shown x /\
    vt_has_parent i x y = Ok (match l with [] => false | _ => true end).
Proof. exact answers_parents. Qed.
Print Assumptions C88_parents.

(** C88. The paths of a shown node, and the node at a path. *)
Theorem C88_paths : forall y i s fl, nth_error (s_listeners y) i = Some (LView s) -> shows (s_tree y) (s_bank y) (LView s) ->
  (fl = true <-> flattened (s_bank y) (filters s)) ->
  let t := s_tree y in let shown := satisfying (s_bank y) (s_tree y) (filters s) in
  (forall x, In x shown -> exists P, vt_paths i x y = Ok P /\ NoDup P /\ forall q, In q P <-> way_down fl t shown None q /\ last q "" = x) /\
  forall q, exists r, vt_node_for_path i q y = Ok r /\ forall x, r = Some x <-> way_down fl t shown None q /\ last q "" = x.
Proof. exact answers_paths. Qed.
Print Assumptions C88_paths.

(** C88. Asked about a node that is not shown. *)
Theorem C88_missing : forall ord y i s, nth_error (s_listeners y) i = Some (LView s) -> shows (s_tree y) (s_bank y) (LView s) ->
  let shown := satisfying (s_bank y) (s_tree y) (filters s) in
  forall x, x <> froot s -> ~ In x shown ->
  vt_is_displayed i x y = false /\ vt_all_children i (Some x) y = Err KeyError /\ vt_has_child i x y = Err KeyError /\
  (forall b, vt_n_children ord i (Some x) b y = (y, Ok 0)) /\ (forall k, vt_nth_child i (Some x) k y = Err ValueError) /\
  vt_parents i x y = Err IndexError /\ vt_has_parent i x y = Err IndexError /\ vt_paths i x y = Ok [[]] /\
  forall p, p <> "" -> vt_next_node i x (Some p) y = Err PyException.
Proof. exact answers_missing. Qed.
Print Assumptions C88_missing.

Example C88_example : nth_error (s_listeners asys) 1 = Some (LView (view_at asys 1)) /\ shows (s_tree asys) (s_bank asys) (LView (view_at asys 1)) /\
  (false = true <-> flattened (s_bank asys) (filters (view_at asys 1))) /\
  satisfying (s_bank asys) (s_tree asys) (filters (view_at asys 1)) = ["a"; "d"; "z"] /\ get_parents (s_tree asys) "d" = ["c"; "a"].
Proof. exact asys_tree. Qed.
Example C88_answers_example : vt_all_children 1 None asys = Ok ["a"] /\ vt_all_children 1 (Some "a") asys = Ok ["d"; "z"] /\
  vt_n_children keep 1 None true asys = (asys, Ok 4) /\ vt_parents 1 "d" asys = Ok ["a"] /\ vt_nth_child 1 (Some "a") 1 asys = Ok "z" /\
  vt_paths 1 "z" asys = Ok [["a"; "d"; "z"]; ["a"; "z"]] /\ vt_all_children 1 (Some "c") asys = Err KeyError.
Proof. vm_compute. repeat split. Qed.
Example C88_flat_example : nth_error (s_listeners asys) 2 = Some (LView (view_at asys 2)) /\ shows (s_tree asys) (s_bank asys) (LView (view_at asys 2)) /\
  (true = true <-> flattened (s_bank asys) (filters (view_at asys 2))) /\
  satisfying (s_bank asys) (s_tree asys) (filters (view_at asys 2)) = ["a"; "c"; "d"; "z"].
Proof. exact asys_flat. Qed.
