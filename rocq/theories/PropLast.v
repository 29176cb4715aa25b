(** Properties of the open rows of a widget during calls. *)
From Coq Require Import Permutation.
From Verif Require Import Base MainTree Spec Filters FTree SpecApi SpecView SpecViewing Gtk SpecGtk Widget SpecWidget SpecLone SpecExpand SpecExpandLone
  Witness ApiWitness ViewWitness GtkWitness WidgetWitness LoneCases LoneWidgetCases ExpandCases CloseCases ExpandLoneCases WidgetLast WidgetFirst LastCases.

(** C91. An open row with rows below it stays at its path, open and the same row, whatever
    call is made, unless a row directly below it is removed. *)
Theorem C91_lasts : forall ord pf, (forall k l, Permutation (ord k l) l) -> faithful pf -> never_reuses pf ->
  forall t b s p c t' b' s' p' res, handled ord pf (t, b, s) p -> supported (t, b, s) c -> panel_call pf ord c (t, b, s) p = (t', b', s', p', res) ->
  forall r q, at_path (rows (store p)) r q -> is_open p r -> has_below (rows (store p)) r -> (forall m, ~ In (SDeleted m (q ++ [m])) (news s s')) ->
  exists r', at_path (rows (store p')) r' q /\ r_addr r' = r_addr r /\ is_open p' r' /\ has_below (rows (store p')) r'.
Proof. exact use_lasts. Qed.
Print Assumptions C91_lasts.
Example C91_lasts_example : faithful counting /\ never_reuses counting /\ handled keep counting (parts kopen) (snd kopen) /\ supported (parts kopen) wcall /\
  at_path (rows (store (snd kopen))) row_e ["e"] /\ is_open (snd kopen) row_e /\ has_below (rows (store (snd kopen))) row_e /\
  (forall m, ~ In (SDeleted m (["e"] ++ [m])) (news (snd (parts kopen)) (snd (fst wrest)))) /\
  length (rows (store (snd kopen))) = 8 /\ map r_id (rows (store (snd wrest))) = ["e"; "f"; "g"] /\ is_open (snd wrest) row_e.
Proof. exact case_lasts. Qed.

(** C91. A row that is open after a call was open before, or a row was added directly
    below it and its node is not among those that collapse_node and expand_node remember. *)
Theorem C91_opens : forall ord pf, (forall k l, Permutation (ord k l) l) -> faithful pf -> never_reuses pf ->
  forall t b s p c t' b' s' p' res, handled ord pf (t, b, s) p -> rows_open p -> supported (t, b, s) c ->
  panel_call pf ord c (t, b, s) p = (t', b', s', p', res) ->
  forall r' q, at_path (rows (store p')) r' q -> is_open p' r' ->
  (exists r, at_path (rows (store p)) r q /\ r_addr r = r_addr r' /\ is_open p r) \/
  ((exists m, In (SAdded m (q ++ [m])) (news s s')) /\ forall d, In d (collapsed_paths p) -> last d "" <> r_id r').
Proof. exact use_first. Qed.
Print Assumptions C91_opens.
Example C91_opens_example : faithful counting /\ never_reuses counting /\ handled keep counting (parts wadded) (snd wadded) /\ rows_open (snd wadded) /\ supported (parts wadded) wopen /\
  at_path (rows (store (snd wnext))) row_z ["z"] /\ is_open (snd wnext) row_z /\ ~ is_open (snd wadded) row_z /\
  In (SAdded "y" ["z"; "y"]) (news (snd (parts wadded)) (snd (fst wnext))) /\ In ["a"; "b"] (collapsed_paths (snd wadded)).
Proof. exact case_first. Qed.

(** C91. Only rows of the store are open: this is so in the beginning, and calls, sorting,
    collapse_node, expand_node and the callbacks of the main loop keep it. *)
Theorem C91_rows : forall ord pf, (forall k l, Permutation (ord k l) l) -> faithful pf -> never_reuses pf ->
  (forall x x' p r, build_panel pf x = (x', p, r) -> rows_open p) /\
  forall t b s p, handled ord pf (t, b, s) p -> rows_open p ->
  (forall c t' b' s' p' r, supported (t, b, s) c -> panel_call pf ord c (t, b, s) p = (t', b', s', p', r) -> rows_open p') /\
  (forall rs, Permutation rs (rows (store p)) -> rows_open (set_store (mkGtk rs (clock (store p)) (cache_paths (store p)) (cache_position (store p))) p)) /\
  (forall opening llpath s' p' r, collapse_node opening llpath s p = (s', p', r) -> rows_open p') /\
  (forall s' p' r, run_idle s p = (s', p', r) -> rows_open p').
Proof. exact use_rows. Qed.
Print Assumptions C91_rows.
Example C91_rows_example : faithful counting /\ never_reuses counting /\ handled keep counting (parts kend) (snd kend) /\ rows_open (snd kend) /\ supported (parts kend) (VTree (DelNode "z" true)) /\
  is_open (snd kend) row_z /\ ~ In 34 (expanded (snd (fst (panel_call counting keep (VTree (DelNode "z" true)) (parts kend) (snd kend))))) /\
  idle_calls (snd kend) = [("z", false)].
Proof. exact case_only. Qed.

(** C91. The same whatever addresses rows get, when no node has two parents. *)
Theorem C91_single_lasts : forall ord pf, (forall k l, Permutation (ord k l) l) -> faithful pf ->
  forall t b s p c t' b' s' p' res, handled_single ord pf (t, b, s) p -> supported (t, b, s) c ->
  panel_call pf ord c (t, b, s) p = (t', b', s', p', res) -> one_parent t' ->
  forall r q, at_path (rows (store p)) r q -> is_open p r -> has_below (rows (store p)) r -> (forall m, ~ In (SDeleted m (q ++ [m])) (news s s')) ->
  exists r', at_path (rows (store p')) r' q /\ r_addr r' = r_addr r /\ is_open p' r' /\ has_below (rows (store p')) r'.
Proof. exact use_lasts_single. Qed.
Print Assumptions C91_single_lasts.
Example C91_single_lasts_example : faithful lowest /\ handled_single keep lowest (parts lopen) (snd lopen) /\ supported (parts lopen) lcall /\ one_parent (base_tree (fst lrest)) /\
  at_path (rows (store (snd lopen))) row_A ["A"] /\ is_open (snd lopen) row_A /\ has_below (rows (store (snd lopen))) row_A /\
  (forall m, ~ In (SDeleted m (["A"] ++ [m])) (news (snd (parts lopen)) (snd (fst lrest)))) /\
  map r_id (rows (store (snd lrest))) = ["A"; "Y"; "V"; "X"; "U"] /\ is_open (snd lrest) row_A.
Proof. exact lcase_lasts. Qed.

(** C91. Likewise. *)
Theorem C91_single_opens : forall ord pf, (forall k l, Permutation (ord k l) l) -> faithful pf ->
  forall t b s p c t' b' s' p' res, handled_single ord pf (t, b, s) p -> rows_open p -> supported (t, b, s) c ->
  panel_call pf ord c (t, b, s) p = (t', b', s', p', res) -> one_parent t' ->
  forall r' q, at_path (rows (store p')) r' q -> is_open p' r' ->
  (exists r, at_path (rows (store p)) r q /\ r_addr r = r_addr r' /\ is_open p r) \/
  ((exists m, In (SAdded m (q ++ [m])) (news s s')) /\ forall d, In d (collapsed_paths p) -> last d "" <> r_id r').
Proof. exact use_first_single. Qed.
Print Assumptions C91_single_opens.
Example C91_single_opens_example : faithful lowest /\ handled_single keep lowest (parts lbare) (snd lbare) /\ rows_open (snd lbare) /\ supported (parts lbare) wopen /\ one_parent (base_tree (fst lfull)) /\
  at_path (rows (store (snd lfull))) lrow_z ["z"] /\ is_open (snd lfull) lrow_z /\ ~ is_open (snd lbare) lrow_z /\
  In (SAdded "y" ["z"; "y"]) (news (snd (parts lbare)) (snd (fst lfull))) /\ In ["B"] (collapsed_paths (snd lbare)).
Proof. exact lcase_first. Qed.

(** C91. Likewise. *)
Theorem C91_single_rows : forall ord pf, (forall k l, Permutation (ord k l) l) -> faithful pf ->
  forall t b s p, handled_single ord pf (t, b, s) p -> rows_open p ->
  (forall c t' b' s' p' r, supported (t, b, s) c -> panel_call pf ord c (t, b, s) p = (t', b', s', p', r) -> one_parent t' -> rows_open p') /\
  (forall opening llpath s' p' r, collapse_node opening llpath s p = (s', p', r) -> rows_open p') /\
  (forall s' p' r, run_idle s p = (s', p', r) -> rows_open p').
Proof. exact use_rows_single. Qed.
Print Assumptions C91_single_rows.
Example C91_single_rows_example : faithful lowest /\ handled_single keep lowest (parts lgone) (snd lgone) /\ rows_open (snd lgone) /\ supported (parts lgone) (VTree (put "Q" 1 None)) /\
  one_parent (base_tree (fst lnew)) /\ is_open (snd lopen) row_Y /\ In (mkRow (r_addr row_Y) None "Q" (Some 1)) (rows (store (snd lnew))) /\ ~ In (r_addr row_Y) (expanded (snd lnew)).
Proof. exact lcase_only. Qed.
