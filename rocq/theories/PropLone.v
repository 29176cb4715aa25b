(** Property theorems about trees in which no node has two parents. *)
From Coq Require Import Permutation.
From Verif Require Import Base MainTree Spec Filters FTree SpecApi SpecView SpecViewing SpecFrame Gtk SpecGtk SpecPaint StorePrint SpecPrint SpecLone LoneFacts
  Witness ApiWitness ViewWitness ViewCases GtkWitness PaintCases LoneCases.

(** C82. When no node has two parents before and after a call, a view announces a node
    only to clients that know no place of it: it was taken back before. *)
Theorem C82_announced : forall ord, (forall k l, Permutation (ord k l) l) -> forall t b s c,
  viewing ord (t, b, s) -> supported (t, b, s) c -> one_parent t ->
  let '(t', _, s') := fst (view_call ord c (t, b, s)) in one_parent t' ->
  forall cs a n q rest cs1, (forall l, In l cs <-> view_path s l) -> news s s' = a ++ SAdded n q :: rest -> hear_all cs a cs1 ->
  forall p, ~ In (p ++ [n]) cs1.
Proof. exact announces_new. Qed.
Print Assumptions C82_announced.
Example C82_announced_example : viewing keep (fst (fst gview), snd (fst gview), snd gview) /\ supported (fst (fst gview), snd (fst gview), snd gview) gmove /\
  one_parent (fst (fst gview)) /\ one_parent (base_tree (fst (view_call keep gmove gview))) /\ (forall l, In l gold <-> view_path (snd gview) l) /\
  news (snd gview) (snd (fst (view_call keep gmove gview))) = [SModified "A" ["A"]; SDeleted "X" ["A"; "X"]; SModified "A" ["A"]] ++ SAdded "X" ["X"] ::
    [SModified "X" ["X"]; SModified "B" ["B"]; SDeleted "X" ["X"]; SAdded "X" ["B"; "X"]; SModified "X" ["B"; "X"]; SModified "B" ["B"]; SModified "X" ["B"; "X"]] /\
  hear_all gold [SModified "A" ["A"]; SDeleted "X" ["A"; "X"]; SModified "A" ["A"]] [["A"]; ["B"]; ["A"; "Y"]].
Proof. exact case_new. Qed.
(** The condition is needed. *)
Example C82_two_parents : exists t b s c cs n q, viewing keep (t, b, s) /\ supported (t, b, s) c /\ one_parent t /\ (forall l, In l cs <-> view_path s l) /\
  hd_error (news s (snd (fst (view_call keep c (t, b, s))))) = Some (SModified "B" ["B"]) /\
  In (SAdded n q) (news s (snd (fst (view_call keep c (t, b, s))))) /\ In ["A"; n] cs /\ ~ In (SDeleted n ["A"; n]) (news s (snd (fst (view_call keep c (t, b, s))))).
Proof. exact two_parents. Qed.

(** C82. Every node then has one place in the view. *)
Theorem C82_place : forall ord, (forall k l, Permutation (ord k l) l) -> forall t b s p q n,
  viewing ord (t, b, s) -> one_parent t -> view_path s (p ++ [n]) -> view_path s (q ++ [n]) -> p = q.
Proof. exact single_path. Qed.
Print Assumptions C82_place.
Example C82_place_example : viewing keep (fst (fst gview), snd (fst gview), snd gview) /\ one_parent (fst (fst gview)) /\ view_path (snd gview) (["A"] ++ ["X"]).
Proof. exact case_place. Qed.

(** C46. With any allocator, a Gtk model shows exactly the paths of the view, and no
    handler raises, as long as no node has two parents. What is missing: nodes with
    several parents, for which C46_mirror_partial needs an allocator that gives no
    address twice. *)
Theorem C46_single_mirror_partial : forall ord pf, (forall k l, Permutation (ord k l) l) -> faithful pf ->
  forall t b s g, watching_single ord pf (t, b, s) g -> shows (rows g) (view_path s).
Proof. exact wsingle_shows. Qed.
Print Assumptions C46_single_mirror_partial.
Example C46_single_mirror_example : faithful lowest /\ (exists k live live', address lowest k live = address lowest (S k) live') /\
  watching_single keep lowest (fst (fst (fst send)), snd (fst (fst send)), snd (fst send)) (snd send) /\
  watched sstart = [(0, None, "A", Some 1); (1, Some 0, "X", Some 1); (2, Some 0, "Y", Some 2); (3, None, "B", Some 1)] /\
  watched send = [(0, None, "A", Some 1); (3, None, "B", Some 1); (2, None, "Z", Some 1); (1, Some 3, "X", Some 9); (4, Some 1, "W", Some 3)].
Proof. exact case_single. Qed.
Theorem C46_single_connect_partial : forall ord pf, (forall k l, Permutation (ord k l) l) -> faithful pf ->
  forall x, viewing ord x -> one_parent (base_tree x) -> snd (connect pf x) = Ok tt.
Proof. exact wsingle_connect. Qed.
Print Assumptions C46_single_connect_partial.
Theorem C46_single_no_exception_partial : forall ord pf, (forall k l, Permutation (ord k l) l) -> faithful pf ->
  forall x g c, watching_single ord pf x g -> supported x c -> one_parent (base_tree (fst (view_call ord c x))) ->
  snd (widget_call ord pf c x g) = Ok tt.
Proof. exact wsingle_ok. Qed.
Print Assumptions C46_single_no_exception_partial.
Example C46_single_no_exception_example : faithful lowest /\ viewing keep gview /\ one_parent (base_tree gview) /\
  watching_single keep lowest (fst send) (snd send) /\ supported (fst send) smove /\ one_parent (base_tree (fst (view_call keep smove (fst send)))) /\
  watched (fst (widget_call keep lowest smove (fst send) (snd send))) =
    [(0, None, "A", Some 1); (3, None, "B", Some 1); (2, None, "Z", Some 1); (1, Some 2, "X", Some 9); (4, Some 1, "W", Some 3)].
Proof. exact case_single_call. Qed.

(** C58. The same for the data in the rows. Also missing: functions that return None. *)
Theorem C58_single_partial : forall ord pf, (forall k l, Permutation (ord k l) l) -> faithful pf -> (forall d, column pf d <> None) ->
  forall t b s g r, watching_single ord pf (t, b, s) g -> In r (rows g) -> option_map (column pf) (data_at t (r_id r)) = Some (r_col r).
Proof. exact wsingle_data. Qed.
Print Assumptions C58_single_partial.
Example C58_single_example : faithful lowest /\ (exists k live live', address lowest k live = address lowest (S k) live') /\
  watching_single keep lowest (fst (fst (fst send)), snd (fst (fst send)), snd (fst send)) (snd send) /\
  watched sstart = [(0, None, "A", Some 1); (1, Some 0, "X", Some 1); (2, Some 0, "Y", Some 2); (3, None, "B", Some 1)] /\
  watched send = [(0, None, "A", Some 1); (3, None, "B", Some 1); (2, None, "Z", Some 1); (1, Some 3, "X", Some 9); (4, Some 1, "W", Some 3)].
Proof. exact case_single. Qed.

(** C68. The same for rows that stay. *)
Theorem C68_single_partial : forall ord pf, (forall k l, Permutation (ord k l) l) -> faithful pf ->
  forall o t b s g t' b' s' g' r0, watching_single ord pf (t, b, s) g -> supported (t, b, s) (VTree o) -> one_parent (after o t) ->
  widget_call ord pf (VTree o) (t, b, s) g = (t', b', s', g', r0) ->
  forall r q, at_path (rows g) r q -> view_path s' q -> exists r', at_path (rows g') r' q /\ r_addr r' = r_addr r.
Proof. exact wsingle_stays. Qed.
Print Assumptions C68_single_partial.
Example C68_single_example : faithful lowest /\ watching_single keep lowest (fst (fst (fst send)), snd (fst (fst send)), snd (fst send)) (snd send) /\
  supported (fst send) (VTree (SetParent "Z" (Some "X"))) /\ one_parent (after (SetParent "Z" (Some "X")) (base_tree (fst send))) /\
  widget_call keep lowest (VTree (SetParent "Z" (Some "X"))) (fst send) (snd send) = (swide, Ok tt) /\
  at_path (rows (snd send)) (mkRow 4 (Some 1) "W" (Some 3)) ["B"; "X"; "W"] /\ view_path (snd (fst swide)) ["B"; "X"; "W"] /\
  watched swide = [(0, None, "A", Some 1); (3, None, "B", Some 1); (1, Some 3, "X", Some 9); (4, Some 1, "W", Some 3); (2, Some 1, "Z", Some 1)].
Proof. exact case_single_stays. Qed.

(** C74. The same for printing the store. *)
Theorem C74_single_partial : forall ord pf, (forall k l, Permutation (ord k l) l) -> faithful pf ->
  forall t b s g, watching_single ord pf (t, b, s) g ->
  exists qs, NoDup qs /\ (forall q, In q qs <-> view_path s q) /\ branches [] qs /\
    store_print g = Ok (map (fun q => arrows (pred (length q)) (last q "")) qs).
Proof. exact wsingle_print. Qed.
Print Assumptions C74_single_partial.
Example C74_single_example : faithful lowest /\ watching_single keep lowest (fst (fst (fst send)), snd (fst (fst send)), snd (fst send)) (snd send) /\
  store_print (snd send) = Ok [" A"; " B"; "=> X"; "=>=> W"; " Z"].
Proof. exact case_single_print. Qed.

(** C71. The same when the function of a column is exchanged. Also missing: functions
    that return None, and the time before refresh_all. *)
Theorem C71_single_calls_partial : forall ord pf, (forall k l, Permutation (ord k l) l) -> faithful pf ->
  forall f k x g c, painting_single ord pf f k x g -> supported x c -> one_parent (base_tree (fst (view_call ord c x))) ->
  snd (widget_call ord (repainted pf f) c x g) = Ok tt.
Proof. exact psingle_ok. Qed.
Print Assumptions C71_single_calls_partial.
Theorem C71_single_places_partial : forall ord pf, (forall k l, Permutation (ord k l) l) -> faithful pf ->
  forall f k t b s g, painting_single ord pf f k (t, b, s) g -> shows (rows g) (view_path s).
Proof. exact psingle_shows. Qed.
Print Assumptions C71_single_places_partial.
Theorem C71_single_refreshed_partial : forall ord pf, (forall k l, Permutation (ord k l) l) -> faithful pf ->
  forall f t b s g r, (forall d, f d <> None) -> painting_single ord pf f true (t, b, s) g -> In r (rows g) ->
  option_map f (data_at t (r_id r)) = Some (r_col r).
Proof. exact psingle_data. Qed.
Print Assumptions C71_single_refreshed_partial.
Example C71_single_example : faithful lowest /\ (forall d, by_parity d <> None) /\
  painting_single keep lowest by_parity true (fst (fst (fst sgone)), snd (fst (fst sgone)), snd (fst sgone)) (snd sgone) /\
  watched sset = [(0, None, "A", Some 1); (1, Some 0, "X", Some 1); (2, Some 0, "Y", Some 2); (3, None, "B", Some 1)] /\
  watched sgone = [(0, None, "A", Some 3); (1, Some 0, "X", Some 3); (3, None, "B", Some 3); (2, Some 1, "Y", Some 2)].
Proof. exact case_psingle. Qed.
