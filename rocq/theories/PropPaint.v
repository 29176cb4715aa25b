(** Property theorems about columns whose function changes, and about colours. *)
From Coq Require Import Permutation NArith.
From Verif Require Import Base MainTree Spec Filters FTree SpecApi SpecView SpecViewing SpecFrame Gtk SpecGtk Cells SpecPaint PaintFacts
  Witness ApiWitness ViewWitness ViewCases GtkWitness PaintCases.

(** C71. The function of a column can be exchanged at any time: no later call raises,
    and the rows stay those of the view. What is missing: allocators that give the
    address of a removed row to a new one (see C46). *)
Theorem C71_calls_partial : forall ord pf, (forall k l, Permutation (ord k l) l) -> faithful pf -> never_reuses pf ->
  forall f k x g c, painting ord pf f k x g -> supported x c -> snd (widget_call ord (repainted pf f) c x g) = Ok tt.
Proof. exact painting_ok. Qed.
Print Assumptions C71_calls_partial.
Example C71_calls_example : faithful counting /\ never_reuses counting /\ painting keep counting by_parity false (fst pset') (snd pset') /\
  supported (fst pset') (VTree (SetData "c" 8)) /\
  snd (widget_call keep (repainted counting by_parity) (VTree (SetData "c" 8)) (fst pset') (snd pset')) = Ok tt /\
  colours (snd (fst (widget_call keep (repainted counting by_parity) (VTree (SetData "c" 8)) (fst pset') (snd pset')))) = [("a", Some 3); ("d", Some 2); ("d", Some 2); ("c", Some 2); ("b", Some 1)].
Proof. exact case_paint_call. Qed.

Theorem C71_places_partial : forall ord pf, (forall k l, Permutation (ord k l) l) -> faithful pf -> never_reuses pf ->
  forall f k t b s g, painting ord pf f k (t, b, s) g -> shows (rows g) (view_path s).
Proof. exact painting_shows. Qed.
Print Assumptions C71_places_partial.
Example C71_places_example : faithful counting /\ never_reuses counting /\ (forall d, by_parity d <> None) /\
  painting keep counting by_parity true (fst (fst (fst pdone)), snd (fst (fst pdone)), snd (fst pdone)) (snd pdone) /\
  colours (snd pset') = [("c", Some 5); ("d", Some 2); ("d", Some 2); ("a", Some 1); ("b", Some 1)] /\
  colours (snd pdone) = [("b", Some 3); ("a", Some 3); ("c", Some 3); ("d", Some 2); ("d", Some 2)].
Proof. exact case_paint. Qed.

(** C71. From the next refresh_all on, every row shows what the new function makes of
    the data of its node. What is missing: as above, functions that return None (see
    C58), and the time before refresh_all (false, see below). *)
Theorem C71_refreshed_partial : forall ord pf, (forall k l, Permutation (ord k l) l) -> faithful pf -> never_reuses pf ->
  forall f t b s g r, (forall d, f d <> None) -> painting ord pf f true (t, b, s) g -> In r (rows g) ->
  option_map f (data_at t (r_id r)) = Some (r_col r).
Proof. exact painting_data. Qed.
Print Assumptions C71_refreshed_partial.
Example C71_refreshed_example : faithful counting /\ never_reuses counting /\ (forall d, by_parity d <> None) /\
  painting keep counting by_parity true (fst (fst (fst pdone)), snd (fst (fst pdone)), snd (fst pdone)) (snd pdone) /\
  colours (snd pset') = [("c", Some 5); ("d", Some 2); ("d", Some 2); ("a", Some 1); ("b", Some 1)] /\
  colours (snd pdone) = [("b", Some 3); ("a", Some 3); ("c", Some 3); ("d", Some 2); ("d", Some 2)].
Proof. exact case_paint. Qed.

(** C71 fails before that: the rows keep the values of the old function. *)
Theorem C71_refuted : exists pf f t b s g r, faithful pf /\ never_reuses pf /\ (forall d, f d <> None) /\ painting keep pf f false (t, b, s) g /\
  In r (rows g) /\ data_at t (r_id r) = Some 5 /\ f 5 = Some 3 /\ r_col r = Some 5.
Proof. exact not_repainted. Qed.
Print Assumptions C71_refuted.

(** C72. What a cell looks like depends on the colour of its row only, not on the rows
    drawn before, nor on the brightnesses remembered: the background is that colour,
    and text is white exactly on dark colours. Drawing raises exactly when the colour
    of a text cell is not known; the cell is then left as it was. *)
Theorem C72_look : forall parse l v k cache k' o, cell_data parse true v (cells_data parse l []) k = (cache, k', o) ->
  c_text k' = c_text k /\
  (o = Ok tt <-> (c_text k = true -> forall c, v = Some c -> parse c <> None)) /\
  (o = Ok tt -> c_background k' = v /\ (c_text k = true -> (c_white k' = true <-> exists c, v = Some c /\ dark parse c))) /\
  (o <> Ok tt -> o = Err AttributeError /\ k' = k).
Proof. exact look. Qed.
Print Assumptions C72_look.
Example C72_look_example :
  cell_data palette true (Some 2) (cells_data palette before_draw []) (mkCell true false (Some 3)) =
    ([(2, 127560000%N); (3, 655350000%N)], mkCell true true (Some 2), Ok tt) /\
  cell_data palette true (Some 3) (cells_data palette before_draw []) (mkCell true true (Some 2)) =
    ([(2, 127560000%N); (3, 655350000%N)], mkCell true false (Some 3), Ok tt) /\
  dark palette 2.
Proof. exact case_look. Qed.

(** C72. Without set_bg_color cells are left alone. *)
Theorem C72_unset : forall parse v cache k, snd (fst (cell_data parse false v cache k)) = k /\ snd (cell_data parse false v cache k) = Ok tt.
Proof. exact look_unset. Qed.
Print Assumptions C72_unset.
Example C72_unset_example : cell_data palette false (Some 2) [] (mkCell true false None) = ([], mkCell true false None, Ok tt).
Proof. exact eq_refl. Qed.

(** C72. The cells of a row have the colour that the function gives for the current
    data of its node, under the conditions of C71 and if the colours are known. *)
Theorem C72_row_partial : forall ord pf, (forall k l, Permutation (ord k l) l) -> faithful pf -> never_reuses pf ->
  forall parse f t b s g r, (forall d, exists c, f d = Some c /\ parse c <> None) -> painting ord pf f true (t, b, s) g -> In r (rows g) ->
  forall l k, exists cache k' v, cell_data parse true (r_col r) (cells_data parse l []) k = (cache, k', Ok tt) /\
    data_at t (r_id r) = Some v /\ c_background k' = f v /\
    (c_text k = true -> (c_white k' = true <-> exists c, f v = Some c /\ dark parse c)).
Proof. exact row_look. Qed.
Print Assumptions C72_row_partial.
Example C72_row_example : (forall d, exists c, by_parity d = Some c /\ palette c <> None) /\
  painting keep counting by_parity true (fst (fst (fst pdone)), snd (fst (fst pdone)), snd (fst pdone)) (snd pdone) /\
  In (mkRow 6 (Some 2) "d" (Some 2)) (rows (snd pdone)) /\
  snd (fst (cell_data palette true (Some 2) (cells_data palette before_draw []) (mkCell true false None))) = mkCell true true (Some 2).
Proof. exact case_row_look. Qed.

(** C72 fails for a name that is not a colour: the cell is drawn like the row before. *)
Theorem C72_unknown_refuted : exists parse k v cache k', cell_data parse true (Some v) (cells_data parse [(k, c_background k)] []) k = (cache, k', Err AttributeError) /\
  c_background k <> None /\ c_background k' <> Some v /\ c_background k' = c_background k.
Proof. exact colour_unknown. Qed.
Print Assumptions C72_unknown_refuted.
