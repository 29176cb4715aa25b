(** Property theorems about the Gtk model (liblarch_gtk/treemodel.py). *)
From Coq Require Import Permutation.
From Verif Require Import Base MainTree Spec Filters FTree SpecApi SpecView SpecViewing Gtk SpecGtk GtkView ApiWitness ViewWitness GtkWitness.

(** C46. A Gtk model connected to a view shows exactly the paths of the view, one
    row each, after every supported call and however the rows are sorted meanwhile.
    What is missing: allocators that give the address of a removed row to a new one
    (false, see below). *)
Theorem C46_mirror_partial : forall ord pf, (forall k l, Permutation (ord k l) l) -> faithful pf -> never_reuses pf ->
  forall t b s g, watching ord pf (t, b, s) g -> shows (rows g) (view_path s).
Proof. exact watching_shows. Qed.
Print Assumptions C46_mirror_partial.
Example C46_example : faithful counting /\ never_reuses counting /\
  watching keep counting (fst (fst (fst wend)), snd (fst (fst wend)), snd (fst wend)) (snd wend) /\
  watched wstart = [(4, Some 2, "d", Some 2); (0, None, "a", Some 1); (2, Some 0, "b", Some 1)] /\
  watched wend = [(6, Some 0, "c", Some 5); (18, Some 10, "z", Some 3); (10, Some 6, "d", Some 2); (0, None, "a", Some 1)].
Proof. exact case_mirror. Qed.

(** C46. No handler raises, neither on connecting nor in a supported call. The same
    is missing. *)
Theorem C46_connect_partial : forall ord pf, (forall k l, Permutation (ord k l) l) -> faithful pf -> never_reuses pf ->
  forall x, viewing ord x -> snd (connect pf x) = Ok tt.
Proof. exact connect_ok. Qed.
Print Assumptions C46_connect_partial.
Theorem C46_no_exception_partial : forall ord pf, (forall k l, Permutation (ord k l) l) -> faithful pf -> never_reuses pf ->
  forall x g c, watching ord pf x g -> supported x c -> snd (widget_call ord pf c x g) = Ok tt.
Proof. exact watching_ok. Qed.
Print Assumptions C46_no_exception_partial.
Example C46_no_exception_example : viewing keep vstart /\ watching keep counting (fst wend) (snd wend) /\
  supported (fst wend) (VTree (DelNode "c" true)) /\
  watched (fst (widget_call keep counting (VTree (DelNode "c" true)) (fst wend) (snd wend))) = [(0, None, "a", Some 1)].
Proof. exact case_no_exception. Qed.

(** C46. With any allocator and sorting: a Gtk model follows all signals that make sense as long
    as they put no node at two places at once. *)
Theorem C46_one_place_partial : forall pf l cs, faithful pf -> tidy_signals [] l cs ->
  exists g, on_heard pf l new_gtk = (g, Ok tt) /\ shows (rows g) (fun p => In p cs).
Proof. exact signals_show. Qed.
Print Assumptions C46_one_place_partial.
Example C46_one_place_example : faithful lowest /\ tidy_signals [] gsignals [["A"]; ["B"]; ["B"; "X"]; ["B"; "X"; "Y"]] /\
  watched (vstart, fst (on_heard lowest gsignals new_gtk)) = [(0, None, "A", Some 1); (2, None, "B", Some 1); (1, Some 2, "X", Some 1); (3, Some 1, "Y", Some 2)].
Proof. exact case_one_place. Qed.

(** C46 fails when addresses are given out again: the wrong row is removed. *)
Theorem C46_reuse_refuted : exists pf t b s g, faithful pf /\ watching keep pf (t, b, s) g /\
  view_path s ["B"; "X"] /\ (forall r, ~ at_path (rows g) r ["B"; "X"]) /\
  ~ view_path s ["A"; "X"] /\ exists r, at_path (rows g) r ["A"; "X"].
Proof. exact reused_addresses. Qed.
Print Assumptions C46_reuse_refuted.
