(** Property theorems about a widget on which show() is called again. *)
From Coq Require Import Permutation.
From Verif Require Import Base MainTree Spec Filters FTree SpecApi SpecView SpecViewing Gtk SpecGtk Widget Twice SpecTwice TwiceFacts
  Witness ApiWitness ViewWitness ViewCases GtkWitness TwiceCases.

(** C75 fails: after a second show() the rows are not those of the view. *)
Theorem C75_rows_refuted : exists pf x g x' g', faithful pf /\ never_reuses pf /\ watching keep pf x g /\ show_again pf x g = (x', g', Ok tt) /\
  ~ shows (rows g') (view_path (snd x')).
Proof. exact shown_not. Qed.
Print Assumptions C75_rows_refuted.

(** C75 fails: after a second show(), removing a node raises a KeyError. *)
Theorem C75_removal_refuted : exists pf x g c, faithful pf /\ never_reuses pf /\ shown_twice keep pf x g /\ supported x c /\
  snd (call_again keep pf c x g) = Err KeyError.
Proof. exact removal_fails. Qed.
Print Assumptions C75_removal_refuted.

(** C75 fails for every widget: a second show() makes two more rows for each row. *)
Theorem C75_triples : forall ord pf, (forall k l, Permutation (ord k l) l) -> faithful pf -> never_reuses pf ->
  forall x g, watching ord pf x g -> exists x' g', show_again pf x g = (x', g', Ok tt) /\ length (rows g') = 3 * length (rows g).
Proof. exact shown_again. Qed.
Print Assumptions C75_triples.
Example C75_triples_example : faithful counting /\ never_reuses counting /\ watching keep counting (fst wend) (snd wend) /\
  length (rows (snd wend)) = 4 /\ snd (show_again counting (fst wend) (snd wend)) = Ok tt /\ length (rows (snd tagain)) = 12.
Proof. exact case_again. Qed.

(** C75 fails for every widget: afterwards each call that removes a path from the view
    raises. *)
Theorem C75_removals : forall ord pf c t b s g x' g', shown_twice ord pf (t, b, s) g -> call_again ord pf c (t, b, s) g = (x', g', Ok tt) ->
  forall n q, ~ In (SDeleted n q) (news s (snd x')).
Proof. exact removal_raises. Qed.
Print Assumptions C75_removals.
Example C75_removals_example : shown_twice keep counting (fst (fst (fst tagain)), snd (fst (fst tagain)), snd (fst tagain)) (snd tagain) /\
  snd (call_again keep counting (VTree (SetData "c" 8)) (fst tagain) (snd tagain)) = Ok tt /\
  snd (call_again keep counting (VTree (DelNode "z" false)) (fst tagain) (snd tagain)) = Err KeyError.
Proof. exact case_removal. Qed.
