(** Vocabulary of the property theorems about a second show(). Definitions only. *)
From Verif Require Import Base MainTree Filters FTree SpecApi SpecView SpecViewing Gtk SpecGtk Widget Twice.

(** Calls after show() was called again on the widget of a view. *)
Inductive shown_twice (ord : nat -> list id -> list id) (pf : platform) : viewed -> gtk -> Prop :=
| twice_start : forall x g x' g' r, watching ord pf x g -> show_again pf x g = (x', g', r) -> shown_twice ord pf x' g'
| twice_call : forall x g c x' g' r, shown_twice ord pf x g -> call_again ord pf c x g = (x', g', r) -> shown_twice ord pf x' g'.
