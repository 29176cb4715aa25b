(** Vocabulary of the property theorems about sorting. Definitions only. *)
From Coq Require Import Permutation.
From Verif Require Import Base MainTree Spec Filters FTree SpecApi SpecView SpecViewing Gtk SpecGtk.

(** Supported calls after a Gtk model was connected to a view; none of them raised an
    exception. At any time the user may have the rows sorted in another way. *)
Inductive healthy (ord : nat -> list id -> list id) (pf : platform) : viewed -> gtk -> Prop :=
| healthy_start : forall x x' g', viewing ord x -> connect pf x = (x', g', Ok tt) -> healthy ord pf x' g'
| healthy_call : forall x g c x' g', healthy ord pf x g -> supported x c -> widget_call ord pf c x g = (x', g', Ok tt) -> healthy ord pf x' g'
| healthy_sort : forall x g rs, healthy ord pf x g -> Permutation rs (rows g) ->
    healthy ord pf x (mkGtk rs (clock g) (cache_paths g) (cache_position g)).
