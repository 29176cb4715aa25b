(** Vocabulary of the property theorems about colours. Definitions only. *)
From Coq Require Import Permutation NArith.
From Verif Require Import Base MainTree Spec Filters FTree SpecApi SpecView SpecViewing Gtk SpecGtk Cells.

(** The same store with another function for its column. *)
Definition repainted (pf : platform) (f : nat -> option nat) : platform := mkPlatform (address pf) (arrange pf) f.

(** Histories of a connected Gtk model in which the function of the column is
    exchanged at any time (set_bg_color). The flag tells whether refresh_all was
    called since. *)
Inductive painting (ord : nat -> list id -> list id) (pf : platform) : (nat -> option nat) -> bool -> viewed -> gtk -> Prop :=
| paint_start : forall f x x' g' r, viewing ord x -> connect (repainted pf f) x = (x', g', r) -> painting ord pf f true x' g'
| paint_call : forall f k x g c x' g' r, painting ord pf f k x g -> supported x c -> widget_call ord (repainted pf f) c x g = (x', g', r) ->
    painting ord pf f k x' g'
| paint_refresh : forall f k x g x' g' r, painting ord pf f k x g -> widget_call ord (repainted pf f) (VTree RefreshAll) x g = (x', g', r) ->
    painting ord pf f true x' g'
| paint_sort : forall f k x g rs, painting ord pf f k x g -> Permutation rs (rows g) ->
    painting ord pf f k x (mkGtk rs (clock g) (Gtk.cache_paths g) (cache_position g))
| paint_set : forall f f' k x g, painting ord pf f k x g -> painting ord pf f' false x g.

(** A colour that is called dark: less than half as bright as white. *)
Definition dark (parse : color -> option (N * N * N)) (c : color) : Prop :=
  exists r g b, parse c = Some (r, g, b) /\ (2 * (2126 * r + 7152 * g + 722 * b) < 2126 * 65535 + 7152 * 65535 + 722 * 65535)%N.
