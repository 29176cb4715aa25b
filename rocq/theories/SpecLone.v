(** Vocabulary of the property theorems about trees in which no node has two parents. Definitions only. *)
From Coq Require Import Permutation.
From Verif Require Import Base MainTree Spec Filters FTree SpecApi SpecView SpecViewing Gtk SpecGtk SpecPaint Widget SpecWidget.

(** No node has two parents. *)
Definition one_parent (t : mtree) : Prop := forall x p q, In p (parents t x) -> In q (parents t x) -> p = q.
(** The tree of a view. *)
Definition base_tree (x : viewed) : mtree := fst (fst x).

(** Supported calls after a Gtk model was connected to a view with a supported
    history, such that no node has two parents at the beginning and after every call. *)
Inductive watching_single (ord : nat -> list id -> list id) (pf : platform) : viewed -> gtk -> Prop :=
| single_start : forall x x' g' r, viewing ord x -> one_parent (base_tree x) -> connect pf x = (x', g', r) -> watching_single ord pf x' g'
| single_call : forall x g c x' g' r, watching_single ord pf x g -> supported x c -> widget_call ord pf c x g = (x', g', r) ->
    one_parent (base_tree x') -> watching_single ord pf x' g'
| single_sort : forall x g rs, watching_single ord pf x g -> Permutation rs (rows g) ->
    watching_single ord pf x (mkGtk rs (clock g) (Gtk.cache_paths g) (cache_position g)).

(** The same when the function of the column is exchanged at any time. The flag tells
    whether refresh_all was called since. *)
Inductive painting_single (ord : nat -> list id -> list id) (pf : platform) : (nat -> option nat) -> bool -> viewed -> gtk -> Prop :=
| psingle_start : forall f x x' g' r, viewing ord x -> one_parent (base_tree x) -> connect (repainted pf f) x = (x', g', r) ->
    painting_single ord pf f true x' g'
| psingle_call : forall f k x g c x' g' r, painting_single ord pf f k x g -> supported x c -> widget_call ord (repainted pf f) c x g = (x', g', r) ->
    one_parent (base_tree x') -> painting_single ord pf f k x' g'
| psingle_refresh : forall f k x g x' g' r, painting_single ord pf f k x g -> widget_call ord (repainted pf f) (VTree RefreshAll) x g = (x', g', r) ->
    painting_single ord pf f true x' g'
| psingle_sort : forall f k x g rs, painting_single ord pf f k x g -> Permutation rs (rows g) ->
    painting_single ord pf f k x (mkGtk rs (clock g) (Gtk.cache_paths g) (cache_position g))
| psingle_set : forall f f' k x g, painting_single ord pf f k x g -> painting_single ord pf f' false x g.

(** What a program can do with a widget when no node has two parents at the beginning
    and after every call. *)
Inductive in_use_single (ord : nat -> list id -> list id) (pf : platform) (start : viewed -> Prop) : list id -> viewed -> panel -> Prop :=
| usingle_start : forall x x' p r, viewing ord x -> one_parent (base_tree x) -> start x -> (forall n a, In a (waiting (snd x) n) -> 2 <= a) ->
    build_panel pf x = (x', p, r) -> in_use_single ord pf start [] x' p
| usingle_call : forall asked x p c x' p' r, in_use_single ord pf start asked x p -> supported x c -> (forall n a, c = VQueue n a -> 2 <= a) ->
    panel_call pf ord c x p = (x', p', r) -> one_parent (base_tree x') -> in_use_single ord pf start asked x' p'
| usingle_sort : forall asked x p rs, in_use_single ord pf start asked x p -> Permutation rs (rows (store p)) ->
    in_use_single ord pf start asked x (set_store (mkGtk rs (clock (store p)) (Gtk.cache_paths (store p)) (cache_position (store p))) p)
| usingle_collapse : forall asked t b s p above n s' p' r, in_use_single ord pf start asked (t, b, s) p -> strip n <> "" ->
    collapse_node false (above ++ [n]) s p = (s', p', r) -> in_use_single ord pf start (strip n :: asked) (t, b, s') p'
| usingle_idle : forall asked t b s p s' p' r, in_use_single ord pf start asked (t, b, s) p ->
    run_idle s p = (s', p', r) -> in_use_single ord pf start asked (t, b, s') p'.
