(** Vocabulary of the property theorem about rows that stay open. Definitions only. *)
From Coq Require Import Permutation.
From Verif Require Import Base MainTree Filters FTree SpecApi SpecView SpecViewing Gtk Widget SpecLone.

(** What a program and its user can do without closing the row at the path [q] with
    the address [a] or one above it, and without removing a row directly below it. *)
Inductive steady (ord : nat -> list id -> list id) (pf : platform) (q : list id) (a : nat) (x0 : viewed) (p0 : panel) : viewed -> panel -> Prop :=
| steady_start : steady ord pf q a x0 p0 x0 p0
| steady_call : forall x p c x' p' r, steady ord pf q a x0 p0 x p -> supported x c -> panel_call pf ord c x p = (x', p', r) ->
    (forall m, ~ In (SDeleted m (q ++ [m])) (news (snd x) (snd x'))) -> steady ord pf q a x0 p0 x' p'
| steady_sort : forall x p rs, steady ord pf q a x0 p0 x p -> Permutation rs (rows (store p)) ->
    steady ord pf q a x0 p0 x (set_store (mkGtk rs (clock (store p)) (cache_paths (store p)) (cache_position (store p))) p)
| steady_node : forall opening (llpath : list id) t b s p s' p' r, steady ord pf q a x0 p0 (t, b, s) p ->
    (forall (above : list id) (n : id), llpath = above ++ [n] -> opening = false -> ~ In (strip n) q) ->
    collapse_node opening llpath s p = (s', p', r) -> steady ord pf q a x0 p0 (t, b, s') p'
| steady_idle : forall t b s p s' p' r, steady ord pf q a x0 p0 (t, b, s) p -> (forall n rest, idle_calls p = (n, false) :: rest -> ~ In n q) ->
    run_idle s p = (s', p', r) -> steady ord pf q a x0 p0 (t, b, s') p'
| steady_user : forall x p l, steady ord pf q a x0 p0 x p -> In a l -> steady ord pf q a x0 p0 x (set_expanded l p).

(** As [steady], such that no node has two parents after a call. *)
Inductive steady_single (ord : nat -> list id -> list id) (pf : platform) (q : list id) (a : nat) (x0 : viewed) (p0 : panel) : viewed -> panel -> Prop :=
| ssteady_start : steady_single ord pf q a x0 p0 x0 p0
| ssteady_call : forall x p c x' p' r, steady_single ord pf q a x0 p0 x p -> supported x c -> panel_call pf ord c x p = (x', p', r) ->
    (forall m, ~ In (SDeleted m (q ++ [m])) (news (snd x) (snd x'))) -> one_parent (base_tree x') -> steady_single ord pf q a x0 p0 x' p'
| ssteady_sort : forall x p rs, steady_single ord pf q a x0 p0 x p -> Permutation rs (rows (store p)) ->
    steady_single ord pf q a x0 p0 x (set_store (mkGtk rs (clock (store p)) (Gtk.cache_paths (store p)) (cache_position (store p))) p)
| ssteady_node : forall opening (llpath : list id) t b s p s' p' r, steady_single ord pf q a x0 p0 (t, b, s) p ->
    (forall (above : list id) (n : id), llpath = above ++ [n] -> opening = false -> ~ In (strip n) q) ->
    collapse_node opening llpath s p = (s', p', r) -> steady_single ord pf q a x0 p0 (t, b, s') p'
| ssteady_idle : forall t b s p s' p' r, steady_single ord pf q a x0 p0 (t, b, s) p -> (forall n rest, idle_calls p = (n, false) :: rest -> ~ In n q) ->
    run_idle s p = (s', p', r) -> steady_single ord pf q a x0 p0 (t, b, s') p'
| ssteady_user : forall x p l, steady_single ord pf q a x0 p0 x p -> In a l -> steady_single ord pf q a x0 p0 x (set_expanded l p).
