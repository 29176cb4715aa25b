(** Vocabulary of the property theorem about opening rows. Definitions only. *)
From Coq Require Import Permutation.
From Verif Require Import Base MainTree Filters FTree SpecApi SpecView SpecViewing Gtk Widget.

(** A row that is visible in the widget as far as the row above it is concerned. *)
Definition in_sight (p : panel) (r : row) : Prop := match r_parent r with None => True | Some a => In a (expanded p) end.

(** Everything a program and its user can do with a widget: calls, other orders of
    the rows, collapse_node and expand_node with any argument, turns of the main
    loop, and rows opened and closed by hand in any way. The application queues its
    own actions only (see [on_panel_signal]). By hand any set of rows may be open, also
    ones Gtk would not have, such as an open row below a closed one. *)
Inductive handled (ord : nat -> list id -> list id) (pf : platform) : viewed -> panel -> Prop :=
| handled_start : forall x x' p r, viewing ord x -> (forall n a, In a (waiting (snd x) n) -> 2 <= a) ->
    build_panel pf x = (x', p, r) -> handled ord pf x' p
| handled_call : forall x p c x' p' r, handled ord pf x p -> supported x c -> (forall n a, c = VQueue n a -> 2 <= a) ->
    panel_call pf ord c x p = (x', p', r) -> handled ord pf x' p'
| handled_sort : forall x p rs, handled ord pf x p -> Permutation rs (rows (store p)) ->
    handled ord pf x (set_store (mkGtk rs (clock (store p)) (cache_paths (store p)) (cache_position (store p))) p)
| handled_node : forall opening llpath t b s p s' p' r, handled ord pf (t, b, s) p ->
    collapse_node opening llpath s p = (s', p', r) -> handled ord pf (t, b, s') p'
| handled_idle : forall t b s p s' p' r, handled ord pf (t, b, s) p -> run_idle s p = (s', p', r) -> handled ord pf (t, b, s') p'
| handled_user : forall x p l, handled ord pf x p -> handled ord pf x (set_expanded l p).

(** Only rows are open. *)
Definition rows_open (p : panel) : Prop := forall a, In a (expanded p) -> exists r, In r (rows (store p)) /\ r_addr r = a.

(** What a program and its user can do without asking for the rows of [n] to be
    opened. *)
Inductive meanwhile (ord : nat -> list id -> list id) (pf : platform) (n : id) (x0 : viewed) (p0 : panel) : viewed -> panel -> Prop :=
| mean_start : meanwhile ord pf n x0 p0 x0 p0
| mean_call : forall x p c x' p' r, meanwhile ord pf n x0 p0 x p -> supported x c -> panel_call pf ord c x p = (x', p', r) ->
    meanwhile ord pf n x0 p0 x' p'
| mean_sort : forall x p rs, meanwhile ord pf n x0 p0 x p -> Permutation rs (rows (store p)) ->
    meanwhile ord pf n x0 p0 x (set_store (mkGtk rs (clock (store p)) (cache_paths (store p)) (cache_position (store p))) p)
| mean_node : forall opening above m t b s p s' p' r, meanwhile ord pf n x0 p0 (t, b, s) p -> (opening = true -> strip m <> n) ->
    collapse_node opening (above ++ [m]) s p = (s', p', r) -> meanwhile ord pf n x0 p0 (t, b, s') p'
| mean_idle : forall t b s p s' p' r, meanwhile ord pf n x0 p0 (t, b, s) p -> (forall rest, idle_calls p <> (n, true) :: rest) ->
    run_idle s p = (s', p', r) -> meanwhile ord pf n x0 p0 (t, b, s') p'
| mean_user : forall x p l, meanwhile ord pf n x0 p0 x p ->
    (forall a, In a l -> In a (expanded p) \/ exists r, In r (rows (store p)) /\ r_addr r = a /\ r_id r <> n) ->
    meanwhile ord pf n x0 p0 x (set_expanded l p).
