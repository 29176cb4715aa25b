(** Vocabulary of the property theorems about opening and closing rows when no node
    has two parents. Definitions only. *)
From Coq Require Import Permutation.
From Verif Require Import Base MainTree Filters FTree SpecApi SpecView SpecViewing Gtk Widget SpecLone SpecExpand.

(** As [handled], such that no node has two parents at the beginning and after every
    call. *)
Inductive handled_single (ord : nat -> list id -> list id) (pf : platform) : viewed -> panel -> Prop :=
| hsingle_start : forall x x' p r, viewing ord x -> one_parent (base_tree x) -> (forall n a, In a (waiting (snd x) n) -> 2 <= a) ->
    build_panel pf x = (x', p, r) -> handled_single ord pf x' p
| hsingle_call : forall x p c x' p' r, handled_single ord pf x p -> supported x c -> (forall n a, c = VQueue n a -> 2 <= a) ->
    panel_call pf ord c x p = (x', p', r) -> one_parent (base_tree x') -> handled_single ord pf x' p'
| hsingle_sort : forall x p rs, handled_single ord pf x p -> Permutation rs (rows (store p)) ->
    handled_single ord pf x (set_store (mkGtk rs (clock (store p)) (Gtk.cache_paths (store p)) (cache_position (store p))) p)
| hsingle_node : forall opening llpath t b s p s' p' r, handled_single ord pf (t, b, s) p ->
    collapse_node opening llpath s p = (s', p', r) -> handled_single ord pf (t, b, s') p'
| hsingle_idle : forall t b s p s' p' r, handled_single ord pf (t, b, s) p -> run_idle s p = (s', p', r) -> handled_single ord pf (t, b, s') p'
| hsingle_user : forall x p l, handled_single ord pf x p -> handled_single ord pf x (set_expanded l p).

(** As [meanwhile], such that no node has two parents after a call. *)
Inductive meanwhile_single (ord : nat -> list id -> list id) (pf : platform) (n : id) (x0 : viewed) (p0 : panel) : viewed -> panel -> Prop :=
| msingle_start : meanwhile_single ord pf n x0 p0 x0 p0
| msingle_call : forall x p c x' p' r, meanwhile_single ord pf n x0 p0 x p -> supported x c -> panel_call pf ord c x p = (x', p', r) ->
    one_parent (base_tree x') -> meanwhile_single ord pf n x0 p0 x' p'
| msingle_sort : forall x p rs, meanwhile_single ord pf n x0 p0 x p -> Permutation rs (rows (store p)) ->
    meanwhile_single ord pf n x0 p0 x (set_store (mkGtk rs (clock (store p)) (Gtk.cache_paths (store p)) (cache_position (store p))) p)
| msingle_node : forall opening above m t b s p s' p' r, meanwhile_single ord pf n x0 p0 (t, b, s) p -> (opening = true -> strip m <> n) ->
    collapse_node opening (above ++ [m]) s p = (s', p', r) -> meanwhile_single ord pf n x0 p0 (t, b, s') p'
| msingle_idle : forall t b s p s' p' r, meanwhile_single ord pf n x0 p0 (t, b, s) p -> (forall rest, idle_calls p <> (n, true) :: rest) ->
    run_idle s p = (s', p', r) -> meanwhile_single ord pf n x0 p0 (t, b, s') p'
| msingle_user : forall x p l, meanwhile_single ord pf n x0 p0 x p ->
    (forall a, In a l -> In a (expanded p) \/ exists r, In r (rows (store p)) /\ r_addr r = a /\ r_id r <> n) ->
    meanwhile_single ord pf n x0 p0 x (set_expanded l p).
