(** Vocabulary of the property theorems about filter functions that raise. Definitions
    only. *)
From Verif Require Import Base MainTree Spec Filters FTree FRaise SpecApi SpecView SpecViewing SpecLoose.

(** None of these filters raises for a node of the tree. *)
Definition untroubled (bad : trouble) (t : mtree) (names : list id) : Prop :=
  forall name n, In name names -> has_node t n = true -> bad name t n = None.

(** One of these filters, asked for a node of the tree, raises [e]. *)
Definition raised (b : bank) (bad : trouble) (t : mtree) (names : list id) (e : exn) : Prop :=
  exists name n, In name names /\ get_filter b name <> None /\ has_node t n = true /\ bad name t n = Some e.

(** Histories of a flat view. Between two calls on the tree the bank and the list of
    applied filters are replaced by any others, without refresh. In each call, and in
    each refresh, the filters raise what they like. *)
Inductive troubled_flat (ord : nat -> list id -> list id) : viewed -> Prop :=
| troubled_open : forall t b name names, reach calm t -> no_clash t (new_ft name) -> flattened b names ->
    troubled_flat ord (opened ord t b name names)
| troubled_tree : forall t b s bad o t' s' r, troubled_flat ord (t, b, s) -> any_fresh t o -> no_clashing_add s o ->
    r_call ord b bad o t s = (t', s', r) -> troubled_flat ord (t', b, s')
| troubled_filters : forall t b s b' names, troubled_flat ord (t, b, s) -> troubled_flat ord (t, b', set_filters names s)
| troubled_refilter : forall t b s bad s' r, troubled_flat ord (t, b, s) -> reach calm t -> flattened b (filters s) ->
    r_refilter ord b bad t s = (s', r) -> troubled_flat ord (t, b, s').
