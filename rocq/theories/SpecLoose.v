(** Vocabulary of the property theorems about views whose filters are changed
    without refresh, or look at more than the node. Definitions only. *)
From Verif Require Import Base MainTree Spec Filters FTree SpecApi SpecView SpecViewing.

(** New nodes are called neither like an event nor like the root of the view. *)
Definition no_clashing_add (s : ft) (o : mop) : Prop :=
  match o with AddNode n _ _ => n <> froot s /\ ~ In n reserved | _ => True end.

(** Histories of a flat view. The bank can have any filters, which look at the whole
    tree. Between two calls on the tree the bank and the list of applied filters are
    replaced by any others, without refresh. Calls on the tree are arbitrary, apart
    from ids of new nodes. *)
Inductive loose_flat (ord : nat -> list id -> list id) : viewed -> Prop :=
| loose_flat_open : forall t b name names, reach calm t -> no_clash t (new_ft name) -> flattened b names ->
    loose_flat ord (opened ord t b name names)
| loose_flat_tree : forall t b s o, loose_flat ord (t, b, s) -> any_fresh t o -> no_clashing_add s o ->
    loose_flat ord (fst (view_call ord (VTree o) (t, b, s)))
| loose_flat_filters : forall t b s b' names, loose_flat ord (t, b, s) -> loose_flat ord (t, b', set_filters names s)
| loose_flat_refilter : forall t b s, loose_flat ord (t, b, s) -> reach calm t -> flattened b (filters s) ->
    loose_flat ord (fst (view_call ord VRefilter (t, b, s))).

(** Every node has at most one parent. *)
Definition forest (t : mtree) : Prop := forall n, length (get_parents t n) <= 1.

(** Histories of a view that is not flat, over trees that are forests all the time.
    Filters are as in [loose_flat]. *)
Inductive loose_forest (ord : nat -> list id -> list id) : viewed -> Prop :=
| loose_forest_open : forall t b name names, reach calm t -> forest t -> no_clash t (new_ft name) -> ~ flattened b names ->
    loose_forest ord (opened ord t b name names)
| loose_forest_tree : forall t b s o, loose_forest ord (t, b, s) -> calm t o -> no_clashing_add s o ->
    Forall (fun e => forest (ev_tree e)) (events o t) ->
    loose_forest ord (fst (view_call ord (VTree o) (t, b, s)))
| loose_forest_filters : forall t b s b' names, loose_forest ord (t, b, s) -> loose_forest ord (t, b', set_filters names s)
| loose_forest_refilter : forall t b s, loose_forest ord (t, b, s) -> ~ flattened b (filters s) ->
    loose_forest ord (fst (view_call ord VRefilter (t, b, s))).
