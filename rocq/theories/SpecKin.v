(** Vocabulary of the property theorems about views of nodes that are chosen by
    their children. Definitions only. *)
From Verif Require Import Base MainTree Spec Filters FTree SpecApi SpecView SpecViewing SpecLoose.

(** The data of a node of the tree. *)
Definition datum (t : mtree) (n : id) : option nat := option_map data (dget n (nodes t)).

(** A filter that looks at the data of the node and at the ids and the data of its children. *)
Definition familial (f : ffun) : Prop := forall t t' n d, has_node t n = true ->
  datum t n = datum t' n -> get_children t n = get_children t' n ->
  (forall c, In c (get_children t n) -> datum t c = datum t' c) -> f t n d = f t' n d.

(** A filter that looks at the data of the node and at the ids of its children. *)
Definition near (f : ffun) : Prop := forall t t' n d, has_node t n = true ->
  datum t n = datum t' n -> get_children t n = get_children t' n -> f t n d = f t' n d.

(** A filter that wants something of the node's own data, and that no child is busy,
    where each node that has what is wanted is busy. A leaf is a node without child:
    nothing wanted, every node busy. A task can be done if it is to be done and has
    no child that is to be done. *)
Definition blocking (f : ffun) : Prop := exists wanted busy : option params -> nat -> bool,
  (forall d v, wanted d v = true -> busy d v = true) /\
  forall t n d v, datum t n = Some v ->
    f t n d = wanted d v && forallb (fun c => match datum t c with Some w => negb (busy d w) | None => true end) (get_children t n).

(** Used with the parameter 'negate'. *)
Definition negated (f : filt) : bool := match f_dic f with Some d => p_negate d | None => false end.

(** Each of the filters is near, or is blocking and not negated. *)
Definition childwise (b : bank) (names : list id) : Prop := forall name f, In name names -> get_filter b name = Some f ->
  near (f_fun f) \/ (blocking (f_fun f) /\ negated f = false).

(** The displayed nodes have no displayed child: a filter is flat, or is blocking and not negated. *)
Definition levelled (b : bank) (names : list id) : Prop := flattened b names \/
  exists name f, In name names /\ get_filter b name = Some f /\ blocking (f_fun f) /\ negated f = false.

(** Histories of a view with such filters. Nodes that are deleted have at most one
    parent. The bank and the applied filters are exchanged with refresh. *)
Inductive watching (ord : nat -> list id -> list id) : viewed -> Prop :=
| watching_open : forall t b name names, reach calm t -> no_clash t (new_ft name) -> childwise b names -> levelled b names ->
    watching ord (opened ord t b name names)
| watching_tree : forall t b s o, watching ord (t, b, s) -> calm t o -> single t o -> no_clashing_add s o ->
    watching ord (fst (view_call ord (VTree o) (t, b, s)))
| watching_filters : forall t b s b' names, watching ord (t, b, s) -> childwise b' names -> levelled b' names ->
    watching ord (fst (view_call ord VRefilter (t, b', set_filters names s))).
