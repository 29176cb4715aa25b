(** Vocabulary of the property theorems about clients that raise. Definitions only. *)
From Verif Require Import Base MainTree Spec Filters FTree FEmit SpecApi SpecView SpecViewing SpecLoose.

(** After the first [k] signals of a view come the signals [l]; no client raises at
    any of them. *)
Definition borne (bad : upset) (k : nat) (l : list sig) : Prop :=
  forall l1 x l2, l = l1 ++ x :: l2 -> bad (k + length l1) x = None.

(** The same, except that a client raises [e] at the last one. *)
Definition burst (bad : upset) (k : nat) (l : list sig) (e : exn) : Prop :=
  exists l1 x, l = l1 ++ [x] /\ borne bad k l1 /\ bad (k + length l1) x = Some e.

(** Clients raise when a node is added or modified; not when one is deleted, and not
    in queued actions. *)
Definition gentle (bad : upset) : Prop :=
  (forall k n q, bad k (SDeleted n q) = None) /\ forall k n a, bad k (SRun n a) = None.

(** Histories of a flat view. Between two calls on the tree the bank and the list of
    applied filters are replaced by any others, without refresh, and actions are
    queued. In each call, and in each refresh, clients raise as above. *)
Inductive upset_flat (ord : nat -> list id -> list id) : viewed -> Prop :=
| upset_open : forall t b name names, reach calm t -> no_clash t (new_ft name) -> flattened b names ->
    upset_flat ord (opened ord t b name names)
| upset_tree : forall t b s bad o t' s' r, upset_flat ord (t, b, s) -> gentle bad -> any_fresh t o -> no_clashing_add s o ->
    e_call bad ord b o t s = (t', s', r) -> upset_flat ord (t', b, s')
| upset_filters : forall t b s b' names, upset_flat ord (t, b, s) -> upset_flat ord (t, b', set_filters names s)
| upset_queue : forall t b s n a s' r, upset_flat ord (t, b, s) -> queue_action n a s = (s', r) -> upset_flat ord (t, b, s')
| upset_refilter : forall t b s bad s' r, upset_flat ord (t, b, s) -> gentle bad -> reach calm t -> flattened b (filters s) ->
    e_refilter bad ord b t s = (s', r) -> upset_flat ord (t, b, s').
