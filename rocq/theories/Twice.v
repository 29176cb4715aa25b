(** Model of a widget on which show() is called again: liblarch_gtk/__init__.py:281-284.
    The constructor has called it already (__init__.py:196). *)
From Verif Require Import Base MainTree Spec Filters FTree SpecApi SpecView SpecViewing Gtk Widget.

(** treemodel.py:59-62 and viewtree.py:106-115: connect_model registers the same
    handlers a second time, under new keys, so that each signal is handled twice. An
    exception of the first handler keeps the second one from being called. *)
Definition twice (pf : platform) (T : mtree) (x : sig) (g : gtk) : gtk * res unit :=
  match on_signal pf T x g with
  | (g1, Ok _) => on_signal pf T x g1
  | (g1, r) => (g1, r)
  end.

(** __init__.py:281-284, treemodel.py:53-65: the second show() also asks for the current
    state of the view. *)
Definition show_again (pf : platform) (x : viewed) (g : gtk) : viewed * gtk * res unit :=
  client_connect (twice pf) x g.

(** A call on the tree, the bank or the view afterwards. *)
Definition call_again (ord : nat -> list id -> list id) (pf : platform) (c : vcall) (x : viewed) (g : gtk) : viewed * gtk * res unit :=
  client_call ord (twice pf) c x g.
