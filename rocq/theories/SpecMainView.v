(** Vocabulary of the property theorems about the clients of the main view.
    Definitions only. *)
From Verif Require Import Base MainTree Spec Callbacks Gtk MainView.

(** Functions that leave what the client keeps alone, and those that moreover do
    not raise. *)
Definition harmless {S} (f : fn S) : Prop := forall t n p s, fst (f t n p s) = s.
Definition quiet {S} (f : fn S) : Prop := forall t n p s, f t n p s = (s, Ok tt).

(** A client that keeps the list of the nodes: it appends what is added and takes
    out what is deleted. With [learn] it also appends a node that it does not
    know when it hears that this node was modified. *)
Definition keep (learn : bool) (k : ekind) : fn (list id) := fun _ n _ ks =>
  (match k with
   | EAdded => ks ++ [n]
   | EDeleted => remove1 n ks
   | EModified => if learn then (if in_dec string_dec n ks then ks else ks ++ [n]) else ks
   end, Ok tt).

Definition listen (learn : bool) (r : registry (fn (list id))) : registry (fn (list id)) :=
  fst (register "node-modified" (keep learn EModified)
    (fst (register "node-deleted" (keep learn EDeleted)
      (fst (register "node-added" (keep learn EAdded) r))))).

Definition all_quiet {S} (r : registry (fn S)) : Prop := forall ev f, In f (called ev r) -> quiet f.

(** Histories of a tree and of such a client: it connects knowing the nodes, or, if
    it learns, knowing nothing and asking for the current state; other functions,
    which may raise, are registered later. *)
Inductive following : mtree * registry (fn (list id)) * list id -> Prop :=
| fl_connect : forall learn t r, reachx any_fresh t -> all_quiet r ->
    following (t, listen learn r, get_all_nodes t)
| fl_late : forall t r, reachx any_fresh t -> all_quiet r -> ~ In main_root (get_all_nodes t) ->
    following (fst (main_current_state (t, listen true r, [])))
| fl_register : forall t r s ev f, following (t, r, s) -> harmless f -> following (t, fst (register ev f r), s)
| fl_call : forall t r s o, following (t, r, s) -> fresh_add o ->
    (match o with AddNode _ _ _ => outcome o t = Ok tt | _ => True end) ->
    following (fst (main_call o (t, r, s))).

(** Histories of a tree and of a TreeModel made of its main view: it connects at
    any time, other functions may be registered, and calls are made, which may
    raise. *)
Inductive widget_of_main (pf : platform) : mtree * registry (fn gtk) * gtk -> Prop :=
| wm_start : forall t, widget_of_main pf (t, [], new_gtk)
| wm_connect : forall st, widget_of_main pf st -> widget_of_main pf (fst (connect_model pf st))
| wm_register : forall t r g ev f, widget_of_main pf (t, r, g) -> harmless f ->
    widget_of_main pf (t, fst (register ev f r), g)
| wm_deregister : forall t r g ev k, widget_of_main pf (t, r, g) -> widget_of_main pf (t, deregister ev k r, g)
| wm_call : forall st o, widget_of_main pf st -> widget_of_main pf (fst (main_call o st)).
