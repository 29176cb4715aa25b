(** Properties of the main view and its clients. *)
From Verif Require Import Base MainTree Spec Witness Callbacks Gtk MainView SpecMainView MainViewFacts MainViewCases.

(** C83. A client that registers functions for the three events of the main view
    knows the nodes of the tree after every call, even one that a function
    registered later cuts short. What is missing: it connects knowing the nodes, or
    it takes a modification of an unknown node as news; functions registered before
    it do not raise; no addition raises. *)
Theorem C83_knows_partial : forall t r s, following (t, r, s) -> s = get_all_nodes t.
Proof. exact follower_knows. Qed.
Print Assumptions C83_knows_partial.
Example C83_late_example : following (fst (main_call (DelNode "b" true) (fst late_diamond))) /\
  snd (fst (main_call (DelNode "b" true) (fst late_diamond))) = ["a"; "c"].
Proof. exact late_following. Qed.
Example C83_cut_example : following (fst (main_call (DelNode "b" true) (diamond, fst (register "node-deleted" grumpy (listen false [])), ["a"; "b"; "c"; "d"]))) /\
  main_call (DelNode "b" true) (diamond, fst (register "node-deleted" grumpy (listen false [])), ["a"; "b"; "c"; "d"]) =
  ((fst (fst (fst (main_call (DelNode "b" true) (diamond, fst (register "node-deleted" grumpy (listen false [])), ["a"; "b"; "c"; "d"])))),
    fst (register "node-deleted" grumpy (listen false [])), ["a"; "b"; "c"]), Err PyException).
Proof. exact later_raises. Qed.

(** C83 fails for a client that connects late and asks for the current state: every
    node is announced as modified and none as added. *)
Theorem C83_late_refuted : exists t, reachx any_fresh t /\ get_all_nodes t <> [] /\
  main_current_state (t, listen false [], []) = ((t, listen false [], []), Ok tt).
Proof. exact late_forgets. Qed.
Print Assumptions C83_late_refuted.

(** C83 fails when a function registered earlier raises: *)
Theorem C83_earlier_refuted : exists t ev f o, reachx any_fresh t /\ fresh_add o /\ harmless f /\
  let '(t', _, s) := fst (main_call o (t, listen false (fst (register ev f [])), get_all_nodes t)) in
  s <> get_all_nodes t'.
Proof. exact earlier_raises. Qed.
Print Assumptions C83_earlier_refuted.

(** and when an addition raises. *)
Theorem C83_addition_refuted : exists t o, reachx any_fresh t /\ fresh_add o /\
  let '(t', _, s) := fst (main_call o (t, listen false [], get_all_nodes t)) in s <> get_all_nodes t'.
Proof. exact addition_untold. Qed.
Print Assumptions C83_addition_refuted.

(** C83. The store of a TreeModel made of the main view stays empty, whatever is
    called: the events it registers for are never sent, *)
Theorem C83_widget_blank : forall pf t r g, widget_of_main pf (t, r, g) -> g = new_gtk.
Proof. exact widget_empty. Qed.
Print Assumptions C83_widget_blank.
Example C83_widget_example : forall pf, exists t r, widget_of_main pf (t, r, new_gtk) /\
  get_all_nodes t = ["a"; "b"; "c"; "d"; "e"] /\ called "node-added-inview" r = [method (add_task pf)].
Proof. exact blank_widget. Qed.

(** so it does not show the nodes. *)
Theorem C83_widget_refuted : exists pf t r g, widget_of_main pf (t, r, g) /\ 
  called "node-added-inview" r = [method (add_task pf)] /\ map r_id (rows g) <> get_all_nodes t.
Proof. exact blank_case. Qed.
Print Assumptions C83_widget_refuted.
