(** Concrete clients of the main view. *)
From Verif Require Import Base MainTree Spec Witness Callbacks Gtk SpecGtk GtkWitness MainView SpecMainView MainViewFacts.

(** A late client that learns, then a deletion. *)
Definition late_diamond := main_current_state (diamond, listen true [], []).
Lemma late_following : following (fst (main_call (DelNode "b" true) (fst late_diamond))) /\
  snd (fst (main_call (DelNode "b" true) (fst late_diamond))) = ["a"; "c"].
Proof.
  split; [|reflexivity]. unfold late_diamond. rewrite late_state.
  - cbn [fst]. apply fl_call; [|exact I|exact I].
    assert (E : following (fst (main_current_state (diamond, listen true [], [])))).
    { apply fl_late; [apply diamond_any|intros ev f []|]. vm_compute. intuition discriminate. }
    rewrite late_state in E; [exact E|apply diamond_any|intros ev f []|]. vm_compute. intuition discriminate.
  - apply diamond_any.
  - intros ev f [].
  - vm_compute. intuition discriminate.
Qed.

Lemma late_forgets : exists t, reachx any_fresh t /\ get_all_nodes t <> [] /\
  main_current_state (t, listen false [], []) = ((t, listen false [], []), Ok tt).
Proof. exists diamond. split; [apply diamond_any|]. split; [discriminate|reflexivity]. Qed.

Definition grumpy : fn (list id) := fun _ _ _ s => (s, Err PyException).
Lemma earlier_raises : exists t ev f o, reachx any_fresh t /\ fresh_add o /\ harmless f /\
  let '(t', _, s) := fst (main_call o (t, listen false (fst (register ev f [])), get_all_nodes t)) in
  s <> get_all_nodes t'.
Proof.
  exists diamond, "node-deleted", grumpy, (DelNode "d" true). split; [apply diamond_any|]. split; [exact I|]. split; [intros t n p s; reflexivity|].
  vm_compute. discriminate.
Qed.

Lemma addition_untold : exists t o, reachx any_fresh t /\ fresh_add o /\
  let '(t', _, s) := fst (main_call o (t, listen false [], get_all_nodes t)) in s <> get_all_nodes t'.
Proof.
  exists empty_tree, (add "a" (Some "a")). split; [constructor|]. split; [apply an_new|]. vm_compute. discriminate.
Qed.

(** A later function that raises: the call is cut short and the client still agrees. *)
Lemma later_raises : following (fst (main_call (DelNode "b" true) (diamond, fst (register "node-deleted" grumpy (listen false [])), ["a"; "b"; "c"; "d"]))) /\
  main_call (DelNode "b" true) (diamond, fst (register "node-deleted" grumpy (listen false [])), ["a"; "b"; "c"; "d"]) =
  ((fst (fst (fst (main_call (DelNode "b" true) (diamond, fst (register "node-deleted" grumpy (listen false [])), ["a"; "b"; "c"; "d"])))),
    fst (register "node-deleted" grumpy (listen false [])), ["a"; "b"; "c"]), Err PyException).
Proof.
  split; [|reflexivity]. apply fl_call; [|exact I|exact I]. apply fl_register; [|intros t n p s; reflexivity].
  change ["a"; "b"; "c"; "d"] with (get_all_nodes diamond). apply fl_connect; [apply diamond_any|intros ev f []].
Qed.

Lemma blank_widget : forall pf, exists t r, widget_of_main pf (t, r, new_gtk) /\ get_all_nodes t = ["a"; "b"; "c"; "d"; "e"] /\
  called "node-added-inview" r = [method (add_task pf)].
Proof.
  intros pf. exists (after (add "e" None) diamond), (connect_functions pf []). split; [|split; reflexivity].
  change (after (add "e" None) diamond, connect_functions pf [], new_gtk) with
    (fst (main_call (add "e" None) (fst (connect_model pf (diamond, [], new_gtk))))).
  apply wm_call, wm_connect, wm_start.
Qed.
Lemma blank_case : exists pf t r g, widget_of_main pf (t, r, g) /\
  called "node-added-inview" r = [method (add_task pf)] /\ map r_id (rows g) <> get_all_nodes t.
Proof.
  exists lowest. destruct (blank_widget lowest) as (t & r & W & E & C). exists t, r, new_gtk. split; auto. split; auto. rewrite E. discriminate.
Qed.
