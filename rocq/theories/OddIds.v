(** Trees with a node called "" or "root". *)
From Verif Require Import Base BaseFacts MainTree Spec MainFacts MainRun MainEvents Witness.

Lemma calls_end : forall t, reachx any_fresh t -> forall o, fresh_add o ->
  (forall n, o = DelNode n true -> has_node t "" = false) -> outcome o t <> Diverge.
Proof.
  intros t H o Hf He. pose proof (reachx_good _ H) as G.
  assert (HX : false = true -> unlisted_add t o) by discriminate.
  apply (run_op_keeps false o t G Hf HX). destruct o as [|n [|]| | | | | | | | | | | | |]; auto. apply (He n eq_refl).
Qed.

(** Relations with the empty id are not checked: two nodes list each other. *)
Definition ring : mtree := hist [add "" None; add "a" None; AddChild "a" ""; AddChild "" "a"].
Lemma ring_any : reachx any_fresh ring.
Proof. apply run_any. reflexivity. Qed.
Lemma ring_hangs : exists t o, reachx any_fresh t /\ fresh_add o /\ outcome o t = Diverge.
Proof. exists ring, (DelNode "a" true). split; [apply ring_any|]. split; [exact I|]. vm_compute. reflexivity. Qed.
Lemma ring_end : reachx any_fresh ring /\ has_node ring "" = true /\ outcome (DelNode "a" false) ring = Ok tt /\
  reachx any_fresh diamond /\ outcome (NewRelationship "d" "a") diamond = Err Circular /\ outcome (DelNode "a" true) diamond = Ok tt.
Proof. split; [apply ring_any|]. split; [reflexivity|]. split; [reflexivity|]. split; [apply diamond_any|]. split; reflexivity. Qed.

Lemma empty_forgotten : exists t p c, reachx any_fresh t /\ p <> c /\ has_node t p && has_node t c = false /\
  outcome (NewRelationship p c) t = Ok tt /\ ~ In (Some p, c) (pend (after (NewRelationship p c) t)) /\
  get_parents (after (add p None) (after (NewRelationship p c) t)) c = [].
Proof.
  exists (hist [add "c" None]), "", "c". split; [apply run_any; reflexivity|]. vm_compute. repeat split; auto; discriminate.
Qed.

Lemma empty_stays : exists t p c, reachx any_fresh t /\ p <> c /\ has_node t p = true /\ has_node t c = true /\
  outcome (BreakRelationship p c) t = Ok tt /\ In c (get_children (after (BreakRelationship p c) t) p).
Proof.
  exists (hist [add "" None; add "a" None; AddChild "a" ""]), "a", "". split; [apply run_any; reflexivity|].
  vm_compute. repeat split; auto; discriminate.
Qed.
Lemma root_stays : exists t p c, reachx any_fresh t /\ p <> c /\ has_node t p = true /\ has_node t c = true /\
  outcome (BreakRelationship p c) t = Ok tt /\ In p (get_parents (after (BreakRelationship p c) t) c).
Proof.
  exists (hist [add "root" None; add "x" (Some "root")]), "root", "x". split; [apply run_any; reflexivity|].
  vm_compute. repeat split; auto; discriminate.
Qed.

Lemma root_unseen : exists t n q, reachx any_fresh t /\ has_node t n = true /\ chain_to t n q /\
  (exists ps, get_paths_for_node t n = Ok ps /\ ~ In q ps) /\ get_node_for_path t q = Ok None.
Proof.
  exists (hist [add "root" None; add "x" (Some "root")]), "x", ["root"; "x"]. split; [apply run_any; reflexivity|]. split; [reflexivity|]. split.
  - apply (chain_down _ "root" "x" ["root"]); [vm_compute; auto|]. apply chain_top; reflexivity.
  - split; [|reflexivity]. exists [["x"]]. split; [reflexivity|]. intros [H|[]]. discriminate.
Qed.
