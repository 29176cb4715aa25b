(** Proofs of the property theorems about reachable main trees. *)
From Verif Require Import Base BaseFacts MainTree Spec MainFacts MainInv MainOps MainDel MainRun MainAdd MainEvents.
Open Scope m_scope.

Lemma good_acyclic : forall s t x, good s t -> ~ ancestor t x x.
Proof.
  intros s t x G (p & Hp & Ha).
  assert (p = x) by (eapply (anc_antisym t); [apply (g_ok _ _ _ G)| |exact Ha]; eapply anc_step; [exact Hp|apply anc_refl]).
  subst. eapply ok_not_own_parent; [apply (g_ok _ _ _ G)|eauto].
Qed.

Lemma acyclic : forall t, reachx any_fresh t -> forall x, ~ ancestor t x x.
Proof. intros. eapply good_acyclic. apply reachx_good; auto. Qed.

Lemma reachx_named_good : forall t, reachx fresh_named t -> good false t.
Proof.
  intros t H. apply reachx_good. eapply reachx_mono; [|apply H]. intros t' o [A _]; auto.
Qed.

Lemma calls_terminate : forall t, reachx fresh_named t -> forall o, fresh_add o -> outcome o t <> Diverge.
Proof.
  intros t H o Hf. pose proof (reachx_named_good _ H) as G. pose proof (reachx_named _ H) as E.
  assert (HX : false = true -> unlisted_add t o) by discriminate.
  apply (run_op_keeps false o t G Hf HX). destruct o as [|n [|]| | | | | | | | | | | | |]; auto.
Qed.

Lemma events_tell : forall t, reachx any_fresh t -> forall o, fresh_add o ->
  (match o with AddNode _ _ _ => outcome o t = Ok tt | _ => True end) ->
  told (get_all_nodes t) (events o t) (get_all_nodes (after o t)).
Proof. intros. eapply op_tells; eauto. apply reachx_good; auto. Qed.
