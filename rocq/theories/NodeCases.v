(** Concrete calls of methods of nodes by other threads. *)
From Coq Require Import Lia Permutation.
From Verif Require Import Base BaseFacts MainTree Spec MainFacts Witness ApiWitness ViewWitness SpecBatch NodeThreads SpecNodes NodeFacts NodeCut NodeMove NodeThm NodeLate NodeDone Queue SpecQueue.

Definition family : mtree := hist [put "a" 1 None; put "b" 2 (Some "a"); put "c" 3 None; put "d" 4 (Some "a"); NewRelationship "c" "d"].
Lemma family_calm : reach calm family.
Proof. apply run_calm. vm_compute. reflexivity. Qed.
Lemma family_rest : at_rest (start family).
Proof. repeat split. Qed.

Lemma start_through : forall t o k, length (snd (thread_op o t)) <= k ->
  tree_in (steps_on (NOther o :: repeat NTurn k) (start t)) =
    let '(t1, rs) := thread_op o t in snd (through exec_request t1 (firsts request_eqb [] (filter cutting rs) ++ firsts request_eqb [] (filter (fun r => negb (cutting r)) rs))).
Proof.
  intros t o k Hk. assert (R : at_rest (start t)) by (repeat split). destruct (thread_op o t) as [t1 rs] eqn:E. exact (at_rest_through (start t) o k t1 rs R E Hk).
Qed.
Lemma steps_turn : forall a b k c, steps_on (a :: b :: repeat NTurn (S k)) c = steps_on (repeat NTurn k) (steps_on [a; b; NTurn] c).
Proof. reflexivity. Qed.
Lemma turns_idle : forall k c, nstep_on NTurn c = c -> steps_on (repeat NTurn k) c = c.
Proof.
  induction k as [|k IH]; intros c E; [reflexivity|]. change (repeat NTurn (S k)) with (NTurn :: repeat NTurn k). unfold steps_on. cbn [fold_left]. rewrite E. exact (IH c E).
Qed.

(** "d" moves from two parents to a third one. *)
Lemma move_case : at_rest (start family) /\ reach calm (tree_in (start family)) /\ sound_elsewhere (SetParent "d" (Some "b")) /\
  snd (thread_op (SetParent "d" (Some "b")) family) = [RBreak "a" "d"; RNew "b" "d"] /\
  get_parents (tree_in (steps_on (NOther (SetParent "d" (Some "b")) :: repeat NTurn 2) (start family))) "d" = ["c"; "b"].
Proof.
  split; [exact family_rest|]. split; [exact family_calm|]. split; [cbn; discriminate|]. split; vm_compute; reflexivity.
Qed.

Lemma flag_lost : exists t n, reach calm t /\ outcome (SetParentsEnabled n false) t = Ok tt /\ In n (rootc (after (SetParentsEnabled n false) t)) /\
  forall k, length (snd (thread_op (SetParentsEnabled n false) t)) <= k ->
    let t' := tree_in (steps_on (NOther (SetParentsEnabled n false) :: repeat NTurn k) (start t)) in
    has_node t' n = true /\ get_parents t' n = [] /\ ~ In n (rootc t').
Proof.
  exists family, "b". split; [exact family_calm|]. split; [vm_compute; reflexivity|]. split; [vm_compute; tauto|].
  intros k Hk. cbv zeta.
  rewrite (start_through family (SetParentsEnabled "b" false) k Hk).
  split; [vm_compute; reflexivity|]. split; [vm_compute; reflexivity|]. vm_compute. intros [H|[H|[]]]; discriminate.
Qed.

Lemma made_circle : exists t n p, reach calm t /\ In p (get_parents t n) /\
  let t' := tree_in (steps_on [NOther (RemoveParent n p); NCall (NewRelationship n p)] (start t)) in
  outcome (NewRelationship n p) (fst (thread_op (RemoveParent n p) t)) = Ok tt /\ In n (get_children t' p) /\ In p (get_children t' n).
Proof.
  exists family, "b", "a". split; [exact family_calm|]. split; [vm_compute; tauto|]. cbv zeta. split; [vm_compute; reflexivity|]. split; vm_compute; tauto.
Qed.

Lemma cut_undone : exists t n p, reach calm t /\ get_parents t n = [p] /\
  has_node (after (DelNode p true) (after (RemoveParent n p) t)) n = true /\
  forall k, has_node (tree_in (steps_on (NOther (RemoveParent n p) :: NCall (DelNode p true) :: repeat NTurn k) (start t))) n = false.
Proof.
  exists family, "b", "a". split; [exact family_calm|]. split; [vm_compute; reflexivity|]. split; [vm_compute; reflexivity|].
  intros k. destruct k as [|k]; [vm_compute; reflexivity|].
  rewrite steps_turn. rewrite turns_idle; [vm_compute; reflexivity|]. vm_compute. reflexivity.
Qed.

Lemma added_late : exists t n p, reach calm t /\ has_node t n = true /\ has_node t p = false /\
  let t' := after (put p 1 None) t in let '(t2, rs) := late_add_parent n p t t' in
  has_node t2 n = true /\ has_node t2 p = true /\ rs = [] /\ ~ In p (get_parents t2 n) /\ In (Some p, n) (pend t2) /\
  In p (get_parents (after (AddParent n (Some p)) t') n) /\ In p (get_parents (after (put p 1 None) (after (AddParent n (Some p)) t)) n).
Proof.
  exists family, "b", "e". split; [exact family_calm|]. cbv zeta. split; [vm_compute; reflexivity|]. split; [vm_compute; reflexivity|].
  destruct (late_add_parent "b" "e" family (after (put "e" 1 None) family)) as [t2 rs] eqn:E. vm_compute in E. inversion E; subst t2 rs; clear E.
  split; [vm_compute; reflexivity|]. split; [vm_compute; reflexivity|]. split; [reflexivity|]. split; [vm_compute; intros [H|[]]; discriminate|].
  split; [vm_compute; tauto|]. split; vm_compute; tauto.
Qed.

Definition ev_name (e : event) : id := match e with Ev _ n _ => n end.
Lemma told_case : one_change (SetData "a" 5) /\ snd (thread_op (SetData "a" 5) family) = [RModify "a"] /\
  map ev_name (events (SetData "a" 5) family) = ["a"].
Proof. split; [exact I|]. split; vm_compute; reflexivity. Qed.
