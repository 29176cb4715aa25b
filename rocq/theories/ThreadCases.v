(** Concrete programs with several threads. *)
From Coq Require Import Permutation.
From Verif Require Import Base BaseFacts MainTree Spec Queue SpecQueue QueueFacts SpecBatch BatchFacts Filters FTree ViewCount Api ViewApi SpecApi SpecView SpecViewing SpecSys SysFacts SysCases Threads SpecThreads ThreadFacts Witness ApiWitness ViewWitness ViewCases Queue SpecQueue.

(** Another thread adds two nodes and relates a third one, while the creating thread
    makes a view and a count, adds a node and applies a filter. *)
Definition tsteps : list tstep :=
  [Called (LBank (BAdd "work" above_zero None)); Called (LNewView (Some "v")); Called (LNewCount (Some "c"));
   Asked Low (RAdd 0 "a" (new_node 1) None); Asked Low (RAdd 1 "b" (new_node 0) (Some "a")); Begins; Called (LReset 1); Asked Normal (RNew "a" "d"); Ends;
   Called (LTree (put "d" 2 None)); Asked Low (RAdd 1 "b" (new_node 0) (Some "a")); Called (LApply 1 "work" None false)].

Fixpoint smoothb (l : list lcall) (y : sys) : bool :=
  match l with
  | [] => true
  | c :: rest => fitsb y c && (match c with LTree o => match outcome o (s_tree y) with Ok _ => true | _ => false end | _ => true end) && smoothb rest (fst (lib_call keep c y))
  end.
Lemma smoothb_ok : forall l y, smoothb l y = true -> (forall n f d, In (LBank (BAdd n f d)) l -> local f) -> smooth keep l y.
Proof.
  induction l as [|c l IH]; intros y E HL; simpl; auto. simpl in E. apply andb_true_iff in E. destruct E as [E E3]. apply andb_true_iff in E. destruct E as [E1 E2].
  split; [apply fitsb_ok; auto; intros n f d ->; eapply HL; left; reflexivity|]. split.
  - intros o ->. destruct (outcome o (s_tree y)) as [[]| |]; auto; discriminate.
  - apply IH; auto. intros. eapply HL. right. eauto.
Qed.

Lemma tsteps_completed : completed (program keep tsteps) = [LBank (BAdd "work" above_zero None); LNewView (Some "v"); LNewCount (Some "c"); LTree (AddNode "a" (new_node 1) None); LTree (put "d" 2 None); LApply 1 "work" None false].
Proof. vm_compute. reflexivity. Qed.
Lemma tsteps_pending : pending_calls (program keep tsteps) = [LTree (NewRelationship "a" "d"); LTree (AddNode "b" (new_node 0) (Some "a"))].
Proof. vm_compute. reflexivity. Qed.
Lemma tsteps_smooth : smooth keep (completed (program keep tsteps) ++ pending_calls (program keep tsteps)) new_sys.
Proof.
  rewrite tsteps_completed, tsteps_pending. apply smoothb_ok; [vm_compute; reflexivity|].
  intros n f d H. simpl in H. repeat (destruct H as [H|H]; [try discriminate H; inversion H; subst; apply above_zero_local|]). destruct H.
Qed.

Lemma tsteps_case : fitting keep (completed (program keep tsteps)) new_sys /\ running (program keep tsteps) = None /\
  view_all_nodes (view_at (app (program keep tsteps)) 1) = ["a"; "d"] /\ length (waiting (program keep tsteps)) = 2.
Proof.
  split; [exact (smooth_fitting keep (completed (program keep tsteps)) new_sys (proj1 (proj1 (smooth_app keep (completed (program keep tsteps)) (pending_calls (program keep tsteps)) new_sys) tsteps_smooth)))|]. split; [vm_compute; reflexivity|]. split; vm_compute; reflexivity.
Qed.
Lemma tsteps_then : smooth keep (completed (program keep tsteps) ++ pending_calls (program keep tsteps)) new_sys /\
  let y := app (program keep (tsteps ++ loop 2)) in
  get_all_nodes (s_tree y) = ["a"; "d"; "b"] /\ view_all_nodes (view_at y 1) = ["a"; "d"] /\ kids (view_at y 1) "a" = ["d"] /\ vc_n_nodes (count_at y 2) = 3.
Proof. split; [exact tsteps_smooth|]. cbv zeta. split; [vm_compute; reflexivity|]. split; [vm_compute; reflexivity|]. split; vm_compute; reflexivity. Qed.

(** Another thread asks for a relation that would make a circle, and adds a node. *)
Definition lost_steps : list tstep :=
  [Called (LNewView (Some "v")); Called (LTree (put "a" 1 None)); Called (LTree (put "b" 1 (Some "a")));
   Asked Normal (RNew "b" "a"); Asked Low (RAdd 0 "n" (new_node 1) None)].
Definition stuck_steps : list tstep := lost_steps ++ loop 1.
Lemma lost_case : let q := program keep lost_steps in running q = None /\ length (waiting q) = 2 /\ smooth keep (completed q) new_sys /\
  until_raise keep (pending_calls q) (app q) = ([LTree (NewRelationship "b" "a")], [LTree (AddNode "n" (new_node 1) None)]) /\
  fitting keep [LTree (NewRelationship "b" "a")] (app q).
Proof.
  cbv zeta. split; [vm_compute; reflexivity|]. split; [vm_compute; reflexivity|].
  assert (E : completed (program keep lost_steps) = [LNewView (Some "v"); LTree (put "a" 1 None); LTree (put "b" 1 (Some "a"))]) by (vm_compute; reflexivity).
  rewrite E. split; [apply smoothb_ok; [vm_compute; reflexivity|]; intros n f d H; simpl in H; repeat (destruct H as [H|H]; [discriminate H|]); destruct H|].
  split; [vm_compute; reflexivity|]. split; [|exact I]. apply fitsb_ok; [vm_compute; reflexivity|discriminate].
Qed.
Lemma never_shown : exists l r n, In (Asked Low r) l /\ op_of r = put n 1 None /\
  fitting keep (completed (program keep l)) new_sys /\ fits (app (program keep l)) (LTree (op_of r)) /\
  (forall more, In (TRequest r) (waiting (program keep (l ++ more)))) /\
  forall k, exists s, nth_error (s_listeners (app (program keep (l ++ loop k)))) 1 = Some (LView s) /\ is_displayed s n = false.
Proof.
  exists stuck_steps, (RAdd 0 "n" (new_node 1) None), "n". split; [simpl; tauto|]. split; [reflexivity|].
  assert (E : completed (program keep stuck_steps) = [LNewView (Some "v"); LTree (put "a" 1 None); LTree (put "b" 1 (Some "a")); LTree (NewRelationship "b" "a")]) by (vm_compute; reflexivity).
  assert (F : fitsbs [LNewView (Some "v"); LTree (put "a" 1 None); LTree (put "b" 1 (Some "a")); LTree (NewRelationship "b" "a")] new_sys = true) by (vm_compute; reflexivity).
  rewrite E. split.
  { assert (G : forall l y, fitsbs l y = true -> (forall n f d, ~ In (LBank (BAdd n f d)) l) -> fitting keep l y).
    { induction l as [|c l IH]; intros y X N; simpl; auto. simpl in X. apply andb_true_iff in X. destruct X as [X1 X2].
      split; [apply fitsb_ok; auto; intros n f d ->; destruct (N n f d); left; auto|]. apply IH; auto. intros n f d Q. apply (N n f d). right. auto. }
    apply G; auto. intros n f d H. simpl in H. repeat (destruct H as [H|H]; [discriminate H|]). destruct H. }
  split; [apply fitsb_ok; [vm_compute; reflexivity|discriminate]|].
  assert (St : stalled (runs tcall_eqb (exec_call keep) (map qstep_of stuck_steps) (start new_sys))).
  { split; [vm_compute; reflexivity|]. split; [vm_compute; discriminate|vm_compute; reflexivity]. }
  split.
  { intros more. apply threads_lost; auto. vm_compute. auto. }
  intros k. assert (Q : program keep (stuck_steps ++ loop k) = program keep stuck_steps).
  { destruct St as (S1 & _ & S3). pose proof (stopped_turns tcall_eqb (exec_call keep) k _ S1 S3) as X. unfold program, runs. rewrite map_app, qsteps_loop, fold_left_app.
    unfold runs in X. exact X. }
  rewrite Q. exists (view_at (app (program keep stuck_steps)) 1). split; vm_compute; reflexivity.
Qed.
