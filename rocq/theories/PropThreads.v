(** Property of programs in which other threads change the tree. *)
From Coq Require Import Permutation.
From Verif Require Import Base MainTree Spec Filters FTree ViewCount Api ViewApi SpecApi SpecView SpecViewing SpecSys Threads SpecThreads ThreadFacts ThreadAsk SysCases ThreadCases Witness ApiWitness ViewWitness Queue SpecQueue.

(** C85. Other threads ask for changes at any time, with any priorities, while the
    creating thread makes calls and the main loop turns: the library is always where
    the completed calls lead, taken one after the other, and every view and count
    shows the tree. Missing: completed calls that do not fit. *)
Theorem C85_right_partial : forall ord, (forall k x, Permutation (ord k x) x) -> forall l, let q := program ord l in fitting ord (completed q) new_sys ->
  app q = performed ord (completed q) new_sys /\
  forall x, In x (s_listeners (app q)) -> shows (s_tree (app q)) (s_bank (app q)) x.
Proof. exact threads_right. Qed.
Print Assumptions C85_right_partial.
Example C85_right_example : fitting keep (completed (program keep tsteps)) new_sys /\ running (program keep tsteps) = None /\
  view_all_nodes (view_at (app (program keep tsteps)) 1) = ["a"; "d"] /\ length (waiting (program keep tsteps)) = 2.
Proof. exact tsteps_case. Qed.

(** C85. And what waits reaches them all after as many turns of the main loop,
    however the threads got there. Missing: calls that do not fit when their turn
    comes, and changes that would make a circle. *)
Theorem C85_reach_partial : forall ord, (forall k x, Permutation (ord k x) x) -> forall l k, let q := program ord l in
  running q = None -> length (waiting q) <= k -> smooth ord (completed q ++ pending_calls q) new_sys ->
  let q' := program ord (l ++ loop k) in
  waiting q' = [] /\ app q' = performed ord (completed q ++ pending_calls q) new_sys /\
  forall x, In x (s_listeners (app q')) -> shows (s_tree (app q')) (s_bank (app q')) x.
Proof. exact threads_reach. Qed.
Print Assumptions C85_reach_partial.
Example C85_reach_example : smooth keep (completed (program keep tsteps) ++ pending_calls (program keep tsteps)) new_sys /\
  let y := app (program keep (tsteps ++ loop 2)) in
  get_all_nodes (s_tree y) = ["a"; "d"; "b"] /\ view_all_nodes (view_at y 1) = ["a"; "d"] /\ kids (view_at y 1) "a" = ["d"] /\ vc_n_nodes (count_at y 2) = 3.
Proof. exact tsteps_then. Qed.

(** C85. Where a waiting change raises: the calls up to it are made, the others
    wait; what is there is shown. *)
Theorem C85_stop : forall ord, (forall k x, Permutation (ord k x) x) -> forall l k, let q := program ord l in
  running q = None -> length (waiting q) <= k -> smooth ord (completed q) new_sys ->
  let '(executed, others) := until_raise ord (pending_calls q) (app q) in
  let q' := program ord (l ++ loop k) in
  pending_calls q' = others /\ app q' = performed ord executed (app q) /\
  (fitting ord executed (app q) -> forall x, In x (s_listeners (app q')) -> shows (s_tree (app q')) (s_bank (app q')) x).
Proof. exact threads_stop. Qed.
Print Assumptions C85_stop.
Example C85_stop_example : let q := program keep lost_steps in running q = None /\ length (waiting q) = 2 /\ smooth keep (completed q) new_sys /\
  until_raise keep (pending_calls q) (app q) = ([LTree (NewRelationship "b" "a")], [LTree (AddNode "n" (new_node 1) None)]) /\
  fitting keep [LTree (NewRelationship "b" "a")] (app q).
Proof. exact lost_case. Qed.

(** C85. A request by another thread changes nothing by itself. If the same request
    waits with the same priority nothing happens; otherwise it waits behind those of
    its priority. *)
Theorem C85_asked : forall ord l p r, let q := program ord l in let q' := program ord (l ++ [Asked p r]) in
  app q' = app q /\ completed q' = completed q /\
  (((exists r', In (TRequest r') (queue_of p q) /\ same_request r r') /\ q' = q) \/
   ((forall r', In (TRequest r') (queue_of p q) -> ~ same_request r r') /\ queue_of p q' = queue_of p q ++ [TRequest r] /\
    (forall p', p' <> p -> queue_of p' q' = queue_of p' q) /\ forall o, asks r o -> In (LTree o) (pending_calls q'))).
Proof. exact asked_step. Qed.
Print Assumptions C85_asked.
Example C85_asked_example : let b := RAdd 1 "b" (new_node 0) (Some "a") in let c := RAdd 2 "c" (new_node 0) (Some "a") in
  queue_of Low (program keep tsteps) = [TRequest b] /\ queue_of Low (program keep (tsteps ++ [Asked Low b])) = [TRequest b] /\
  queue_of Low (program keep (tsteps ++ [Asked Low c])) = [TRequest b; TRequest c] /\
  queue_of Normal (program keep (tsteps ++ [Asked Normal b])) = [TRequest (RNew "a" "d"); TRequest b].
Proof. vm_compute. repeat split; reflexivity. Qed.

(** C85. A call by the creating thread is made at once; what waits goes on waiting. *)
Theorem C85_called : forall ord l c, let q := program ord l in running q = None -> let q' := program ord (l ++ [Called c]) in
  app q' = fst (lib_call ord c (app q)) /\ waiting q' = waiting q /\ completed q' = completed q ++ [c].
Proof. exact called_step. Qed.
Print Assumptions C85_called.
Example C85_called_example : let q := program keep tsteps in let q' := program keep (tsteps ++ [Called (LTree (put "e" 3 (Some "a")))]) in
  running q = None /\ length (waiting q) = 2 /\ get_all_nodes (s_tree (app q)) = ["a"; "d"] /\ get_all_nodes (s_tree (app q')) = ["a"; "d"; "e"] /\
  view_all_nodes (view_at (app q') 1) = ["a"; "d"; "e"].
Proof. vm_compute. repeat split; reflexivity. Qed.

(** C85 is false in general: a node added by another thread while a change that
    raises waits never appears, whatever anybody asks for. *)
Theorem C85_refuted : exists l r n, In (Asked Low r) l /\ op_of r = put n 1 None /\
  fitting keep (completed (program keep l)) new_sys /\ fits (app (program keep l)) (LTree (op_of r)) /\
  (forall more, In (TRequest r) (waiting (program keep (l ++ more)))) /\
  forall k, exists s, nth_error (s_listeners (app (program keep (l ++ loop k)))) 1 = Some (LView s) /\ is_displayed s n = false.
Proof. exact never_shown. Qed.
Print Assumptions C85_refuted.
