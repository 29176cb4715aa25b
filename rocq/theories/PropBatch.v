(** Property of requests that wait together. *)
From Verif Require Import Base MainTree Spec Queue SpecQueue QueueWitness SpecBatch BatchFacts.

(** C20 and C19. Requests made with any priorities before the main loop turns, with
    equals among them and whether they raise or not: what is executed and in which
    order, what waits for ever, and what the application becomes. *)
Theorem C20_batch : forall (R E : Type) (eqb : R -> R -> bool) (exec : R -> E -> E * bool) e l k,
  length (ordered eqb l) <= k ->
  let q := snd (runs eqb exec (pushes l ++ turns k) (start e)) in
  (log q, waiting q, app q) = through exec e (ordered eqb l).
Proof. exact @batch. Qed.
Print Assumptions C20_batch.
Example C20_batch_example : let l := [(Low, RModify "a"); (Normal, RModify "b"); (Normal, RNew "b" "a"); (High, RModify "b"); (Normal, RModify "b"); (Low, RBreak "a" "b")] in
  ordered request_eqb l = [RModify "b"; RModify "b"; RNew "b" "a"; RModify "a"; RBreak "a" "b"] /\
  (let '(executed, left_over, t) := through exec_request pair (ordered request_eqb l) in
   executed = [RModify "b"; RModify "b"; RNew "b" "a"] /\ left_over = [RModify "a"; RBreak "a" "b"] /\ get_parents t "b" = ["a"]).
Proof. exact (conj eq_refl (conj eq_refl (conj eq_refl eq_refl))). Qed.

(** C20. The calls of MainTree by other threads, with the priorities they have when
    none is given: removals and changes of relations come before additions and
    modifications. *)
Theorem C20_defaults : forall (t : mtree) rs k, length rs <= k ->
  let q := snd (runs request_eqb exec_request (map (fun r => QPush (default_priority r) r) rs ++ turns k) (start t)) in
  (log q, waiting q, app q) = through exec_request t
    (firsts request_eqb [] (filter cutting rs) ++ firsts request_eqb [] (filter (fun r => negb (cutting r)) rs)).
Proof. exact defaults. Qed.
Print Assumptions C20_defaults.
Example C20_defaults_example : let rs := [RModify "a"; RBreak "a" "b"; RModify "b"; RNew "b" "a"; RModify "a"] in
  let '(executed, left_over, t) := through exec_request pair
    (firsts request_eqb [] (filter cutting rs) ++ firsts request_eqb [] (filter (fun r => negb (cutting r)) rs)) in
  executed = [RBreak "a" "b"; RNew "b" "a"; RModify "a"; RModify "b"] /\ left_over = [] /\ get_parents t "a" = ["b"] /\ get_parents t "b" = [].
Proof. exact (conj eq_refl (conj eq_refl (conj eq_refl eq_refl))). Qed.
