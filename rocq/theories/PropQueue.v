(** Properties of the queue of requests. Requests, their equality and what they do
    are arbitrary; the steps are pushes by other threads, calls made by the
    creating thread, and the main loop beginning and ending the execution of a
    request, in any order. *)
From Verif Require Import Base MainTree Spec Queue SpecQueue QueueFacts QueueWitness.

(** C16. The requests accepted with a priority are those started, in that order,
    followed by those that wait; so none is lost, doubled or overtaken. A request
    is refused only when an equal one waits (see [notes_of]). *)
Theorem C16_exactly_once_in_order : forall (R E : Type) (eqb : R -> R -> bool) (exec : R -> E -> E * bool) e l p,
  accepted p (notes eqb exec l (start e)) =
  started p (notes eqb exec l (start e)) ++ queue_of p (snd (runs eqb exec l (start e))).
Proof. exact @fifo. Qed.
Print Assumptions C16_exactly_once_in_order.
Example C16_example : notes request_eqb exec_request
    [ask (RRemove "b" false); ask (RRemove "b" false); ask (RModify "a"); QBegin; QEnd] (start pair) =
  [Accepted Normal (RRemove "b" false); Known Normal (RRemove "b" false); Accepted Low (RModify "a"); Started Normal (RRemove "b" false)].
Proof. exact eq_refl. Qed.

(** C16. A request of MainTree is refused exactly when the same request waits with
    the same priority; otherwise it goes to the end of that queue only. *)
Theorem C16_refused : forall E (c : @system request E) (exec : request -> E -> E * bool) p r,
  let q := snd c in let q' := snd (do_step request_eqb exec (QPush p r) c) in
  ((exists w, In w (queue_of p q) /\ same_request r w) -> q' = q) /\
  (~ (exists w, In w (queue_of p q) /\ same_request r w) -> queue_of p q' = queue_of p q ++ [r]) /\
  (forall p', p' <> p -> queue_of p' q' = queue_of p' q).
Proof. exact push_refused. Qed.
Print Assumptions C16_refused.
Example C16_refused_example : let c := runs request_eqb exec_request [ask (RRemove "b" true); ask (RNew "a" "b")] (start pair) in
  queue_of Normal (snd (do_step request_eqb exec_request (QPush Normal (RRemove "b" false)) c)) =
    [RRemove "b" true; RNew "a" "b"; RRemove "b" false] /\
  snd (do_step request_eqb exec_request (QPush Normal (RRemove "b" true)) c) = snd c.
Proof. exact (conj eq_refl eq_refl). Qed.

(** C16. What is executed is what was started and what the creating thread did. *)
Theorem C16_log_exact : forall (R E : Type) (eqb : R -> R -> bool) (exec : R -> E -> E * bool) e l,
  log (snd (runs eqb exec l (start e))) = executed (notes eqb exec l (start e)).
Proof. exact @log_exact. Qed.
Print Assumptions C16_log_exact.
Example C16_log_example : let q := snd (runs request_eqb exec_request
    [ask (RRemove "b" false); ask (RModify "a"); QBegin; ask (RRemove "b" false)] (start pair)) in
  log q = [RRemove "b" false] /\ normq q = [RRemove "b" false] /\ lowq q = [RModify "a"].
Proof. exact stuck_example. Qed.

(** C17. A started request is the first of its priority and nothing waits above. *)
Theorem C17_highest_first : forall (R E : Type) (eqb : R -> R -> bool) (c : @system R E) p r,
  In (Started p r) (notes_of eqb QBegin c) ->
  (exists rest, queue_of p (snd c) = r :: rest) /\ forall p', In p' (above p) -> queue_of p' (snd c) = [].
Proof. exact @highest_first. Qed.
Print Assumptions C17_highest_first.
Example C17_example : notes_of request_eqb QBegin
    (runs request_eqb exec_request [ask (RModify "a"); ask (RRemove "b" false)] (start pair)) =
  [Started Normal (RRemove "b" false)].
Proof. exact eq_refl. Qed.

(** C18. Exactly one idle source while something waits, none otherwise. *)
Theorem C18_armed : forall (R E : Type) (eqb : R -> R -> bool) (exec : R -> E -> E * bool), never_raises exec ->
  forall e l, let q := snd (runs eqb exec l (start e)) in
  match waiting q with
  | [] => handler q = None /\ sources q = []
  | _ => exists h, handler q = Some h /\ sources q = [h]
  end.
Proof. exact @always_armed. Qed.
Print Assumptions C18_armed.
Example C18_example : never_raises count_exec /\
  let q := snd (runs Nat.eqb count_exec [QPush Low 5; QPush Normal 7; QBegin; QPush High 2] (start 0)) in
  waiting q = [2; 5] /\ sources q = [0].
Proof. exact (conj count_quiet (conj eq_refl eq_refl)). Qed.

(** C18. Whatever happened, the main loop empties the queue, in order. *)
Theorem C18_drains : forall (R E : Type) (eqb : R -> R -> bool) (exec : R -> E -> E * bool), never_raises exec ->
  forall e l, let c := runs eqb exec (l ++ [QEnd]) (start e) in
  let q := snd (runs eqb exec (turns (length (waiting (snd c)))) c) in
  waiting q = [] /\ log q = log (snd c) ++ waiting (snd c).
Proof. exact @drains. Qed.
Print Assumptions C18_drains.
Example C18_drains_example : never_raises count_exec /\
  log (snd (runs Nat.eqb count_exec (turns 2) (runs Nat.eqb count_exec ([QPush Low 5; QPush Normal 7; QBegin; QPush High 2] ++ [QEnd]) (start 0)))) = [7; 2; 5].
Proof. exact (conj count_quiet eq_refl). Qed.

(** C19. A request that raises does no harm when nothing else waits at that
    moment. What is missing is false, see below. *)
Theorem C19_raising_alone_partial : forall (R E : Type) (eqb : R -> R -> bool) (exec : R -> E -> E * bool) e l,
  raises_alone eqb exec l (start e) -> let q := snd (runs eqb exec l (start e)) in
  match waiting q with
  | [] => handler q = None /\ sources q = []
  | _ => exists h, handler q = Some h /\ sources q = [h]
  end.
Proof. exact @alone_armed. Qed.
Print Assumptions C19_raising_alone_partial.
Example C19_example : raises_alone request_eqb exec_request [ask (RNew "b" "a"); QBegin; QEnd; ask (RModify "a")] (start pair) /\
  outcome (op_of (RNew "b" "a")) pair = Err Circular.
Proof. exact alone_example. Qed.

(** C19 fails: a refused relation asked for by another thread stops the queue for
    ever; the request that waits behind it is never executed. *)
Theorem C19_refuted : exists t l r p, reach calm t /\
  In r (queue_of p (snd (runs request_eqb exec_request l (start t)))) /\
  forall l', In r (queue_of p (snd (runs request_eqb exec_request (l ++ l') (start t)))).
Proof. exact stalls. Qed.
Print Assumptions C19_refuted.

(** C20. Different requests of one priority made while nothing waits take effect
    in the order they were made. What is missing is false, see below. *)
Theorem C20_same_priority_partial : forall (R E : Type) (eqb : R -> R -> bool) (exec : R -> E -> E * bool), never_raises exec ->
  forall e p rs, distinct eqb rs ->
  let q := snd (runs eqb exec (map (QPush p) rs ++ turns (length rs)) (start e)) in
  app q = fold_left (fun e r => fst (exec r e)) rs e /\ log q = rs.
Proof. exact @same_priority. Qed.
Print Assumptions C20_same_priority_partial.
Example C20_example : never_raises count_exec /\ distinct Nat.eqb [3; 1; 2] /\
  log (snd (runs Nat.eqb count_exec (map (QPush Normal) [3; 1; 2] ++ turns 3) (start 0))) = [3; 1; 2].
Proof. exact (conj count_quiet (conj distinct_example eq_refl)). Qed.

(** C20. A request made while nothing waits has the effect of the call. *)
Theorem C20_effects : forall p t,
  (forall o n nd q, go ([QPush p (RAdd o n nd q)] ++ turns 1) t = after (AddNode n nd q) t) /\
  (forall n rc, go ([QPush p (RRemove n rc)] ++ turns 1) t = after (DelNode n rc) t) /\
  (forall n, go ([QPush p (RModify n)] ++ turns 1) t = after (ModifyNode n) t) /\
  (forall a b, go ([QPush p (RNew a b)] ++ turns 1) t = after (NewRelationship a b) t) /\
  (forall a b, go ([QPush p (RBreak a b)] ++ turns 1) t = after (BreakRelationship a b) t).
Proof. exact request_effects. Qed.
Print Assumptions C20_effects.
Example C20_effects_example : get_all_nodes (go ([ask (RRemove "a" true)] ++ turns 1) pair) = [] /\
  get_all_nodes (go ([ask (RRemove "a" false)] ++ turns 1) pair) = ["b"].
Proof. exact (conj eq_refl eq_refl). Qed.

(** C20 fails: an addition followed by a removal leaves the node in the tree, since
    additions have a lower priority by default. *)
Theorem C20_priorities_refuted : exists t r1 r2 n, reach calm t /\
  has_node (after (op_of r2) (after (op_of r1) t)) n = false /\
  has_node (go ([ask r1; ask r2] ++ turns 2) t) n = true.
Proof. exact priorities_reorder. Qed.
Print Assumptions C20_priorities_refuted.

(** C20 fails: relate, break, relate again leaves the nodes unrelated, since the
    third request is dropped as a duplicate of the first. *)
Theorem C20_duplicates_refuted : exists t p c, reach calm t /\
  let rs := [RNew p c; RBreak p c; RNew p c] in
  In p (get_parents (fold_left (fun t r => after (op_of r) t) rs t) c) /\
  ~ In p (get_parents (go (map ask rs ++ turns 3) t) c).
Proof. exact duplicates_reorder. Qed.
Print Assumptions C20_duplicates_refuted.

(** C21. A call by the creating thread is done at once and enters no queue. *)
Theorem C21_immediate : forall (R E : Type) (eqb : R -> R -> bool) (exec : R -> E -> E * bool) (c : @system R E) r,
  running (snd c) = None ->
  let q := snd c in let q' := snd (do_step eqb exec (QOrigin r) c) in
  (forall p, queue_of p q' = queue_of p q) /\ app q' = fst (exec r (app q)) /\ log q' = log q ++ [r] /\
  handler q' = handler q /\ sources q' = sources q.
Proof. exact @origin_immediate. Qed.
Print Assumptions C21_immediate.
Example C21_example : go [ask (RModify "a"); QOrigin (RRemove "b" false)] pair = after (DelNode "b" false) pair.
Proof. exact eq_refl. Qed.
