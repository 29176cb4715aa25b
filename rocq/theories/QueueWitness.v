(** Concrete schedules for the properties of the queue. *)
From Verif Require Import Base BaseFacts MainTree Spec Queue SpecQueue QueueFacts Witness.

Definition go (l : list (qstep request)) (t : mtree) : mtree :=
  app (snd (runs request_eqb exec_request l (start t))).
Definition ask (r : request) : qstep request := QPush (default_priority r) r.

(** a above b; then the opposite relation and another request are queued. *)
Definition pair : mtree := hist [add "a" None; add "b" (Some "a")].
Definition stuck : list (qstep request) := [ask (RNew "b" "a"); ask (RRemove "b" false); QBegin; QEnd].

Lemma stalls : exists t l r p, reach calm t /\
  In r (queue_of p (snd (runs request_eqb exec_request l (start t)))) /\
  forall l', In r (queue_of p (snd (runs request_eqb exec_request (l ++ l') (start t)))).
Proof.
  exists pair, stuck, (RRemove "b" false), Normal. split; [apply run_calm; reflexivity|]. split; [vm_compute; auto|].
  intros l'. unfold runs. rewrite fold_left_app.
  apply (stalled_runs request_eqb exec_request l' (fold_left (fun c s => do_step request_eqb exec_request s c) stuck (start pair))).
  - split; [reflexivity|]. split; [vm_compute; discriminate|reflexivity].
  - vm_compute. auto.
Qed.

(** A background thread adds a node and removes it. *)
Lemma priorities_reorder : exists t r1 r2 n, reach calm t /\
  has_node (after (op_of r2) (after (op_of r1) t)) n = false /\
  has_node (go ([ask r1; ask r2] ++ turns 2) t) n = true.
Proof.
  exists empty_tree, (RAdd 0 "n" (new_node 0) None), (RRemove "n" false), "n". split; [constructor|]. split; reflexivity.
Qed.

(** A background thread asks for a relation, breaks it and asks again. *)
Lemma duplicates_reorder : exists t p c, reach calm t /\
  let rs := [RNew p c; RBreak p c; RNew p c] in
  In p (get_parents (fold_left (fun t r => after (op_of r) t) rs t) c) /\
  ~ In p (get_parents (go (map ask rs ++ turns 3) t) c).
Proof.
  exists (hist [add "p" None; add "c" None]), "p", "c". split; [apply run_calm; reflexivity|]. split; vm_compute; auto.
Qed.

Lemma stuck_example : let q := snd (runs request_eqb exec_request [ask (RRemove "b" false); ask (RModify "a"); QBegin; ask (RRemove "b" false)] (start pair)) in
  log q = [RRemove "b" false] /\ normq q = [RRemove "b" false] /\ lowq q = [RModify "a"].
Proof. repeat split. Qed.

Definition count_exec (r : nat) (e : nat) : nat * bool := (r + e, false).
Lemma count_quiet : never_raises count_exec.
Proof. intros r e. reflexivity. Qed.

Lemma distinct_example : distinct Nat.eqb [3; 1; 2].
Proof. simpl. repeat split; intros x H; repeat (destruct H as [<-|H]; [reflexivity|]); destruct H. Qed.

Lemma alone_example : raises_alone request_eqb exec_request [ask (RNew "b" "a"); QBegin; QEnd; ask (RModify "a")] (start pair) /\
  outcome (op_of (RNew "b" "a")) pair = Err Circular.
Proof.
  split; [|reflexivity]. split; [discriminate|]. split; [discriminate|]. split; [|split; [discriminate|exact I]]. intros _ r _ _. reflexivity.
Qed.

(** Requests made while nothing waits. *)
Lemma go_single : forall p r t, go ([QPush p r] ++ turns 1) t = after (op_of r) t.
Proof. intros p r t. destruct p; reflexivity. Qed.

Lemma request_effects : forall p t,
  (forall o n nd q, go ([QPush p (RAdd o n nd q)] ++ turns 1) t = after (AddNode n nd q) t) /\
  (forall n rc, go ([QPush p (RRemove n rc)] ++ turns 1) t = after (DelNode n rc) t) /\
  (forall n, go ([QPush p (RModify n)] ++ turns 1) t = after (ModifyNode n) t) /\
  (forall a b, go ([QPush p (RNew a b)] ++ turns 1) t = after (NewRelationship a b) t) /\
  (forall a b, go ([QPush p (RBreak a b)] ++ turns 1) t = after (BreakRelationship a b) t).
Proof. intros p t. repeat split; intros; rewrite go_single; reflexivity. Qed.
