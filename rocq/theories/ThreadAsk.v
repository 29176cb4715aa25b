(** Proofs about programs with several threads: single steps. *)
From Verif Require Import Base BaseFacts MainTree Spec Filters FTree ViewCount Api SpecSys Threads SpecThreads Queue SpecQueue QueueFacts.

Section Ask.
  Variable ord : nat -> list id -> list id.

  Lemma program_snoc : forall l s, exists h, runs tcall_eqb (exec_call ord) (map qstep_of l) (start new_sys) = (h, program ord l) /\
    program ord (l ++ [s]) = snd (do_step tcall_eqb (exec_call ord) (qstep_of s) (h, program ord l)).
  Proof.
    intros l s. unfold program. rewrite map_app. unfold runs. rewrite fold_left_app. cbn [map fold_left].
    destruct (fold_left (fun c s0 => do_step tcall_eqb (exec_call ord) s0 c) (map qstep_of l) (start new_sys)) as [h q]. exists h. auto.
  Qed.

  Lemma asked_step : forall l p r, let q := program ord l in let q' := program ord (l ++ [Asked p r]) in
    app q' = app q /\ completed q' = completed q /\
    (((exists r', In (TRequest r') (queue_of p q) /\ same_request r r') /\ q' = q) \/
     ((forall r', In (TRequest r') (queue_of p q) -> ~ same_request r r') /\ queue_of p q' = queue_of p q ++ [TRequest r] /\
      (forall p', p' <> p -> queue_of p' q' = queue_of p' q) /\ forall o, asks r o -> In (LTree o) (pending_calls q'))).
  Proof.
    intros l p r. cbv zeta. destruct (program_snoc l (Asked p r)) as (h & _ & ->). cbn [qstep_of do_step snd]. generalize (program ord l) as q. intros q.
    unfold push. destruct (existsb (tcall_eqb (TRequest r)) (queue_of p q)) eqn:X.
    - split; auto. split; auto. left. split; auto. apply existsb_exists in X. destruct X as (y & Hy & Ey). destruct y as [r'|]; [|discriminate].
      exists r'. split; auto. apply request_eqb_same. exact Ey.
    - assert (N : forall r', In (TRequest r') (queue_of p q) -> ~ same_request r r').
      { intros r' Hr S. apply request_eqb_same in S. assert (Y : existsb (tcall_eqb (TRequest r)) (queue_of p q) = true) by (apply existsb_exists; exists (TRequest r'); auto). congruence. }
      assert (A : forall q1 : queue tcall sys, app (match handler q1 with None => idle_add q1 | Some _ => q1 end) = app q1 /\
        completed (match handler q1 with None => idle_add q1 | Some _ => q1 end) = completed q1 /\
        (forall p', queue_of p' (match handler q1 with None => idle_add q1 | Some _ => q1 end) = queue_of p' q1) /\
        pending_calls (match handler q1 with None => idle_add q1 | Some _ => q1 end) = pending_calls q1).
      { intros q1. destruct (handler q1); repeat split; auto. }
      destruct (A (append_to p (TRequest r) q)) as (A1 & A2 & A3 & A4). rewrite A1, A2. split; [destruct p; auto|]. split; [destruct p; auto|].
      right. split; [exact N|]. rewrite A3, A4. split; [destruct p; auto|]. split; [intros p' Np; rewrite A3; destruct p, p'; auto; congruence|].
      intros o W. assert (Eo : o = op_of r) by (destruct W; reflexivity). rewrite Eo.
      unfold pending_calls, waiting. apply in_map_iff. exists (TRequest r). split; [reflexivity|]. rewrite !in_app_iff. destruct p; cbn [append_to lowq normq vipq]; rewrite in_app_iff; simpl; auto 6.
  Qed.

  Lemma called_step : forall l c, let q := program ord l in running q = None -> let q' := program ord (l ++ [Called c]) in
    app q' = fst (lib_call ord c (app q)) /\ waiting q' = waiting q /\ completed q' = completed q ++ [c].
  Proof.
    intros l c. cbv zeta. intros R. destruct (program_snoc l (Called c)) as (h & _ & ->). cbn [qstep_of do_step]. revert R. generalize (program ord l) as q. intros q R.
    rewrite R. cbn [snd]. unfold push_origin. cbn [app waiting]. split.
    - unfold exec_call. cbn [call_of]. destruct (lib_call ord c (app q)) as [y e]. auto.
    - split; [auto|]. unfold completed. cbn [running log]. rewrite R. rewrite map_app. auto.
  Qed.
End Ask.
