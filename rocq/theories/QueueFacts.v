(** Proofs about the queue. *)
From Verif Require Import Base BaseFacts MainTree Queue SpecQueue.

Section Facts.
  Context {R E : Type}.
  Variable rq_eqb : R -> R -> bool.
  Variable exec : R -> E -> E * bool.
  Local Notation system := (@system R E).
  Local Notation do_step := (do_step rq_eqb exec).
  Local Notation runs := (runs rq_eqb exec).
  Local Notation notes := (notes rq_eqb exec).
  Local Notation notes_of := (notes_of rq_eqb).

  Lemma queue_of_append : forall p p' r (q : queue R E), queue_of p (append_to p' r q) = queue_of p q ++ (if prio_eqb p p' then [r] else []).
  Proof. intros [] [] r q; simpl; rewrite ?app_nil_r; auto. Qed.

  Lemma queue_of_push : forall p p' r (q : queue R E),
    queue_of p (push rq_eqb p' r q) = queue_of p q ++ (if existsb (rq_eqb r) (queue_of p' q) then [] else if prio_eqb p p' then [r] else []).
  Proof.
    intros. unfold push. destruct (existsb (rq_eqb r) (queue_of p' q)); [rewrite app_nil_r; auto|].
    destruct (handler (append_to p' r q)); [apply queue_of_append|].
    rewrite <- queue_of_append. destruct p; auto.
  Qed.

  Lemma push_fields : forall p r (q : queue R E), running (push rq_eqb p r q) = running q /\ log (push rq_eqb p r q) = log q /\ app (push rq_eqb p r q) = app q.
  Proof.
    intros p r q. unfold push. destruct (existsb (rq_eqb r) (queue_of p q)); auto.
    destruct (handler (append_to p r q)); destruct p; simpl; auto.
  Qed.

  Definition tail_of (p : priority) (q : queue R E) : list R :=
    match next_request q with Some (p', _) => if prio_eqb p p' then tl (queue_of p q) else queue_of p q | None => queue_of p q end.

  Lemma queue_of_disarm : forall p (q : queue R E), queue_of p (disarm q) = queue_of p q.
  Proof.
    intros p q. unfold disarm. destruct (lowq q) eqn:A, (normq q) eqn:B, (vipq q) eqn:C, (handler q) eqn:D; auto.
    destruct p; simpl; congruence.
  Qed.

  Lemma disarm_fields : forall (q : queue R E), running (disarm q) = running q /\ log (disarm q) = log q /\ app (disarm q) = app q /\ next_source (disarm q) = next_source q.
  Proof. intros q. unfold disarm. destruct (lowq q), (normq q), (vipq q), (handler q); auto. Qed.

  Lemma take_next : forall (q : queue R E), snd (take q) = option_map snd (next_request q).
  Proof. intros q. unfold take, next_request. destruct (vipq q), (normq q), (lowq q); auto. Qed.

  Lemma queue_of_take : forall p (q : queue R E), queue_of p (fst (take q)) = tail_of p q.
  Proof.
    intros p q. unfold take, tail_of, next_request. destruct (vipq q) eqn:A, (normq q) eqn:B, (lowq q) eqn:C; destruct p; simpl;
      rewrite ?A, ?B, ?C; auto.
  Qed.

  Lemma take_fields : forall (q : queue R E), running (fst (take q)) = running q /\ log (fst (take q)) = log q /\ app (fst (take q)) = app q
    /\ handler (fst (take q)) = handler q /\ sources (fst (take q)) = sources q /\ next_source (fst (take q)) = next_source q.
  Proof. intros q. unfold take. destruct (vipq q); [destruct (normq q); [destruct (lowq q)|]|]; simpl; repeat split; auto. Qed.

  Lemma begin_fields : forall (q : queue R E),
    (forall p, queue_of p (begin_source q) = tail_of p q) /\
    log (begin_source q) = log q ++ (match next_request q with Some (_, r) => [r] | None => [] end) /\
    app (begin_source q) = app q /\
    running (begin_source q) = match next_request q with Some (_, r) => Some r | None => running q end /\
    handler (begin_source q) = handler (disarm (fst (take q))) /\ sources (begin_source q) = sources (disarm (fst (take q)))
    /\ next_source (begin_source q) = next_source q.
  Proof.
    intros q. unfold begin_source. pose proof (take_next q) as HT. pose proof (queue_of_take) as HQ. pose proof (take_fields q) as HF.
    destruct (take q) as [q1 o] eqn:Et. cbn [snd fst] in *.
    destruct (disarm_fields q1) as (D1 & D2 & D3 & D4). destruct HF as (F1 & F2 & F3 & F4 & F5 & F6).
    assert (HQ1 : forall p, queue_of p (disarm q1) = tail_of p q) by (intros; rewrite queue_of_disarm; specialize (HQ p q); rewrite Et in HQ; auto).
    destruct (next_request q) as [[p r]|]; simpl in HT; subst o.
    - split; [intros p'; specialize (HQ1 p'); destruct p'; auto|]. simpl. rewrite D2, F2, D3, F3, D4, F6. repeat split; auto.
    - rewrite D1, D2, D3, D4, F1, F2, F3, F6, app_nil_r. repeat split; auto.
  Qed.

  Lemma head_tail : forall p r (q : queue R E), next_request q = Some (p, r) -> queue_of p q = r :: tail_of p q /\ forall p', p' <> p -> tail_of p' q = queue_of p' q.
  Proof.
    intros p r q H. unfold tail_of. rewrite H. unfold next_request in H.
    destruct (vipq q) eqn:A, (normq q) eqn:B, (lowq q) eqn:C; inv H; simpl; rewrite ?A, ?B, ?C; (split; [auto|]);
      intros [] N; simpl; auto; congruence.
  Qed.

  (** C16 *)
  Lemma step_notes : forall p s (c : system),
    queue_of p (snd c) ++ accepted p (notes_of s c) = started p (notes_of s c) ++ queue_of p (snd (do_step s c)).
  Proof.
    intros p s [h q]. destruct s as [p' r|r| |]; cbn [do_step snd notes_of].
    - rewrite queue_of_push. destruct (existsb (rq_eqb r) (queue_of p' q)); simpl; [rewrite app_nil_r; auto|].
      destruct (prio_eqb p p'); simpl; auto.
    - destruct (running q); simpl; rewrite app_nil_r; destruct p; auto.
    - destruct (running q) eqn:Er; [simpl; rewrite app_nil_r; auto|]. destruct (sources q) eqn:Es; [simpl; rewrite app_nil_r; auto|].
      cbn [snd]. destruct (begin_fields q) as (B & _). rewrite B. destruct (next_request q) as [[p' r]|] eqn:En.
      + destruct (head_tail _ _ _ En) as [H1 H2]. simpl. rewrite app_nil_r, app_nil_r.
        destruct (prio_eqb p p') eqn:Ep.
        * assert (p = p') by (destruct p, p'; discriminate || auto). subst p'. auto.
        * simpl. symmetry. apply H2. intros ->. destruct p'; discriminate.
      + simpl. rewrite app_nil_r. unfold tail_of. rewrite En. auto.
    - destruct h; simpl; rewrite app_nil_r; auto. unfold end_source. destruct (running q); auto. destruct (exec r (app q)). destruct p; auto.
  Qed.

  Lemma accepted_app : forall p a b, @accepted R p (a ++ b) = accepted p a ++ accepted p b.
  Proof. intros. apply flat_map_app. Qed.
  Lemma started_app : forall p a b, @started R p (a ++ b) = started p a ++ started p b.
  Proof. intros. apply flat_map_app. Qed.
  Lemma executed_app : forall a b, @executed R (a ++ b) = executed a ++ executed b.
  Proof. intros. apply flat_map_app. Qed.

  Lemma all_notes : forall p l (c : system), queue_of p (snd c) ++ accepted p (notes l c) = started p (notes l c) ++ queue_of p (snd (runs l c)).
  Proof.
    intros p. induction l as [|s l IH]; intros c; [simpl; rewrite app_nil_r; auto|].
    cbn [notes]. rewrite accepted_app, started_app, app_assoc, step_notes, <- !app_assoc, IH. auto.
  Qed.

  Lemma fifo : forall e l p, accepted p (notes l (start e)) = started p (notes l (start e)) ++ queue_of p (snd (runs l (start e))).
  Proof. intros e l p. pose proof (all_notes p l (start e)) as H. destruct p; exact H. Qed.

  Lemma step_log : forall s (c : system), log (snd (do_step s c)) = log (snd c) ++ executed (notes_of s c).
  Proof.
    intros s [h q]. destruct s as [p' r|r| |]; cbn [do_step snd notes_of].
    - destruct (push_fields p' r q) as (_ & -> & _). destruct (existsb _ _); simpl; rewrite app_nil_r; auto.
    - destruct (running q); simpl; rewrite ?app_nil_r; auto.
    - destruct (running q) eqn:Er; [simpl; rewrite app_nil_r; auto|]. destruct (sources q) eqn:Es; [simpl; rewrite app_nil_r; auto|].
      cbn [snd]. destruct (begin_fields q) as (_ & -> & _). destruct (next_request q) as [[p' r]|] eqn:En; auto.
    - destruct h; simpl; rewrite ?app_nil_r; auto. unfold end_source. destruct (running q); auto. destruct (exec r (app q)); auto.
  Qed.

  Lemma log_exact : forall e l, log (snd (runs l (start e))) = executed (notes l (start e)).
  Proof.
    intros e l. assert (H : forall l (c : system), log (snd (runs l c)) = log (snd c) ++ executed (notes l c)).
    { clear. induction l as [|s l IH]; intros c; [simpl; rewrite app_nil_r; auto|].
      cbn [notes]. rewrite executed_app, app_assoc, <- step_log. apply IH. }
    apply (H l (start e)).
  Qed.

  (** C17 *)
  Lemma highest_first : forall (c : system) p r, In (Started p r) (notes_of QBegin c) ->
    (exists rest, queue_of p (snd c) = r :: rest) /\ forall p', In p' (above p) -> queue_of p' (snd c) = [].
  Proof.
    intros [h q] p r H. cbn [notes_of snd] in *. destruct (running q); [destruct H|]. destruct (sources q); [destruct H|].
    destruct (next_request q) as [[p1 r1]|] eqn:En; [|destruct H]. destruct H as [H|[]]. inv H.
    destruct (head_tail _ _ _ En) as [H1 H2]. split; [eauto|].
    unfold next_request in En. destruct (vipq q) eqn:A, (normq q) eqn:B, (lowq q) eqn:C; inv En; simpl; intros p' Hp;
      repeat (destruct Hp as [<-|Hp]; [auto|]); destruct Hp.
  Qed.

  (** C18 *)
  Definition armed (q : queue R E) : Prop :=
    (forall x, In x (sources q) -> x < next_source q) /\
    match waiting q with
    | [] => handler q = None /\ sources q = []
    | _ => exists h, handler q = Some h /\ sources q = [h]
    end.
  Definition sound (c : system) : Prop := (fst c = None <-> running (snd c) = None) /\ armed (snd c).

  Lemma waiting_nil : forall (q : queue R E), waiting q = [] <-> vipq q = [] /\ normq q = [] /\ lowq q = [].
  Proof.
    intros q. unfold waiting. split.
    - intros H. apply app_eq_nil in H. destruct H as [A H]. apply app_eq_nil in H. tauto.
    - intros (-> & -> & ->). auto.
  Qed.

  Lemma armed_empty : forall (q : queue R E), armed q -> waiting q = [] -> handler q = None /\ sources q = [].
  Proof. intros q [_ H] E0. rewrite E0 in H. auto. Qed.
  Lemma armed_full : forall (q : queue R E), armed q -> waiting q <> [] -> exists h, handler q = Some h /\ sources q = [h].
  Proof. intros q [_ H] E0. destruct (waiting q); [congruence|auto]. Qed.
  Lemma armed_intro : forall (q : queue R E), (forall x, In x (sources q) -> x < next_source q) ->
    (waiting q = [] -> handler q = None /\ sources q = []) -> (waiting q <> [] -> exists h, handler q = Some h /\ sources q = [h]) -> armed q.
  Proof. intros q H1 H2 H3. split; auto. destruct (waiting q); [auto|apply H3; discriminate]. Qed.

  Lemma waiting_same : forall (q q' : queue R E), (forall p, queue_of p q' = queue_of p q) -> waiting q' = waiting q.
  Proof. intros q q' H. unfold waiting. pose proof (H High) as A. pose proof (H Normal) as B. pose proof (H Low) as C. simpl in A, B, C. congruence. Qed.

  Lemma armed_push : forall p r (q : queue R E), armed q -> armed (push rq_eqb p r q).
  Proof.
    intros p r q H. unfold push. destruct (existsb (rq_eqb r) (queue_of p q)); auto.
    assert (N : waiting (append_to p r q) <> []).
    { intros X. apply waiting_nil in X. destruct X as (A & B & C). destruct p; simpl in *;
        match goal with H : _ ++ [_] = [] |- _ => apply app_eq_nil in H; destruct H; discriminate end. }
    assert (F : handler (append_to p r q) = handler q /\ sources (append_to p r q) = sources q /\ next_source (append_to p r q) = next_source q)
      by (destruct p; auto). destruct F as (F1 & F2 & F3).
    destruct (handler (append_to p r q)) as [h|] eqn:Eh.
    - rewrite <- Eh in F1. apply armed_intro.
      + rewrite F2, F3. apply H.
      + tauto.
      + intros _. assert (Nw : waiting q <> []). { intros X. destruct (armed_empty q H X). congruence. }
        destruct (armed_full q H Nw) as (h' & A & B). exists h'. rewrite F2. rewrite Eh in *. split; congruence.
    - assert (X : waiting q = []).
      { destruct (waiting q) eqn:Ew; auto. destruct (armed_full q H) as (h & A & _); congruence. }
      destruct (armed_empty q H X) as [A B].
      apply armed_intro.
      + simpl. rewrite F2, F3, B. simpl. intros x [<-|[]]. lia.
      + intros Y. exfalso. apply N. rewrite <- Y. apply waiting_same. intros []; auto.
      + intros _. simpl. rewrite F2, B. eauto.
  Qed.

  Lemma next_none : forall (q : queue R E), next_request q = None <-> waiting q = [].
  Proof.
    intros q. rewrite waiting_nil. unfold next_request. destruct (vipq q), (normq q), (lowq q); split; intros H; try discriminate; auto;
      destruct H as (? & ? & ?); discriminate.
  Qed.

  Lemma waiting_begin : forall (q : queue R E) p r, next_request q = Some (p, r) -> waiting q = r :: waiting (begin_source q).
  Proof.
    intros q p r H. destruct (begin_fields q) as (B & _). pose proof (B High) as B1. pose proof (B Normal) as B2. pose proof (B Low) as B3.
    simpl in B1, B2, B3. unfold waiting. rewrite B1, B2, B3. unfold tail_of. rewrite H. unfold next_request in H. simpl.
    destruct (vipq q) eqn:A1, (normq q) eqn:A2, (lowq q) eqn:A3; inv H; simpl; auto.
  Qed.

  Lemma armed_begin : forall (q : queue R E), armed q -> armed (begin_source q).
  Proof.
    intros q H. destruct (begin_fields q) as (B1 & B2 & B3 & B4 & B5 & B6 & B7).
    assert (W : waiting (begin_source q) = waiting (fst (take q))).
    { apply waiting_same. intros p. rewrite B1. symmetry. apply queue_of_take. }
    destruct (take_fields q) as (_ & _ & _ & T4 & T5 & T6).
    destruct (waiting (begin_source q)) eqn:Ew.
    - assert (X : waiting (fst (take q)) = []) by congruence. apply waiting_nil in X. destruct X as (X1 & X2 & X3).
      assert (Y : handler (begin_source q) = None /\ sources (begin_source q) = []).
      { rewrite B5, B6. unfold disarm. rewrite X1, X2, X3. destruct (handler (fst (take q))) as [h|] eqn:Eh; simpl.
        - split; auto. destruct (waiting q) eqn:Eq.
          + destruct (armed_empty q H Eq). congruence.
          + destruct (armed_full q H) as (h' & A & B); [congruence|]. rewrite T4, A in Eh. assert (h' = h) by congruence. subst h'. rewrite T5, B. cbn [filter]. rewrite Nat.eqb_refl. auto.
        - split; auto. rewrite T5. destruct (waiting q) eqn:Eq.
          + apply armed_empty; auto.
          + destruct (armed_full q H) as (h' & A & B); congruence. }
      destruct Y as [Y1 Y2]. apply armed_intro; auto.
      + rewrite Y2. intros x [].
      + congruence.
    - assert (D : disarm (fst (take q)) = fst (take q)).
      { unfold disarm. destruct (lowq (fst (take q))) eqn:A1, (normq (fst (take q))) eqn:A2, (vipq (fst (take q))) eqn:A3; auto.
        exfalso. assert (waiting (fst (take q)) = []) by (apply waiting_nil; auto). congruence. }
      assert (Nq : waiting q <> []).
      { intros X. apply next_none in X. assert (Y : waiting (begin_source q) = waiting q).
        { apply waiting_same. intros p. rewrite B1. unfold tail_of. rewrite X. auto. } apply next_none in X. congruence. }
      rewrite D in B5, B6. destruct (armed_full q H Nq) as (h & A & B). apply armed_intro.
      + rewrite B6, B7, T5. apply H.
      + congruence.
      + intros _. exists h. rewrite B5, B6, T4, T5. auto.
  Qed.

  Lemma sound_start : forall e, sound (start e).
  Proof. intros e. split; [simpl; tauto|]. split; simpl; auto. intros x []. Qed.

  (** A step in which no request raises. *)
  Lemma sound_step : forall s (c : system), (forall r, running (snd c) = Some r -> s = QEnd -> snd (exec r (app (snd c))) = false) -> sound c -> sound (do_step s c).
  Proof.
    intros s [h q] Hr [H1 H2]. simpl in Hr, H1, H2. destruct s as [p r|r| |]; cbn [do_step].
    - split; simpl; [|apply armed_push; auto]. destruct (push_fields p r q) as (-> & _). auto.
    - destruct (running q) eqn:Er; [split; simpl; auto; rewrite Er; auto|]. split; simpl; [rewrite Er; auto|].
      destruct H2 as [A B]. split; auto.
    - destruct (running q) eqn:Er; [split; simpl; auto; rewrite Er; auto|].
      destruct (sources q) as [|src rest] eqn:Es; [split; simpl; auto; rewrite Er; auto|].
      split; cbn [fst snd]; [|apply armed_begin; auto].
      destruct (begin_fields q) as (_ & _ & _ & -> & _). destruct (next_request q) as [[p r]|] eqn:En; [split; discriminate|].
      apply next_none in En. destruct (armed_empty q H2 En). congruence.
    - destruct h as [src|]; [|split; simpl; auto]. unfold end_source. destruct (running q) as [r|] eqn:Er.
      + specialize (Hr r eq_refl eq_refl). destruct (exec r (app q)) as [e raised]. simpl in Hr. subst raised.
        split; simpl; [tauto|]. destruct H2 as [A B]. split; auto.
      + exfalso. destruct H1 as [_ H1]. specialize (H1 eq_refl). discriminate.
  Qed.

  Lemma sound_runs : never_raises exec -> forall l (c : system), sound c -> sound (runs l c).
  Proof. intros HN. induction l as [|s l IH]; intros c H; auto. apply IH. apply sound_step; auto. Qed.

  Lemma always_armed : never_raises exec -> forall e l, let q := snd (runs l (start e)) in
    match waiting q with
    | [] => handler q = None /\ sources q = []
    | _ => exists h, handler q = Some h /\ sources q = [h]
    end.
  Proof. intros HN e l. apply (sound_runs HN l (start e) (sound_start e)). Qed.

  Lemma turn : never_raises exec -> forall (c : system) r rest, sound c -> running (snd c) = None -> waiting (snd c) = r :: rest ->
    let c' := runs [QBegin; QEnd] c in
    sound c' /\ running (snd c') = None /\ waiting (snd c') = rest /\ log (snd c') = log (snd c) ++ [r] /\ app (snd c') = fst (exec r (app (snd c))).
  Proof.
    intros HN c r rest H Hr Hw c'. split; [apply sound_runs; auto|].
    destruct c as [h q]. simpl in Hr, Hw. change c' with (do_step QEnd (do_step QBegin (h, q))). clear c'.
    destruct H as [H1 H2]. simpl in H1, H2.
    destruct (armed_full q H2) as (hh & A & B); [congruence|].
    assert (E1 : do_step QBegin (h, q) = (Some hh, begin_source q)) by (cbn [Queue.do_step]; rewrite Hr, B; auto). rewrite E1.
    cbn [Queue.do_step].
    destruct (next_request q) as [[p r0]|] eqn:En; [|apply next_none in En; congruence].
    pose proof (waiting_begin _ _ _ En) as Wb. rewrite Hw in Wb. inv Wb.
    destruct (begin_fields q) as (_ & B2 & B3 & B4 & _). rewrite En in B2, B4.
    cbn [snd]. unfold end_source. rewrite B4. destruct (exec r0 (app (begin_source q))) as [e raised] eqn:Ex. simpl.
    split; auto. split; [reflexivity|]. split; auto. rewrite B3 in Ex. rewrite Ex. auto.
  Qed.

  Lemma drains_from : never_raises exec -> forall n (c : system), sound c -> running (snd c) = None -> length (waiting (snd c)) = n ->
    let q := snd (runs (turns n) c) in
    waiting q = [] /\ log q = log (snd c) ++ waiting (snd c) /\
    app q = fold_left (fun e r => fst (exec r e)) (waiting (snd c)) (app (snd c)).
  Proof.
    intros HN. induction n as [|n IH]; intros c H Hr Hl.
    - destruct (waiting (snd c)) eqn:Ew; [|discriminate]. simpl. rewrite Ew, app_nil_r. auto.
    - destruct (waiting (snd c)) as [|r rest] eqn:Ew; [discriminate|]. inv Hl.
      destruct (turn HN c r rest H Hr Ew) as (S1 & R1 & W1 & L1 & A1).
      destruct (IH (runs [QBegin; QEnd] c) S1 R1) as (X & Y & Z); [rewrite W1; auto|].
      change (runs (turns (S (length rest))) c) with (runs (turns (length rest)) (runs [QBegin; QEnd] c)).
      cbv zeta. rewrite Y, Z, W1, L1, A1. split; auto. rewrite <- app_assoc. auto.
  Qed.

  Lemma drains : never_raises exec -> forall e l, let c := runs (l ++ [QEnd]) (start e) in
    let q := snd (runs (turns (length (waiting (snd c)))) c) in
    waiting q = [] /\ log q = log (snd c) ++ waiting (snd c).
  Proof.
    intros HN e l c q.
    assert (S : sound c) by (apply sound_runs; auto; apply sound_start).
    assert (Hr : running (snd c) = None).
    { unfold c, runs, SpecQueue.runs. rewrite fold_left_app. cbn [fold_left].
      pose proof (sound_runs HN l (start e) (sound_start e)) as H. unfold SpecQueue.runs in H.
      destruct (fold_left (fun c s => do_step s c) l (start e)) as [[h|] q0]; cbn [Queue.do_step snd].
      - unfold end_source. destruct (running q0) as [r|] eqn:Er; auto. destruct (exec r (app q0)); auto.
      - apply H. auto. }
    destruct (drains_from HN _ c S Hr eq_refl) as (A & B & _). auto.
  Qed.

  (** C20: one priority, no duplicates, from an empty queue *)
  Local Notation distinct := (distinct rq_eqb).

  Lemma push_all : forall p rs (c : system), running (snd c) = None -> distinct (queue_of p (snd c) ++ rs) ->
    let c' := runs (map (QPush p) rs) c in
    running (snd c') = None /\ app (snd c') = app (snd c) /\ log (snd c') = log (snd c) /\
    queue_of p (snd c') = queue_of p (snd c) ++ rs /\ (forall p', p' <> p -> queue_of p' (snd c') = queue_of p' (snd c)).
  Proof.
    intros p. induction rs as [|r rs IH]; intros c Hr Hd.
    - simpl. rewrite app_nil_r. auto 6.
    - destruct c as [h q]. cbn [snd] in *.
      assert (Hx : existsb (rq_eqb r) (queue_of p q) = false).
      { clear -Hd. induction (queue_of p q) as [|y l IHl]; simpl; auto. destruct Hd as [A B].
        rewrite (A r) by (apply in_app_iff; right; left; auto). simpl. auto. }
      assert (Q : forall p', queue_of p' (push rq_eqb p r q) = queue_of p' q ++ if prio_eqb p' p then [r] else []).
      { intros p'. rewrite queue_of_push, Hx. auto. }
      assert (Epp : prio_eqb p p = true) by (destruct p; auto).
      destruct (push_fields p r q) as (F1 & F2 & F3).
      destruct (IH (h, push rq_eqb p r q)) as (A & B & C & D & F); cbn [snd].
      + congruence.
      + rewrite Q, Epp, <- app_assoc. auto.
      + change (runs (map (QPush p) (r :: rs)) (h, q)) with (runs (map (QPush p) rs) (h, push rq_eqb p r q)). cbn [snd] in *.
        split; auto. split; [congruence|]. split; [congruence|]. split; [rewrite D, Q, Epp, <- app_assoc; auto|].
        intros p' N. rewrite F, Q by auto. assert (En : prio_eqb p' p = false) by (destruct p, p'; congruence || auto). rewrite En, app_nil_r. auto.
  Qed.

  Lemma same_priority : never_raises exec -> forall e p rs, distinct rs ->
    let q := snd (runs (map (QPush p) rs ++ turns (length rs)) (start e)) in
    app q = fold_left (fun e r => fst (exec r e)) rs e /\ log q = rs.
  Proof.
    intros HN e p rs Hd q. destruct (push_all p rs (start e) eq_refl) as (A & B & C & D & F).
    { destruct p; auto. }
    set (c := runs (map (QPush p) rs) (start e)) in *.
    assert (W : waiting (snd c) = rs).
    { unfold waiting. destruct p; simpl in D; pose proof (F Low) as F1; pose proof (F Normal) as F2; pose proof (F High) as F3; simpl in F1, F2, F3.
      - rewrite D, F2, F3 by discriminate. auto.
      - rewrite D, F1, F3 by discriminate. apply app_nil_r.
      - rewrite D, F1, F2 by discriminate. simpl. rewrite app_nil_r. auto. }
    assert (S : sound c) by (apply sound_runs; auto; apply sound_start).
    destruct (drains_from HN (length rs) c S A) as (X & Y & Z); [rewrite W; auto|].
    assert (Eq : q = snd (runs (turns (length rs)) c)) by (unfold q, c, runs, SpecQueue.runs; rewrite fold_left_app; auto).
    rewrite Eq, Y, Z, W, B, C. auto.
  Qed.

  (** C19: a request that raises when nothing else waits does no harm. *)
  Lemma raising_alone : forall (c : system), sound c -> waiting (snd c) = [] -> sound (do_step QEnd c).
  Proof.
    intros [h q] [H1 H2] Hw. simpl in *. destruct h as [src|]; [|split; simpl; auto].
    unfold end_source. destruct (running q) as [r|] eqn:Er.
    - destruct (exec r (app q)) as [e raised]. split; simpl; [tauto|].
      destruct (armed_empty q H2 Hw) as [A B]. apply armed_intro; simpl.
      + intros x Hx. destruct raised; rewrite B in Hx; destruct Hx.
      + intros _. rewrite B. destruct raised; auto.
      + intros N. exfalso. apply N. exact Hw.
    - destruct H1 as [_ H1]. specialize (H1 eq_refl). discriminate.
  Qed.

  Lemma alone_armed : forall e l, raises_alone rq_eqb exec l (start e) -> let q := snd (runs l (start e)) in
    match waiting q with
    | [] => handler q = None /\ sources q = []
    | _ => exists h, handler q = Some h /\ sources q = [h]
    end.
  Proof.
    intros e l. cut (forall l (c : system), sound c -> raises_alone rq_eqb exec l c -> sound (runs l c)).
    { intros H Ha. apply (H l (start e) (sound_start e) Ha). }
    clear. induction l as [|s l IH]; intros c H Ha; auto. destruct Ha as [A B]. apply (IH (do_step s c)); auto.
    destruct (running (snd c)) as [r|] eqn:Er; [|apply sound_step; auto; congruence].
    destruct (snd (exec r (app (snd c)))) eqn:Ex.
    - destruct s; try (apply sound_step; auto; intros; discriminate). apply raising_alone; auto. eapply A; eauto.
    - apply sound_step; auto. intros r0 E0 _. congruence.
  Qed.

  (** A stalled queue stays stalled. *)
  Definition stalled (c : system) : Prop := running (snd c) = None /\ handler (snd c) <> None /\ sources (snd c) = [].

  Lemma stalled_step : forall s (c : system) r p, stalled c -> In r (queue_of p (snd c)) -> stalled (do_step s c) /\ In r (queue_of p (snd (do_step s c))).
  Proof.
    intros s [h q] r p (H1 & H2 & H3) Hi. simpl in *. destruct s as [p' r'|r'| |]; cbn [do_step].
    - split.
      + unfold stalled. cbn [snd]. destruct (push_fields p' r' q) as (F1 & _). split; [congruence|].
        unfold push. destruct (existsb _ _); auto. destruct (handler (append_to p' r' q)) eqn:Eh.
        * split; [congruence|]. destruct p'; auto.
        * exfalso. apply H2. destruct p'; auto.
      + cbn [snd]. rewrite queue_of_push. apply in_app_iff. auto.
    - rewrite H1. split; [split; auto|]. destruct p; auto.
    - rewrite H1, H3. split; [split; auto|]. auto.
    - destruct h; [|split; [split; auto|auto]]. unfold end_source. rewrite H1. split; [split; auto|auto].
  Qed.

  Lemma stalled_runs : forall l (c : system) r p, stalled c -> In r (queue_of p (snd c)) -> In r (queue_of p (snd (runs l c))) /\ running (snd (runs l c)) = None.
  Proof.
    induction l as [|s l IH]; intros c r p H Hi; [split; auto; apply H|].
    destruct (stalled_step s c r p H Hi). apply (IH (do_step s c)); auto.
  Qed.

  (** C21 *)
  Lemma origin_immediate : forall (c : system) r, running (snd c) = None ->
    let q := snd c in let q' := snd (do_step (QOrigin r) c) in
    (forall p, queue_of p q' = queue_of p q) /\ app q' = fst (exec r (app q)) /\ log q' = log q ++ [r] /\
    handler q' = handler q /\ sources q' = sources q.
  Proof. intros [h q] r H. simpl in *. rewrite H. simpl. split; [intros []; auto|auto]. Qed.
End Facts.

Lemma opt_eqb_eq : forall a b, opt_eqb a b = true <-> a = b.
Proof.
  intros [a|] [b|]; simpl; split; intros H; try discriminate; auto.
  - apply String.eqb_eq in H. congruence.
  - inversion H. apply String.eqb_refl.
Qed.

Lemma request_eqb_same : forall a b, request_eqb a b = true <-> same_request a b.
Proof.
  intros a b. split.
  - destruct a, b; simpl; intros H; try discriminate;
      repeat match goal with
      | H : _ && _ = true |- _ => apply andb_true_iff in H; destruct H
      | H : String.eqb _ _ = true |- _ => apply String.eqb_eq in H
      | H : Bool.eqb _ _ = true |- _ => apply Bool.eqb_prop in H
      | H : Nat.eqb _ _ = true |- _ => apply Nat.eqb_eq in H
      | H : opt_eqb _ _ = true |- _ => apply opt_eqb_eq in H
      end; subst; try (left; reflexivity).
    right. repeat eexists.
  - intros [<-|(o & n1 & d1 & n2 & d2 & p & -> & ->)].
    + destruct a; simpl; rewrite ?Nat.eqb_refl, ?String.eqb_refl, ?Bool.eqb_reflx; auto. apply opt_eqb_eq. reflexivity.
    + simpl. rewrite Nat.eqb_refl. apply opt_eqb_eq. reflexivity.
Qed.

Lemma push_refused : forall E (c : @system request E) (exec : request -> E -> E * bool) p r,
  let q := snd c in let q' := snd (do_step request_eqb exec (QPush p r) c) in
  ((exists w, In w (queue_of p q) /\ same_request r w) -> q' = q) /\
  (~ (exists w, In w (queue_of p q) /\ same_request r w) -> queue_of p q' = queue_of p q ++ [r]) /\
  (forall p', p' <> p -> queue_of p' q' = queue_of p' q).
Proof.
  intros E [h q] exec p r. simpl. unfold push. destruct (existsb (request_eqb r) (queue_of p q)) eqn:B.
  - split; auto. split; auto. intros N. exfalso. apply N. apply existsb_exists in B. destruct B as (w & Hw & Q).
    exists w. split; auto. apply request_eqb_same. auto.
  - split; [|split].
    + intros (w & Hw & Q). apply request_eqb_same in Q. exfalso. rewrite <- not_true_iff_false in B. apply B. apply existsb_exists. eauto.
    + intros _. destruct p; simpl; destruct (handler q); auto.
    + intros p' N. destruct p, p'; try congruence; simpl; destruct (handler q); auto.
Qed.
