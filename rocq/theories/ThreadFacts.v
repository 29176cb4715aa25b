(** Proofs about programs with several threads. *)
From Coq Require Import Lia Permutation.
From Verif Require Import Base BaseFacts MainTree Spec Queue SpecQueue QueueFacts SpecBatch BatchFacts Filters FTree ViewCount Api SpecSys SysFacts Threads SpecThreads.

Section Generic.
  Context {R E : Type}.
  Variable rq_eqb : R -> R -> bool.
  Variable exec : R -> E -> E * bool.
  Definition ended (q : queue R E) : list R := match running q with None => log q | Some _ => removelast (log q) end.
  Definition execs (l : list R) (e : E) : E := fold_left (fun e r => fst (exec r e)) l e.
  Definition tidy (e : E) (q : queue R E) : Prop :=
    app q = execs (ended q) e /\ forall r, running q = Some r -> log q = ended q ++ [r].

  Lemma removelast_snoc : forall A (l : list A) x, removelast (l ++ [x]) = l.
  Proof. intros. rewrite removelast_app; [|discriminate]. simpl. apply app_nil_r. Qed.

  (** One step: nothing ends, or one more. *)
  Lemma tidy_step : forall e s (c : system), tidy e (snd c) ->
    let c' := do_step rq_eqb exec s c in tidy e (snd c') /\
    (ended (snd c') = ended (snd c) \/ exists r, ended (snd c') = ended (snd c) ++ [r]) /\
    (s = QEnd -> fst c <> None -> forall r, running (snd c) = Some r -> ended (snd c') = ended (snd c) ++ [r]).
  Proof.
    intros e s [h q] [A B]. cbn [snd fst] in *. destruct s as [p r|r| |]; cbn [do_step].
    - cbn [snd]. destruct (push_fields rq_eqb p r q) as (F1 & F2 & F3). unfold tidy, ended in *. rewrite F1, F2, F3. split; [split; auto|]. split; [auto|discriminate].
    - destruct (running q) as [r0|] eqn:Er; cbn [snd].
      + split; [split; auto; intros; apply B; congruence|]. split; [auto|discriminate].
      + unfold tidy, ended, push_origin in *. cbn [running log app]. rewrite Er in *. split; [split; [|discriminate]|].
        * unfold execs. rewrite fold_left_app. cbn [fold_left]. rewrite A. auto.
        * split; [right; exists r; auto|discriminate].
    - destruct (running q) as [r0|] eqn:Er; [cbn [snd]; split; [split; auto; intros; apply B; congruence|]; split; [auto|discriminate]|].
      destruct (sources q) as [|src rest]; [cbn [snd]; split; [split; auto; congruence|]; split; [auto|discriminate]|]. cbn [snd].
      destruct (begin_fields q) as (_ & B2 & B3 & B4 & _).
      assert (En : ended q = log q) by (unfold ended; rewrite Er; auto).
      assert (En' : ended (begin_source q) = log q).
      { unfold ended. rewrite B4, B2, Er. destruct (next_request q) as [[p r]|]; [apply removelast_snoc|apply app_nil_r]. }
      split; [|split; [left; congruence|discriminate]]. split; [rewrite B3, En'; congruence|].
      intros r Hr. rewrite En', B2. rewrite B4 in Hr. destruct (next_request q) as [[p r']|]; congruence.
    - destruct h as [src|]; [|cbn [snd]; split; [split; auto|]; split; [auto|tauto]]. cbn [snd]. unfold end_source.
      destruct (running q) as [r|] eqn:Er.
      + specialize (B r eq_refl). destruct (exec r (app q)) as [e1 rd] eqn:Ex. unfold tidy. unfold ended at 1 2 4 6. cbn [running log app].
        assert (L : log q = ended q ++ [r]) by auto.
        split; [split; [|discriminate]|].
        * rewrite L. unfold execs. rewrite fold_left_app. cbn [fold_left]. fold (execs (ended q) e). rewrite <- A, Ex. auto.
        * split; [right; exists r; auto|]. intros _ _ r0 Q. inv Q. auto.
      + split; [split; auto; congruence|]. split; [auto|]. congruence.
  Qed.

  Lemma tidy_runs : forall e l, tidy e (snd (runs rq_eqb exec l (start e))).
  Proof.
    intros e l. induction l as [|s l IH] using rev_ind; [split; [reflexivity|discriminate]|].
    unfold runs. rewrite fold_left_app. cbn [fold_left]. apply (tidy_step e s _ IH).
  Qed.

  (** When no request raises among those that ended, the main loop is in order. *)
  Lemma sound_ended : forall e (Q : list R -> Prop),
    (forall l r, Q (l ++ [r]) -> Q l /\ snd (exec r (execs l e)) = false) ->
    forall l, let c := runs rq_eqb exec l (start e) in Q (ended (snd c)) -> sound c.
  Proof.
    intros e Q HQ l. induction l as [|s l IH] using rev_ind; [intros c _; apply sound_start|].
    cbv zeta in *. unfold runs in *. rewrite fold_left_app. cbn [fold_left]. pose proof (tidy_runs e l) as T. unfold runs in T.
    set (c := fold_left (fun c s => do_step rq_eqb exec s c) l (start e)) in *. intros H.
    destruct (tidy_step e s c T) as (_ & C1 & C2).
    assert (Qc : Q (ended (snd c))) by (destruct C1 as [C1|(r & C1)]; rewrite C1 in H; auto; apply (HQ _ r); auto).
    specialize (IH Qc). apply sound_step; auto. intros r Hr ->.
    assert (Hf : fst c <> None) by (destruct IH as [I1 _]; rewrite Hr in I1; intros X; apply I1 in X; discriminate).
    rewrite (C2 eq_refl Hf r Hr) in H. destruct (HQ _ _ H) as [_ X]. destruct T as [T _]. rewrite T. auto.
  Qed.

  Lemma through_quiet : forall l e, (forall a r b, l = a ++ r :: b -> snd (exec r (execs a e)) = false) -> through exec e l = (l, [], execs l e).
  Proof.
    induction l as [|r l IH]; intros e H; auto. cbn [through].
    pose proof (H [] r l eq_refl) as X. simpl in X. destruct (exec r e) as [e1 rd] eqn:Ex. simpl in X. subst rd.
    assert (Y : through exec e1 l = (l, [], execs l e1)).
    { apply IH. intros a r0 b ->. specialize (H (r :: a) r0 b eq_refl). simpl in H. rewrite Ex in H. auto. }
    rewrite Y. unfold execs. cbn [fold_left]. rewrite Ex. destruct l; auto.
  Qed.
End Generic.

Lemma performed_execs : forall ord l y, performed ord (map call_of l) y = execs (exec_call ord) l y.
Proof.
  intros ord l. induction l as [|t l IH]; intros y; auto. unfold performed, execs in *. cbn [map fold_left]. rewrite IH.
  unfold exec_call at 3. destruct (lib_call ord (call_of t) y). auto.
Qed.
Lemma performed_app : forall ord a b y, performed ord (a ++ b) y = performed ord b (performed ord a y).
Proof. intros. unfold performed. apply fold_left_app. Qed.

Lemma fitting_library : forall ord l y, library ord y -> fitting ord l y -> library ord (performed ord l y).
Proof.
  intros ord l. induction l as [|c l IH]; intros y H F; auto. destruct F as [F1 F2]. unfold performed in *. cbn [fold_left]. apply IH; auto.
  apply library_call; auto.
Qed.
Lemma smooth_fitting : forall ord l y, smooth ord l y -> fitting ord l y.
Proof. intros ord l. induction l as [|c l IH]; intros y; simpl; auto. intros (A & _ & B). auto. Qed.
Lemma smooth_app : forall ord a b y, smooth ord (a ++ b) y <-> smooth ord a y /\ smooth ord b (performed ord a y).
Proof.
  intros ord a. induction a as [|c a IH]; intros b y; [simpl; tauto|]. cbn [List.app smooth]. rewrite IH.
  unfold performed. cbn [fold_left]. tauto.
Qed.
Lemma smooth_quiet : forall ord, (forall k x, Permutation (ord k x) x) -> forall l r y, library ord y -> smooth ord (l ++ [r]) y -> snd (lib_call ord r (performed ord l y)) = Ok tt.
Proof.
  intros ord HO l r y H S. apply smooth_app in S. destruct S as [S1 (F & O & _)].
  assert (L : library ord (performed ord l y)) by (apply fitting_library; auto; apply smooth_fitting; auto).
  destruct (nothing_raises ord HO (performed ord l y) r L F) as [X _]. rewrite X. destruct r; auto.
Qed.

Lemma program_performed : forall ord l, app (program ord l) = performed ord (completed (program ord l)) new_sys.
Proof.
  intros ord l. unfold completed. rewrite performed_execs. unfold program.
  destruct (tidy_runs tcall_eqb (exec_call ord) new_sys (map qstep_of l)) as [A _]. exact A.
Qed.

(** Whatever the threads do, the application is where the completed calls lead, and
    the views and counts show the tree. *)
Lemma threads_right : forall ord, (forall k x, Permutation (ord k x) x) -> forall l, let q := program ord l in fitting ord (completed q) new_sys ->
  app q = performed ord (completed q) new_sys /\
  forall x, In x (s_listeners (app q)) -> shows (s_tree (app q)) (s_bank (app q)) x.
Proof.
  intros ord HO l q F. pose proof (program_performed ord l) as P. fold q in P. split; auto.
  apply (all_show ord HO). rewrite P. apply fitting_library; auto. constructor.
Qed.

Lemma qsteps_loop : forall k, map qstep_of (loop k) = turns k.
Proof. induction k as [|k IH]; auto. simpl. rewrite IH. auto. Qed.

(** All that waits reaches the views after as many turns of the main loop. *)
Lemma threads_reach : forall ord, (forall k x, Permutation (ord k x) x) -> forall l k, let q := program ord l in running q = None -> length (waiting q) <= k ->
  smooth ord (completed q ++ pending_calls q) new_sys ->
  let q' := program ord (l ++ loop k) in
  waiting q' = [] /\ app q' = performed ord (completed q ++ pending_calls q) new_sys /\
  forall x, In x (s_listeners (app q')) -> shows (s_tree (app q')) (s_bank (app q')) x.
Proof.
  intros ord HO l k q Hr Hk S q'. pose proof (program_performed ord l) as P. fold q in P.
  pose proof S as S0. apply smooth_app in S0. destruct S0 as [S1 S2].
  set (c := runs tcall_eqb (exec_call ord) (map qstep_of l) (start new_sys)).
  assert (Sc : sound c).
  { apply (sound_ended tcall_eqb (exec_call ord) new_sys (fun x => smooth ord (map call_of x) new_sys)); [|exact S1].
    intros a r X. rewrite map_app in X. cbn [map] in X. split; [apply smooth_app in X; tauto|].
    pose proof (smooth_quiet ord HO _ _ _ (library_new ord) X) as Y. rewrite <- performed_execs. unfold exec_call.
    destruct (lib_call ord (call_of r) (performed ord (map call_of a) new_sys)) as [y1 o]. simpl in *. rewrite Y. auto. }
  destruct (through_turns tcall_eqb (exec_call ord) k c Sc Hr Hk) as (done & T & L).
  assert (Q' : q' = snd (runs tcall_eqb (exec_call ord) (turns k) c)).
  { unfold q', program, c, runs. rewrite map_app, qsteps_loop, fold_left_app. auto. }
  cbv zeta in T. rewrite <- Q' in T. change (snd c) with q in T.
  rewrite through_quiet in T.
  - assert (E2 : waiting q' = []) by congruence. assert (E3 : app q' = execs (exec_call ord) (waiting q) (app q)) by congruence. clear T Q'.
    assert (A : app q' = performed ord (completed q ++ pending_calls q) new_sys).
    { rewrite performed_app, <- P. unfold pending_calls. rewrite performed_execs. auto. }
    split; auto. split; auto. apply (all_show ord HO). rewrite A. apply fitting_library; [constructor|]. apply smooth_fitting; auto.
  - intros a r b Eb. unfold pending_calls in S. rewrite Eb, map_app in S. cbn [map] in S.
    change (call_of r :: map call_of b) with ([call_of r] ++ map call_of b) in S. rewrite !app_assoc in S.
    apply smooth_app in S. destruct S as [S _]. pose proof (smooth_quiet ord HO _ _ _ (library_new ord) S) as Y.
    rewrite performed_app, <- P, performed_execs in Y.
    assert (Z : forall t y, snd (lib_call ord (call_of t) y) = Ok tt -> snd (exec_call ord t y) = false).
    { intros t y X. unfold exec_call. destruct (lib_call ord (call_of t) y) as [y1 o]. simpl in *. rewrite X. auto. }
    apply Z. auto.
Qed.

Lemma through_until : forall ord l y, let '(done, others, y') := through (exec_call ord) y l in
  until_raise ord (map call_of l) y = (map call_of done, map call_of others) /\ y' = performed ord (map call_of done) y.
Proof.
  intros ord l. induction l as [|t l IH]; intros y; [split; auto|]. cbn [through map until_raise].
  assert (Ex : exec_call ord t y = (fst (lib_call ord (call_of t) y), match snd (lib_call ord (call_of t) y) with Ok _ => false | _ => true end))
    by (unfold exec_call; destruct (lib_call ord (call_of t) y); auto).
  rewrite Ex. specialize (IH (fst (lib_call ord (call_of t) y))).
  assert (G : let '(done, others, y') := (let '(dn, oth, e2) := through (exec_call ord) (fst (lib_call ord (call_of t) y)) l in (t :: dn, oth, e2)) in
    (let '(executed, oth) := until_raise ord (map call_of l) (fst (lib_call ord (call_of t) y)) in (call_of t :: executed, oth)) = (map call_of done, map call_of others) /\
    y' = performed ord (map call_of done) y).
  { destruct (through (exec_call ord) (fst (lib_call ord (call_of t) y)) l) as [[dn oth] e2]. destruct IH as [-> ->]. split; auto. }
  destruct (snd (lib_call ord (call_of t) y)) as [u|e|]; destruct l as [|t2 l]; auto.
Qed.

(** The same whether or not a request raises: what is executed and what waits for
    ever. *)
Lemma threads_stop : forall ord, (forall k x, Permutation (ord k x) x) -> forall l k, let q := program ord l in running q = None -> length (waiting q) <= k ->
  smooth ord (completed q) new_sys ->
  let '(executed, others) := until_raise ord (pending_calls q) (app q) in
  let q' := program ord (l ++ loop k) in
  pending_calls q' = others /\ app q' = performed ord executed (app q) /\
  (fitting ord executed (app q) -> forall x, In x (s_listeners (app q')) -> shows (s_tree (app q')) (s_bank (app q')) x).
Proof.
  intros ord HO l k q Hr Hk S1. pose proof (program_performed ord l) as P. fold q in P.
  set (c := runs tcall_eqb (exec_call ord) (map qstep_of l) (start new_sys)).
  assert (Sc : sound c).
  { apply (sound_ended tcall_eqb (exec_call ord) new_sys (fun x => smooth ord (map call_of x) new_sys)); [|exact S1].
    intros a r X. rewrite map_app in X. cbn [map] in X. split; [apply smooth_app in X; tauto|].
    pose proof (smooth_quiet ord HO _ _ _ (library_new ord) X) as Y. rewrite <- performed_execs. unfold exec_call.
    destruct (lib_call ord (call_of r) (performed ord (map call_of a) new_sys)) as [y1 o]. simpl in *. rewrite Y. auto. }
  destruct (through_turns tcall_eqb (exec_call ord) k c Sc Hr Hk) as (done & T & _). cbv zeta in T.
  change (snd c) with q in T. pose proof (through_until ord (waiting q) (app q)) as U. rewrite T in U. destruct U as [U1 U2].
  unfold pending_calls at 1. rewrite U1. cbv zeta.
  assert (Q' : program ord (l ++ loop k) = snd (runs tcall_eqb (exec_call ord) (turns k) c)).
  { unfold program, c, runs. rewrite map_app, qsteps_loop, fold_left_app. auto. }
  rewrite Q'. split; [reflexivity|]. split; [exact U2|]. intros F. apply (all_show ord HO). rewrite U2. apply fitting_library; auto.
  rewrite P. apply fitting_library; [constructor|apply smooth_fitting; auto].
Qed.

(** Once the main loop has lost its source, what waits waits for ever. *)
Lemma threads_lost : forall ord l, stalled (runs tcall_eqb (exec_call ord) (map qstep_of l) (start new_sys)) ->
  forall r, In r (waiting (program ord l)) -> forall more, In r (waiting (program ord (l ++ more))).
Proof.
  intros ord l St r Hr more. assert (X : exists p, In r (queue_of p (program ord l))).
  { unfold waiting in Hr. rewrite !in_app_iff in Hr. destruct Hr as [H|[H|H]]; [exists High|exists Normal|exists Low]; auto. }
  destruct X as [p X]. destruct (stalled_runs tcall_eqb (exec_call ord) (map qstep_of more) _ r p St X) as [Y _].
  unfold program, runs. rewrite map_app, fold_left_app. unfold runs in Y. unfold waiting. rewrite !in_app_iff. destruct p; auto.
Qed.
