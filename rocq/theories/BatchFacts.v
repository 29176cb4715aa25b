(** Proofs about requests that wait together. *)
From Coq Require Import Lia.
From Verif Require Import Base BaseFacts MainTree Queue SpecQueue QueueFacts SpecBatch.

Section Facts.
  Context {R E : Type}.
  Variable rq_eqb : R -> R -> bool.
  Variable exec : R -> E -> E * bool.
  Local Notation system := (@system R E).
  Local Notation do_step := (do_step rq_eqb exec).
  Local Notation runs := (runs rq_eqb exec).

  Lemma pushed : forall l (c : system), sound c -> running (snd c) = None ->
    let c' := runs (pushes l) c in
    sound c' /\ running (snd c') = None /\ app (snd c') = app (snd c) /\ log (snd c') = log (snd c) /\
    forall p, queue_of p (snd c') = firsts rq_eqb (queue_of p (snd c)) (of_priority p l).
  Proof.
    induction l as [|[p r] l IH]; intros c S Hr; [simpl; auto|].
    assert (S' : sound (do_step (QPush p r) c)) by (apply sound_step; auto; congruence).
    destruct c as [h q]. cbn [snd] in *. destruct (push_fields rq_eqb p r q) as (F1 & F2 & F3).
    change (runs (pushes ((p, r) :: l)) (h, q)) with (runs (pushes l) (do_step (QPush p r) (h, q))).
    destruct (IH (do_step (QPush p r) (h, q)) S') as (A & B & C & D & F); [cbn [Queue.do_step snd]; congruence|].
    cbn [Queue.do_step snd] in *. split; auto. split; auto. split; [congruence|]. split; [congruence|].
    intros p'. rewrite F, queue_of_push. unfold of_priority. cbn [filter fst]. destruct (prio_eqb p' p) eqn:Ep.
    - assert (p' = p) as -> by (destruct p, p'; auto; discriminate). cbn [map snd firsts].
      destruct (existsb (rq_eqb r) (queue_of p q)); rewrite ?app_nil_r; auto.
    - destruct (existsb (rq_eqb r) (queue_of p q)); rewrite app_nil_r; auto.
  Qed.

  (** One turn, whether the request raises or not. *)
  Lemma turned : forall (c : system) r rest, sound c -> running (snd c) = None -> waiting (snd c) = r :: rest ->
    let c' := runs [QBegin; QEnd] c in
    running (snd c') = None /\ waiting (snd c') = rest /\ log (snd c') = log (snd c) ++ [r] /\ app (snd c') = fst (exec r (app (snd c))) /\
    (snd (exec r (app (snd c))) = false \/ rest = [] -> sound c') /\
    (snd (exec r (app (snd c))) = true -> rest <> [] -> sources (snd c') = []).
  Proof.
    intros c r rest S Hr Hw c'. assert (S1 : sound (do_step QBegin c)) by (apply sound_step; auto; congruence).
    destruct c as [h q]. simpl in Hr, Hw. change c' with (do_step QEnd (do_step QBegin (h, q))). clear c'.
    destruct S as [H1 H2]. simpl in H1, H2.
    destruct (armed_full q H2) as (hh & A & B); [congruence|].
    assert (E1 : do_step QBegin (h, q) = (Some hh, begin_source q)) by (cbn [Queue.do_step]; rewrite Hr, B; auto). rewrite E1 in *.
    destruct (next_request q) as [[p r0]|] eqn:En; [|apply next_none in En; congruence].
    pose proof (waiting_begin _ _ _ En) as Wb. rewrite Hw in Wb. inv Wb.
    destruct (begin_fields q) as (_ & B2 & B3 & B4 & _). rewrite En in B2, B4.
    assert (S2 : snd (exec r0 (app q)) = false \/ waiting (begin_source q) = [] -> sound (do_step QEnd (Some hh, begin_source q))).
    { intros [X|X]; [|apply raising_alone; auto]. apply sound_step; auto. cbn [snd]. intros z Hz _. congruence. }
    split; [|split; [|split; [|split; [|split; [exact S2|]]]]]; cbn [Queue.do_step snd]; unfold end_source; rewrite B4, B3;
      destruct (exec r0 (app q)) as [e raised] eqn:Ex; cbn [fst snd running waiting log app sources handler lowq normq vipq]; auto.
    intros -> Ne. destruct S1 as [_ S1]. cbn [snd] in S1. destruct (armed_full _ S1 Ne) as (h2 & Eh & Es).
    assert (h2 = hh).
    { destruct (begin_fields q) as (_ & _ & _ & _ & B5 & B6 & _).
      assert (Ee : sources (begin_source q) = [hh] \/ sources (begin_source q) = []).
      { rewrite B6. unfold disarm. destruct (take_fields q) as (_ & _ & _ & T4 & T5 & _).
        destruct (lowq (fst (take q))), (normq (fst (take q))), (vipq (fst (take q))), (handler (fst (take q))); cbn [sources]; rewrite T5, B; auto.
        cbn [filter]. destruct (negb (Nat.eqb hh n)); auto. }
      destruct Ee; congruence. }
    subst h2. rewrite Es. cbn [filter]. rewrite Nat.eqb_refl. auto.
  Qed.

  Lemma stopped_turns : forall k (c : system), running (snd c) = None -> sources (snd c) = [] -> snd (runs (turns k) c) = snd c.
  Proof.
    induction k as [|k IH]; intros [h q] Hr Hs; auto. cbn [snd] in *.
    change (runs (turns (S k)) (h, q)) with (runs (turns k) (do_step QEnd (do_step QBegin (h, q)))).
    assert (E1 : do_step QBegin (h, q) = (h, q)) by (cbn [Queue.do_step]; rewrite Hr, Hs; auto). rewrite E1.
    destruct h as [src|]; [|apply IH; auto].
    assert (E2 : do_step QEnd (Some src, q) = (None, q)) by (cbn [Queue.do_step]; unfold end_source; rewrite Hr; auto). rewrite E2.
    apply (IH (None, q)); auto.
  Qed.

  Lemma through_turns : forall k (c : system), sound c -> running (snd c) = None -> length (waiting (snd c)) <= k ->
    let q := snd (runs (turns k) c) in
    exists done, through exec (app (snd c)) (waiting (snd c)) = (done, waiting q, app q) /\ log q = log (snd c) ++ done.
  Proof.
    induction k as [|k IH]; intros c S Hr Hl.
    - destruct (waiting (snd c)) as [|r rest] eqn:W; [|simpl in Hl; lia]. exists []. simpl. rewrite W, app_nil_r. auto.
    - destruct (waiting (snd c)) as [|r rest] eqn:W.
      + assert (Z : snd (runs (turns (Datatypes.S k)) c) = snd c).
        { apply stopped_turns; auto. destruct S as [_ S]. apply (armed_empty _ S W). }
        cbv zeta. rewrite Z, W. exists []. simpl. rewrite app_nil_r. auto.
      + destruct (turned c r rest S Hr W) as (A & B & C & D & F & G).
        change (runs (turns (Datatypes.S k)) c) with (runs (turns k) (runs [QBegin; QEnd] c)).
        set (c1 := runs [QBegin; QEnd] c) in *. cbv zeta. cbn [through].
        destruct (exec r (app (snd c))) as [e1 raised] eqn:Ex. cbn [fst snd] in D, F, G.
        assert (Case : sound c1 -> exists done, (let '(dn, oth, e2) := through exec e1 rest in (r :: dn, oth, e2)) = (done, waiting (snd (runs (turns k) c1)), app (snd (runs (turns k) c1))) /\
          log (snd (runs (turns k) c1)) = log (snd c) ++ done).
        { intros S1. destruct (IH c1 S1 A) as (dn & T & L); [rewrite B; simpl in Hl; lia|]. rewrite B, D in T. rewrite T. exists (r :: dn). split; auto.
          rewrite L, C, <- app_assoc. auto. }
        destruct raised.
        * destruct rest as [|z rest]; [apply Case; auto|]. rewrite stopped_turns; [|auto|apply G; auto; discriminate].
          exists [r]. rewrite B, D, C. auto.
        * destruct rest; apply Case; auto.
  Qed.

  Lemma batch : forall e l k, length (ordered rq_eqb l) <= k ->
    let q := snd (runs (pushes l ++ turns k) (start e)) in
    (log q, waiting q, app q) = through exec e (ordered rq_eqb l).
  Proof.
    intros e l k Hk q. destruct (pushed l (start e) (sound_start e) eq_refl) as (S & Hr & Ha & Hg & Hq).
    set (c := runs (pushes l) (start e)) in *.
    assert (W : waiting (snd c) = ordered rq_eqb l).
    { unfold waiting, ordered. pose proof (Hq High) as Q1. pose proof (Hq Normal) as Q2. pose proof (Hq Low) as Q3. simpl in Q1, Q2, Q3. rewrite Q1, Q2, Q3. auto. }
    assert (Eq : q = snd (runs (turns k) c)) by (unfold q, c, SpecQueue.runs; rewrite fold_left_app; auto).
    destruct (through_turns k c S Hr) as (dn & T & L); [rewrite W; auto|]. rewrite W, Ha in T. rewrite Eq, L, Hg. cbn [app start snd new_queue] in *.
    simpl in T. rewrite T. auto.
  Qed.
End Facts.

Lemma defaults : forall (t : mtree) rs k, length rs <= k ->
  let q := snd (runs request_eqb exec_request (map (fun r => QPush (default_priority r) r) rs ++ turns k) (start t)) in
  (log q, waiting q, app q) = through exec_request t
    (firsts request_eqb [] (filter cutting rs) ++ firsts request_eqb [] (filter (fun r => negb (cutting r)) rs)).
Proof.
  intros t rs k Hk q.
  assert (O : ordered request_eqb (map (fun r => (default_priority r, r)) rs) =
    firsts request_eqb [] (filter cutting rs) ++ firsts request_eqb [] (filter (fun r => negb (cutting r)) rs)).
  { unfold ordered, of_priority.
    assert (A : forall p f, (forall r, prio_eqb p (default_priority r) = f r) ->
      map snd (filter (fun x => prio_eqb p (fst x)) (map (fun r => (default_priority r, r)) rs)) = filter f rs).
    { intros p f H. induction rs as [|r rs IH]; auto. simpl in Hk. cbn [map filter fst]. rewrite H. rewrite <- IH by lia. destruct (f r); auto. }
    rewrite (A High (fun _ => false)), (A Normal cutting), (A Low (fun r => negb (cutting r))) by (intros []; auto).
    assert (Z : filter (fun _ : request => false) rs = []) by (clear; induction rs; auto). rewrite Z. auto. }
  rewrite <- O. unfold q. replace (map (fun r => QPush (default_priority r) r) rs) with (pushes (map (fun r => (default_priority r, r)) rs))
    by (unfold pushes; rewrite map_map; auto).
  apply batch. rewrite O, app_length.
  assert (F : forall l kept, length (firsts request_eqb kept l) <= length kept + length l).
  { clear. induction l as [|r l IH]; intros kept; cbn [firsts length]; [lia|]. destruct (existsb (request_eqb r) kept); [specialize (IH kept); lia|].
    specialize (IH (kept ++ [r])). rewrite app_length in IH. simpl in IH. lia. }
  pose proof (F (filter cutting rs) []) as F1. pose proof (F (filter (fun r => negb (cutting r)) rs) []) as F2. simpl in F1, F2.
  assert (L : length (filter cutting rs) + length (filter (fun r => negb (cutting r)) rs) = length rs).
  { clear. induction rs as [|r rs IH]; auto. cbn [filter]. destruct (cutting r); simpl; lia. }
  lia.
Qed.
