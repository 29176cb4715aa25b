(** Proofs about methods of nodes called by other threads. *)
From Coq Require Import Lia Permutation.
From Verif Require Import Base BaseFacts MainTree Spec MainFacts MainEff MainReg MainTight Queue SpecQueue QueueFacts SpecBatch BatchFacts NodeThreads SpecNodes.

(** *** The queue *)
Lemma rest_sound : forall c, at_rest c -> sound c.
Proof.
  intros [h q] (A & B & C & D & F). cbn [fst snd] in *. split; cbn [fst snd]; [tauto|]. apply armed_intro.
  - rewrite F. intros x [].
  - auto.
  - congruence.
Qed.

Lemma steps_turns : forall k c, steps_on (repeat NTurn k) c = runs request_eqb exec_request (turns k) c.
Proof. induction k as [|k IH]; intros [h q]; auto. cbn [repeat]. unfold steps_on in *. cbn [fold_left]. rewrite IH. reflexivity. Qed.

(** The tree after the requests, one after the other. *)
Lemma at_rest_through : forall c o k t1 rs, at_rest c -> thread_op o (tree_in c) = (t1, rs) -> length rs <= k ->
  tree_in (steps_on (NOther o :: repeat NTurn k) c) =
  snd (through exec_request t1 (firsts request_eqb [] (filter cutting rs) ++ firsts request_eqb [] (filter (fun r => negb (cutting r)) rs))).
Proof.
  intros [h q] o k t1 rs R E Hk. pose proof R as (A & B & C & D & F). cbn [fst snd] in *. unfold tree_in in *. cbn [snd] in *.
  change (steps_on (NOther o :: repeat NTurn k) (h, q)) with (steps_on (repeat NTurn k) (nstep_on (NOther o) (h, q))).
  rewrite steps_turns. cbn [nstep_on]. rewrite E.
  set (q1 := mkQ (lowq q) (normq q) (vipq q) (handler q) (sources q) (next_source q) (running q) (log q) t1).
  assert (S1 : sound (h, q1)) by (apply rest_sound; repeat split; auto).
  set (l := map (fun r => (default_priority r, r)) rs).
  assert (El : map (fun r => QPush (default_priority r) r) rs = pushes l) by (unfold pushes, l; rewrite map_map; auto). rewrite El.
  destruct (pushed request_eqb exec_request l (h, q1) S1 B) as (S2 & Hr & Ha & _ & Hq).
  set (c2 := runs request_eqb exec_request (pushes l) (h, q1)) in *.
  apply waiting_nil in C. destruct C as (C1 & C2 & C3).
  assert (P : forall p, of_priority p l = filter (fun r => prio_eqb p (default_priority r)) rs).
  { intros p. unfold of_priority, l. clear. induction rs as [|r rs IH]; auto. cbn [map filter fst]. destruct (prio_eqb p (default_priority r)); cbn [map snd]; congruence. }
  assert (W : waiting (snd c2) = firsts request_eqb [] (filter cutting rs) ++ firsts request_eqb [] (filter (fun r => negb (cutting r)) rs)).
  { unfold waiting. pose proof (Hq High) as Q1. pose proof (Hq Normal) as Q2. pose proof (Hq Low) as Q3. cbn [queue_of snd q1 vipq normq lowq] in Q1, Q2, Q3.
    rewrite Q1, Q2, Q3, C1, C2, C3, !P.
    assert (Z : filter (fun r => prio_eqb High (default_priority r)) rs = []) by (clear; induction rs as [|r rs IH]; auto; destruct r; auto).
    assert (Z2 : filter (fun r => prio_eqb Normal (default_priority r)) rs = filter cutting rs) by (apply filter_ext; intros []; auto).
    assert (Z3 : filter (fun r => prio_eqb Low (default_priority r)) rs = filter (fun r => negb (cutting r)) rs) by (apply filter_ext; intros []; auto).
    rewrite Z, Z2, Z3. auto. }
  assert (L : length (waiting (snd c2)) <= k).
  { rewrite W, app_length.
    assert (G : forall l' kept, length (firsts request_eqb kept l') <= length kept + length l').
    { induction l' as [|r l' IH]; intros kept; simpl; [lia|]. destruct (existsb (request_eqb r) kept); [specialize (IH kept); lia|].
      specialize (IH (kept ++ [r])). rewrite app_length in IH. simpl in IH. lia. }
    pose proof (G (filter cutting rs) []) as G1. pose proof (G (filter (fun r => negb (cutting r)) rs) []) as G2. simpl in G1, G2.
    assert (G3 : length (filter cutting rs) + length (filter (fun r => negb (cutting r)) rs) = length rs).
    { clear. induction rs as [|r rs IH]; auto. simpl. destruct (cutting r); simpl; lia. }
    lia. }
  destruct (through_turns request_eqb exec_request k c2 S2 Hr L) as (done & T & _). cbv zeta in T.
  rewrite W, Ha in T. change (app (snd (h, q1))) with t1 in T. rewrite T. reflexivity.
Qed.

(** No request, or one. *)
Lemma at_rest_none : forall c o k t1, at_rest c -> thread_op o (tree_in c) = (t1, []) -> tree_in (steps_on (NOther o :: repeat NTurn k) c) = t1.
Proof. intros c o k t1 R E. rewrite (at_rest_through c o k t1 [] R E) by (simpl; lia). auto. Qed.
Lemma at_rest_one : forall c o k t1 r, at_rest c -> thread_op o (tree_in c) = (t1, [r]) -> 1 <= k ->
  tree_in (steps_on (NOther o :: repeat NTurn k) c) = after (op_of r) t1.
Proof.
  intros c o k t1 r R E Hk. rewrite (at_rest_through c o k t1 [r] R E) by (simpl; lia). cbn [filter].
  destruct r; cbn [cutting negb firsts existsb List.app through]; unfold exec_request; destruct (outcome _ t1); auto.
Qed.

(** *** Breaking a relation, as a function of the tree *)
Definition to_root (c : id) (t : mtree) : mtree :=
  match get_parents t c with
  | [] =>
      if String.eqb c main_root || mem c (rootc t) then t
      else match dget c (nodes t) with
           | Some cn => if pen cn then set_pend (rel_remove1 (Some main_root, c) (pend t) ++ [(Some main_root, c)]) (set_rootc (rootc t ++ [c]) t) else t
           | None => set_pend (pend t ++ [(Some main_root, c)]) t
           end
  | _ => t
  end.
Definition parted (p c : id) (t : mtree) : mtree :=
  if negb (truthy p) || negb (truthy c) || String.eqb p c then forget p c t
  else if negb (has_node t p) || negb (has_node t c) then forget p c t
  else to_root c (cut_one p c t).

Lemma break_parted : forall p c t, has_node t main_root = false ->
  fst (fst (break_relationship p c t)) = parted p c t /\ snd (break_relationship p c t) = Ok tt.
Proof.
  intros p c t Hr. unfold break_relationship, parted. rewrite bind_modify. fold (forget p c t).
  destruct (negb (truthy p) || negb (truthy c) || String.eqb p c) eqn:G; [split; reflexivity|].
  rewrite bind_get. change (has_node (forget p c t)) with (has_node t).
  destruct (negb (has_node t p) || negb (has_node t c)) eqn:L; [split; reflexivity|].
  apply orb_false_iff in L. destruct L as [Lp Lc]. apply negb_false_iff in Lp, Lc.
  erewrite bind_Ok_nil by (apply destroy_eq; auto). rewrite bind_get. fold (cut_one p c t).
  set (t1 := cut_one p c t). unfold to_root.
  assert (H1 : has_node t1 main_root = false) by (unfold t1, cut_one; rewrite has_node_del_edge; auto).
  destruct (get_parents t1 c) as [|z zs]; [|split; reflexivity].
  assert (RA : exists t2, root_add_child c t1 = (t2, [], Ok tt) /\ t2 =
    if String.eqb c main_root || mem c (rootc t1) then t1
    else match dget c (nodes t1) with
         | Some cn => if pen cn then set_pend (rel_remove1 (Some main_root, c) (pend t1) ++ [(Some main_root, c)]) (set_rootc (rootc t1 ++ [c]) t1) else t1
         | None => set_pend (pend t1 ++ [(Some main_root, c)]) t1
         end).
  { unfold root_add_child. destruct (String.eqb c main_root) eqn:E1; [eexists; split; reflexivity|]. cbn [orb].
    rewrite bind_get. destruct (mem c (rootc t1)) eqn:E2; [eexists; split; reflexivity|].
    destruct (dget c (nodes t1)) as [cn|] eqn:E3; [|eexists; split; reflexivity]. destruct (pen cn); [|eexists; split; reflexivity].
    rewrite bind_modify. unfold new_relationship. rewrite bind_modify.
    assert (G2 : negb (truthy main_root) || negb (truthy c) || String.eqb main_root c = false).
    { apply orb_false_iff in G. destruct G as [G G3]. apply orb_false_iff in G. destruct G as [_ G2]. rewrite G2. rewrite String.eqb_sym, E1. reflexivity. }
    rewrite G2, bind_get.
    match goal with |- context [has_node ?u main_root] => change (has_node u main_root) with (has_node t1 main_root) end.
    rewrite H1. eexists; split; reflexivity. }
  destruct RA as (t2 & R1 & R2). erewrite bind_Ok_nil by exact R1. split; [exact R2|reflexivity].
Qed.

Lemma parted_has : forall p c t x, has_node (parted p c t) x = has_node t x.
Proof.
  intros p c t x. unfold parted. destruct (_ || _ || _); auto. destruct (_ || _); auto.
  assert (H : has_node (cut_one p c t) x = has_node t x) by (unfold cut_one; rewrite has_node_del_edge; auto).
  unfold to_root. destruct (get_parents _ _); auto. destruct (_ || _); auto. destruct (dget _ _); auto. destruct (pen _); auto.
Qed.
