(** Proofs about methods of nodes called by other threads: the calls. *)
From Coq Require Import Lia Permutation.
From Verif Require Import Base BaseFacts MainTree Spec MainFacts MainEff MainReg MainTight Queue SpecQueue QueueFacts SpecBatch BatchFacts MainDel NodeThreads SpecNodes NodeFacts NodeCut NodeMove.

Lemma reg_pre : forall t n nd, reg t -> dget n (nodes t) = Some nd -> pre n nd t.
Proof.
  intros t n nd R E. pose proof (reg_ok _ R) as O. assert (Ln : has_node t n = true) by (unfold has_node, dmem; rewrite E; auto).
  assert (P : parents t n = par nd) by (unfold parents; rewrite E; auto).
  constructor; auto.
  - rewrite <- P. apply (ok_ndp _ O).
  - apply (r_flags _ R _ _ E).
  - apply (live_id _ _ R Ln).
  - apply (r_main _ R).
  - intros q Hq. rewrite <- P in Hq. destruct (ok_sym _ O _ _ Hq) as [Lq _]. split; [apply (live_id _ _ R Lq)|]. split; auto.
    intros ->. eapply ok_not_own_parent; eauto.
Qed.

Definition breaks (n : id) (l : list id) : list request := map (fun q => RBreak q n) l.
Lemma cutting_breaks : forall n l tail, (tail = [] \/ exists x c, tail = [RNew x c]) ->
  filter cutting (breaks n l ++ tail) = breaks n l ++ tail /\ filter (fun r => negb (cutting r)) (breaks n l ++ tail) = [].
Proof.
  intros n l tail HT. induction l as [|q l [IH1 IH2]]; [destruct HT as [->|(x & c & ->)]; auto|]. change (breaks n (q :: l)) with (RBreak q n :: breaks n l). cbn [List.app filter cutting negb]. rewrite IH1, IH2. auto.
Qed.

(** A thread that strikes parents off, asks to break the relations, and perhaps for a
    new one. *)
Lemma at_rest_moved : forall c o k nd n R tail, at_rest c -> pre n nd (tree_in c) -> NoDup R -> incl R (par nd) ->
  (length R <= 1 \/ exists z, In z (par nd) /\ ~ In z R) -> (tail = [] \/ exists x d, tail = [RNew x d]) ->
  thread_op o (tree_in c) = (muts n R (tree_in c), breaks n R ++ tail) -> length (snd (thread_op o (tree_in c))) <= k ->
  tree_in (steps_on (NOther o :: repeat NTurn k) c) = snd (through exec_request (cuts n R (tree_in c)) tail).
Proof.
  intros c o k nd n R tail Hc P ND I Z HT E Hk. rewrite E in Hk. cbn [snd] in Hk. rewrite (at_rest_through c o k _ _ Hc E Hk).
  destruct (cutting_breaks n R tail HT) as [-> ->]. cbn [firsts]. rewrite app_nil_r. unfold breaks. rewrite breaks_once by auto.
  rewrite through_breaks.
  - rewrite (cuts_muts n R nd); auto.
  - destruct (pre_muts n R nd _ P) as (nd' & P' & _). apply P'.
Qed.

Lemma through_new : forall x n t, snd (through exec_request t [RNew x n]) = after (NewRelationship x n) t.
Proof. intros. cbn [through]. unfold exec_request. cbn [op_of]. destruct (outcome _ t); auto. Qed.

Lemma move_known : forall c n x nd pn k, at_rest c -> let t := tree_in c in reg t -> dget n (nodes t) = Some nd -> dget x (nodes t) = Some pn -> x <> n ->
  length (snd (t_set_parent n (Some x) t)) <= k ->
  tree_in (steps_on (NOther (SetParent n (Some x)) :: repeat NTurn k) c) = after (SetParent n (Some x)) t.
Proof.
  intros c n x nd pn k Hc t R En Ex N Hk. pose proof (reg_pre t n nd R En) as P.
  destruct (r_flags _ R _ _ En) as [Fp _]. destruct (r_flags _ R _ _ Ex) as [_ Fc].
  assert (Lx : has_node t x = true) by (unfold has_node, dmem; rewrite Ex; auto). destruct (live_id _ _ R Lx) as [Nx _].
  assert (Tx : truthy x = true) by (apply truthy_true; auto).
  pose proof (t_drop_losing (S (length (par nd))) n x 0 false t nd P) as TD.
  assert (Hl : length (par nd) < S (length (par nd)) + 0) by lia.
  pose proof (drop_losing (S (length (par nd))) n x 0 false t nd P Hl) as OD.
  pose proof (losing_facts (S (length (par nd))) x (par nd) 0 false (p_nodup _ _ _ P)) as LF.
  pose proof (losing_left (S (length (par nd))) x (par nd) (p_nodup _ _ _ P)) as LL.
  destruct (losing (S (length (par nd))) x (par nd) 0 false) as [[Rm L'] fl]. destruct LF as (ND & I & NP & _ & _).
  destruct TD as [TD (nd1 & P1 & E1)]. destruct OD as [(es & OD) (nd2 & P2 & E2)].
  assert (Nb : String.eqb x n = false) by (apply eqb_neq; auto).
  assert (Cx : exists pn', dget x (nodes (cuts n Rm t)) = Some pn' /\ cen pn' = true).
  { pose proof (cuts_cen n Rm t x) as Q. rewrite Ex in Q. destruct (dget x (nodes (cuts n Rm t))) as [pn'|]; [|discriminate]. cbn in Q. inv Q. exists pn'. split; congruence. }
  destruct Cx as (pn' & Cx1 & Cx2).
  set (tail := if fl then [] else if mem x L' then [] else [RNew x n]).
  assert (HT : tail = [] \/ exists a b, tail = [RNew a b]) by (unfold tail; destruct fl; auto; destruct (mem x L'); eauto).
  assert (E : thread_op (SetParent n (Some x)) t = (muts n Rm t, breaks n Rm ++ tail)).
  { cbn [thread_op]. unfold t_set_parent. rewrite En. cbn [oid_eqb]. rewrite Nb, Fp. cbn [negb andb]. rewrite Ex, Fc, TD. fold (breaks n Rm). rewrite Tx. cbn [andb].
    unfold tail. destruct fl; cbn [negb]; [rewrite app_nil_r; auto|]. unfold t_add_parent. rewrite (p_get _ _ _ P1). cbn [oid_eqb]. rewrite Nb, (p_pen _ _ _ P1), E1. cbn [negb andb].
    destruct (mem x L'); cbn [negb]; [auto|]. rewrite muts_other, Ex, Fc by auto. auto. }
  rewrite (at_rest_moved c (SetParent n (Some x)) k nd n Rm tail); auto; try exact E.
  fold t. unfold after. cbn [run_op]. unfold set_parent. rewrite (bind_live _ n nd) by auto. cbn [oid_eqb]. rewrite Nb, Fp. cbn [negb andb].
  rewrite bind_get, Ex, Fc. erewrite bind_Ok by exact OD. rewrite Tx. cbn [andb].
  unfold tail. destruct fl; cbn [negb]; [reflexivity|]. unfold add_parent. rewrite (bind_live _ n nd2) by apply P2. cbn [oid_eqb]. rewrite Nb, (p_pen _ _ _ P2), E2. cbn [negb andb].
  destruct (mem x L'); cbn [negb]; [reflexivity|]. rewrite bind_get, Cx1, Cx2. rewrite through_new. unfold after. cbn [run_op].
  destruct (new_relationship x n (cuts n Rm t)) as [[a b] d]. reflexivity.
Qed.
