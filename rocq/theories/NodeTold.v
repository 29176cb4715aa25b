(** Proofs about methods of nodes called by other threads: what listeners hear. *)
From Verif Require Import Base BaseFacts MainTree Spec MainFacts MainEff MainReg MainTight FrameFacts NodeThreads SpecNodes NodeFacts NodeCut NodeMove NodeThm NodeLate NodeDone Queue SpecQueue.

Definition hears (o : mop) (t : mtree) : Prop := reports (snd (thread_op o t)) (fst (thread_op o t)) = events o t.
Lemma hears_none : forall o t t1, thread_op o t = (t1, []) -> events o t = [] -> hears o t.
Proof. intros o t t1 A B. unfold hears. rewrite A, B. auto. Qed.
Lemma hears_one : forall o t t1 r, thread_op o t = (t1, [r]) -> events o t = events (op_of r) t1 -> hears o t.
Proof. intros o t t1 r A B. unfold hears. rewrite A, B. cbn [snd fst reports]. apply app_nil_r. Qed.
Lemma dead_silent : forall B n (k : node -> M B) t, dget n (nodes t) = None -> snd (fst (bind (live n) k t)) = [].
Proof. intros B n k t E. unfold bind, live, get, raise. unfold bind. rewrite E. reflexivity. Qed.

Lemma hears_add_parent : forall n p t, hears (AddParent n p) t.
Proof.
  intros n p t. destruct (dget n (nodes t)) as [nd|] eqn:En.
  - assert (A : thread_op (AddParent n p) t = t_add_parent n p t) by auto. unfold t_add_parent in A. rewrite En in A.
    assert (B : events (AddParent n p) t = snd (fst (add_parent n p t))) by auto. unfold add_parent in B. rewrite (bind_live _ n nd) in B by auto.
    destruct (negb (oid_eqb p n) && pen nd && negb _); [|eapply hears_none; eauto]. rewrite bind_get in B.
    destruct p as [x|]; [|eapply hears_none; eauto]. destruct (dget x (nodes t)) as [pn|]; [|eapply hears_none; eauto].
    destruct (cen pn); [|eapply hears_none; eauto]. eapply hears_one; eauto.
  - eapply hears_none; [cbn [thread_op]; unfold t_add_parent; rewrite En; auto|]. apply dead_silent; auto.
Qed.
Lemma hears_remove_parent : forall n p t, hears (RemoveParent n p) t.
Proof.
  intros n p t. destruct (dget n (nodes t)) as [nd|] eqn:En.
  - assert (A : thread_op (RemoveParent n p) t = t_remove_parent n p t) by auto. unfold t_remove_parent in A. rewrite En in A.
    assert (B : events (RemoveParent n p) t = snd (fst (remove_parent n p t))) by auto. unfold remove_parent in B. rewrite (bind_live _ n nd) in B by auto.
    destruct (pen nd && mem p (par nd)); [|eapply hears_none; eauto]. rewrite bind_modify in B. eapply hears_one; eauto.
  - eapply hears_none; [cbn [thread_op]; unfold t_remove_parent; rewrite En; auto|]. apply dead_silent; auto.
Qed.
Lemma hears_add_child : forall n c t, hears (AddChild n c) t.
Proof.
  intros n c t. destruct (dget n (nodes t)) as [nd|] eqn:En.
  - assert (A : thread_op (AddChild n c) t = t_add_child n c t) by auto. unfold t_add_child in A. rewrite En in A.
    assert (B : events (AddChild n c) t = snd (fst (add_child n c t))) by auto. unfold add_child in B. rewrite (bind_live _ n nd) in B by auto.
    destruct (cen nd && negb (String.eqb c n)); [|eapply hears_none; eauto]. destruct (mem c (chi nd)); [eapply hears_none; eauto|]. rewrite bind_get in B.
    destruct (dget c (nodes t)) as [cn|]; [|eapply hears_none; eauto]. destruct (pen cn); [|eapply hears_none; eauto]. rewrite bind_modify in B. eapply hears_one; eauto.
  - eapply hears_none; [cbn [thread_op]; unfold t_add_child; rewrite En; auto|]. apply dead_silent; auto.
Qed.
Lemma hears_set_data : forall n v t, hears (SetData n v) t.
Proof.
  intros n v t. destruct (dget n (nodes t)) as [nd|] eqn:En.
  - eapply hears_one; [cbn [thread_op]; unfold t_set_data; rewrite En; reflexivity|]. cbn [op_of]. unfold events. cbn [run_op]. unfold set_node_data.
    rewrite (bind_live _ n nd) by auto. rewrite bind_modify. reflexivity.
  - eapply hears_none; [cbn [thread_op]; unfold t_set_data; rewrite En; auto|]. apply dead_silent; auto.
Qed.
Lemma hears_pen : forall n t, hears (SetParentsEnabled n true) t.
Proof.
  intros n t. destruct (dget n (nodes t)) as [nd|] eqn:En; (eapply hears_none; [cbn [thread_op]; unfold t_set_parents_enabled; rewrite En; reflexivity|]);
  unfold events; cbn [run_op]; unfold set_parents_enabled; [rewrite (bind_live _ n nd) by auto; reflexivity|apply dead_silent; auto].
Qed.
Lemma hears_cen : forall n t, hears (SetChildrenEnabled n true) t.
Proof.
  intros n t. destruct (dget n (nodes t)) as [nd|] eqn:En; (eapply hears_none; [cbn [thread_op]; unfold t_set_children_enabled; rewrite En; reflexivity|]);
  unfold events; cbn [run_op]; unfold set_children_enabled; [rewrite (bind_live _ n nd) by auto; reflexivity|apply dead_silent; auto].
Qed.
Lemma modify_events : forall n t, events (ModifyNode n) t = if negb (String.eqb n main_root) && has_node t n then [Ev EModified n t] else [].
Proof. intros n t. unfold events. cbn [run_op]. unfold modify_node. rewrite bind_get. destruct (negb _ && _); reflexivity. Qed.
Lemma hears_refresh : forall t, hears RefreshAll t.
Proof.
  intros t. unfold hears. cbn [thread_op snd fst]. unfold events. rewrite refresh_exact. cbn [fst snd]. unfold get_all_nodes.
  assert (H : forall x, In x (dkeys (nodes t)) -> has_node t x = true) by (intros; apply has_node_In; auto).
  induction (dkeys (nodes t)) as [|x l IH]; auto. cbn [map reports op_of filter]. rewrite modify_after, modify_events, IH by (intros; apply H; right; auto).
  rewrite (H x) by (left; auto). rewrite andb_true_r. destruct (negb (String.eqb x main_root)); auto.
Qed.

Lemma elsewhere_told : forall o t, one_change o -> reports (snd (thread_op o t)) (fst (thread_op o t)) = events o t.
Proof.
  intros o t H. change (hears o t). destruct o; try (eapply hears_one; [reflexivity|reflexivity]); try (destruct H; fail).
  - apply hears_set_data.
  - apply hears_refresh.
  - apply hears_add_parent.
  - apply hears_remove_parent.
  - apply hears_add_child.
  - destruct b; [apply hears_pen|destruct H].
  - destruct b; [apply hears_cen|destruct H].
  - destruct (has_node t n) eqn:Hn.
    + pose proof (hears_add_parent n p t) as A. unfold hears in *. cbn [thread_op] in *. rewrite Hn. rewrite A. unfold events. cbn [run_op]. unfold tree_add_parent. rewrite bind_get, Hn. auto.
    + eapply hears_none; [cbn [thread_op]; rewrite Hn; reflexivity|]. unfold events. cbn [run_op]. unfold tree_add_parent. rewrite bind_get, Hn. reflexivity.
Qed.
