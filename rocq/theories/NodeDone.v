(** Proofs about methods of nodes called by other threads: the theorem. *)
From Coq Require Import Lia Permutation.
From Verif Require Import Base BaseFacts MainTree Spec MainFacts MainEff MainReg MainTight Queue SpecQueue QueueFacts SpecBatch BatchFacts FrameFacts MainDel NodeThreads SpecNodes NodeFacts NodeCut NodeMove NodeThm NodeLate.

(** *** The children of a node that accepts none any more *)
Definition disowned (n : id) (C : list id) (t : mtree) : mtree := fold_left (fun t c => parted n c t) C t.

Lemma to_root_cen : forall c n b t, c <> n -> to_root c (upd_node n (set_cen b) t) = upd_node n (set_cen b) (to_root c t).
Proof.
  intros c n b t N. assert (D : dget c (nodes (upd_node n (set_cen b) t)) = dget c (nodes t)) by (rewrite dget_upd; destruct (String.eqb _ _) eqn:Q; auto; apply String.eqb_eq in Q; congruence).
  assert (G : get_parents (upd_node n (set_cen b) t) c = get_parents t c).
  { unfold get_parents. rewrite D. destruct (dget c (nodes t)) as [cn|]; auto. destruct (pen cn); auto. apply filter_ext. intros; apply upd_has. }
  unfold to_root. rewrite G, D. destruct (get_parents t c); auto.
  replace (rootc (upd_node n (set_cen b) t)) with (rootc t) by (rewrite upd_tree; auto).
  replace (pend (upd_node n (set_cen b) t)) with (pend t) by (rewrite upd_tree; auto).
  destruct (_ || _); auto. destruct (dget c (nodes t)) as [cn|]; [destruct (pen cn)|]; auto; rewrite !upd_tree; auto.
Qed.
Lemma parted_set_cen : forall n c b t, c <> n -> parted n c (upd_node n (set_cen b) t) = upd_node n (set_cen b) (parted n c t).
Proof.
  intros n c b t N. unfold parted. rewrite !upd_has, !forget_upd. destruct (_ || _ || _); auto. destruct (_ || _); auto.
  rewrite <- to_root_cen by auto. f_equal. rewrite !cut_one_upd, forget_upd. rewrite (upd_comm n c) by auto. f_equal. rewrite !upd_fuse. apply upd_ext. auto.
Qed.
Lemma disowned_set_cen : forall n b C t, ~ In n C -> disowned n C (upd_node n (set_cen b) t) = upd_node n (set_cen b) (disowned n C t).
Proof.
  intros n b C. induction C as [|c C IH]; intros t N; auto. unfold disowned in *. cbn [fold_left]. rewrite parted_set_cen by (intros ->; apply N; left; auto).
  apply IH. intros H. apply N. right; auto.
Qed.
Lemma through_disown : forall n C t, has_node t main_root = false -> snd (through exec_request t (map (fun c => RBreak n c) C)) = disowned n C t.
Proof.
  intros n C. induction C as [|c C IH]; intros t Hr; auto. cbn [map through].
  assert (E : exec_request (RBreak n c) t = (parted n c t, false)).
  { unfold exec_request, after, outcome. cbn [op_of run_op]. destruct (break_parted n c t Hr) as [-> ->]. auto. }
  rewrite E. unfold disowned. cbn [fold_left]. fold (disowned n C (parted n c t)). rewrite <- IH by (rewrite parted_has; auto).
  destruct (map (fun c0 => RBreak n c0) C); destruct (through exec_request (parted n c t) _) as [[? ?] ?]; auto.
Qed.
Lemma for_disown : forall n C t, has_node t main_root = false -> exists es, for_each C (fun c => break_relationship n c) t = (disowned n C t, es, Ok tt).
Proof.
  intros n C. induction C as [|c C IH]; intros t Hr; [exists []; auto|]. cbn [for_each].
  destruct (break_parted n c t Hr) as [A B]. destruct (break_relationship n c t) as [[t1 e1] r1] eqn:EB. cbn [fst snd] in *. subst.
  destruct (IH (parted n c t)) as (es & E); [rewrite parted_has; auto|]. exists (e1 ++ es). erewrite bind_Ok by exact EB. rewrite E. auto.
Qed.
Lemma disown_once : forall n C, NoDup C -> firsts request_eqb [] (map (fun c => RBreak n c) C) = map (fun c => RBreak n c) C.
Proof.
  intros n C ND. apply (firsts_id (map (fun c => RBreak n c) C) []); auto. intros a r b E. destruct (existsb (request_eqb r) a) eqn:X; auto. exfalso.
  apply existsb_exists in X. destruct X as (y & Hy & Ey). apply request_eqb_same in Ey.
  assert (Q : r = y) by (destruct Ey as [Ey|(o & n1 & d1 & n2 & d2 & pp & E1 & E2)]; auto; exfalso;
    assert (W : In r (map (fun c => RBreak n c) C)) by (rewrite E; apply in_elt); apply in_map_iff in W; destruct W as (? & W & _); congruence).
  subst y. assert (N : NoDup (map (fun c => RBreak n c) C)) by (apply FinFun.Injective_map_NoDup; auto; intros u v Q; inv Q; auto).
  rewrite E in N. apply NoDup_remove_2 in N. apply N. apply in_app_iff. auto.
Qed.
Lemma cutting_disown : forall n C, filter cutting (map (fun c => RBreak n c) C) = map (fun c => RBreak n c) C /\ filter (fun r => negb (cutting r)) (map (fun c => RBreak n c) C) = [].
Proof. intros n C. induction C as [|c C [A B]]; auto. cbn [map filter cutting negb]. rewrite A, B. auto. Qed.

Lemma disable_children : forall c n nd k, at_rest c -> let t := tree_in c in reg t -> dget n (nodes t) = Some nd ->
  length (snd (t_set_children_enabled n false t)) <= k ->
  tree_in (steps_on (NOther (SetChildrenEnabled n false) :: repeat NTurn k) c) = after (SetChildrenEnabled n false) t.
Proof.
  intros c n nd k Hc t R En Hk. pose proof (reg_ok _ R) as O. set (C := get_children t n).
  assert (HC : incl C (childs t n) /\ NoDup C).
  { pose proof (ok_ndc _ O n) as Q. unfold C, get_children, childs in *. rewrite En in *. destruct (cen nd); [|split; [intros ? []|constructor]].
    split; [intros x; rewrite filter_In; tauto|apply NoDup_filter; auto]. }
  destruct HC as [HC ND].
  assert (NC : ~ In n C).
  { intros H. apply HC in H. eapply (ok_not_own_parent t n); [exact O|]. apply reg_sym; auto. unfold has_node, dmem. rewrite En. auto. }
  assert (E : thread_op (SetChildrenEnabled n false) t = (upd_node n (set_cen false) t, map (fun c => RBreak n c) C)).
  { cbn [thread_op]. unfold t_set_children_enabled. rewrite En. auto. }
  rewrite (at_rest_through c (SetChildrenEnabled n false) k _ _ Hc E).
  2: { change (t_set_children_enabled n false) with (thread_op (SetChildrenEnabled n false)) in Hk. rewrite E in Hk. exact Hk. }
  destruct (cutting_disown n C) as [-> ->]. cbn [firsts]. rewrite app_nil_r, disown_once by auto. rewrite through_disown by (rewrite upd_has; apply R).
  rewrite disowned_set_cen by auto. destruct (for_disown n C t (r_main _ R)) as (es & F).
  unfold after. cbn [run_op]. unfold set_children_enabled. rewrite (bind_live _ n nd) by auto. rewrite bind_get. fold C. erewrite bind_Ok by exact F. reflexivity.
Qed.

(** *** Calls that leave at most one request *)
Definition easy (o : mop) (t : mtree) : Prop :=
  thread_op o t = (after o t, []) \/ exists t1 r, thread_op o t = (t1, [r]) /\ after (op_of r) t1 = after o t.
Lemma easy_none : forall o t t1, thread_op o t = (t1, []) -> after o t = t1 -> easy o t.
Proof. intros o t t1 A B. left. congruence. Qed.
Lemma easy_one : forall o t t1 r, thread_op o t = (t1, [r]) -> after (op_of r) t1 = after o t -> easy o t.
Proof. intros o t t1 r A B. right. eauto. Qed.
Lemma easy_alike : forall c o k, at_rest c -> easy o (tree_in c) -> length (snd (thread_op o (tree_in c))) <= k ->
  tree_in (steps_on (NOther o :: repeat NTurn k) c) = after o (tree_in c).
Proof.
  intros c o k Hc [E|(t1 & r & E & A)] Hk; [apply at_rest_none; auto|]. rewrite E in Hk. cbn in Hk. rewrite (at_rest_one c o k t1 r); auto.
Qed.

Lemma bind_dead : forall B n (k : node -> M B) t, dget n (nodes t) = None -> fst (fst (bind (live n) k t)) = t.
Proof. intros B n k t E. unfold bind, live, get, raise. unfold bind. rewrite E. reflexivity. Qed.

Lemma easy_add_parent : forall n p t, easy (AddParent n p) t.
Proof.
  intros n p t. destruct (dget n (nodes t)) as [nd|] eqn:En.
  - assert (A : thread_op (AddParent n p) t = t_add_parent n p t) by auto. unfold t_add_parent in A. rewrite En in A.
    assert (B : after (AddParent n p) t = fst (fst (add_parent n p t))) by auto. unfold add_parent in B. rewrite (bind_live _ n nd) in B by auto.
    destruct (negb (oid_eqb p n) && pen nd && negb _); [|eapply easy_none; eauto]. rewrite bind_get in B.
    destruct p as [x|]; [|eapply easy_none; eauto]. destruct (dget x (nodes t)) as [pn|]; [|eapply easy_none; eauto].
    destruct (cen pn); [|eapply easy_none; eauto]. eapply easy_one; eauto.
  - eapply easy_none; [cbn [thread_op]; unfold t_add_parent; rewrite En; auto|]. apply bind_dead; auto.
Qed.
Lemma easy_remove_parent : forall n p t, easy (RemoveParent n p) t.
Proof.
  intros n p t. destruct (dget n (nodes t)) as [nd|] eqn:En.
  - assert (A : thread_op (RemoveParent n p) t = t_remove_parent n p t) by auto. unfold t_remove_parent in A. rewrite En in A.
    assert (B : after (RemoveParent n p) t = fst (fst (remove_parent n p t))) by auto. unfold remove_parent in B. rewrite (bind_live _ n nd) in B by auto.
    destruct (pen nd && mem p (par nd)); [|eapply easy_none; eauto]. rewrite bind_modify in B. eapply easy_one; eauto.
  - eapply easy_none; [cbn [thread_op]; unfold t_remove_parent; rewrite En; auto|]. apply bind_dead; auto.
Qed.
Lemma easy_add_child : forall n c t, easy (AddChild n c) t.
Proof.
  intros n c t. destruct (dget n (nodes t)) as [nd|] eqn:En.
  - assert (A : thread_op (AddChild n c) t = t_add_child n c t) by auto. unfold t_add_child in A. rewrite En in A.
    assert (B : after (AddChild n c) t = fst (fst (add_child n c t))) by auto. unfold add_child in B. rewrite (bind_live _ n nd) in B by auto.
    destruct (cen nd && negb (String.eqb c n)); [|eapply easy_none; eauto]. destruct (mem c (chi nd)); [eapply easy_none; eauto|]. rewrite bind_get in B.
    destruct (dget c (nodes t)) as [cn|]; [|eapply easy_none; eauto]. destruct (pen cn); [|eapply easy_none; eauto]. rewrite bind_modify in B. eapply easy_one; eauto.
  - eapply easy_none; [cbn [thread_op]; unfold t_add_child; rewrite En; auto|]. apply bind_dead; auto.
Qed.
Lemma modify_after : forall n t, after (ModifyNode n) t = t.
Proof. intros n t. unfold after. cbn [run_op]. unfold modify_node. rewrite bind_get. destruct (negb _ && _); reflexivity. Qed.
Lemma easy_set_data : forall n v t, easy (SetData n v) t.
Proof.
  intros n v t. destruct (dget n (nodes t)) as [nd|] eqn:En.
  - eapply easy_one; [cbn [thread_op]; unfold t_set_data; rewrite En; reflexivity|]. cbn [op_of]. rewrite modify_after. unfold after. cbn [run_op]. unfold set_node_data.
    rewrite (bind_live _ n nd) by auto. rewrite bind_modify. unfold modify_node. rewrite bind_get. destruct (negb _ && _); reflexivity.
  - eapply easy_none; [cbn [thread_op]; unfold t_set_data; rewrite En; auto|]. apply bind_dead; auto.
Qed.
Lemma easy_pen : forall n t, easy (SetParentsEnabled n true) t.
Proof.
  intros n t. destruct (dget n (nodes t)) as [nd|] eqn:En.
  - eapply easy_none; [cbn [thread_op]; unfold t_set_parents_enabled; rewrite En; reflexivity|]. unfold after. cbn [run_op]. unfold set_parents_enabled.
    rewrite (bind_live _ n nd) by auto. reflexivity.
  - eapply easy_none; [cbn [thread_op]; unfold t_set_parents_enabled; rewrite En; auto|]. apply bind_dead; auto.
Qed.
Lemma easy_cen : forall n t, easy (SetChildrenEnabled n true) t.
Proof.
  intros n t. destruct (dget n (nodes t)) as [nd|] eqn:En.
  - eapply easy_none; [cbn [thread_op]; unfold t_set_children_enabled; rewrite En; reflexivity|]. unfold after. cbn [run_op]. unfold set_children_enabled.
    rewrite (bind_live _ n nd) by auto. reflexivity.
  - eapply easy_none; [cbn [thread_op]; unfold t_set_children_enabled; rewrite En; auto|]. apply bind_dead; auto.
Qed.

(** A call that comes to another. *)
Lemma same_thread : forall o o' k c, thread_op o (tree_in c) = thread_op o' (tree_in c) ->
  steps_on (NOther o :: repeat NTurn k) c = steps_on (NOther o' :: repeat NTurn k) c.
Proof. intros o o' k [h q] E. unfold steps_on. cbn [fold_left]. f_equal. cbn [nstep_on]. unfold tree_in in E. cbn [snd] in E. rewrite E. auto. Qed.

(** Requests to look at nodes again change nothing. *)
Lemma through_modify : forall l t, (forall r, In r l -> exists n, r = RModify n) -> snd (through exec_request t l) = t.
Proof.
  intros l. induction l as [|r l IH]; intros t H; auto. destruct (H r (or_introl eq_refl)) as (n & ->). cbn [through].
  unfold exec_request at 1. cbn [op_of]. rewrite modify_after. specialize (IH t (fun r X => H r (or_intror X))).
  destruct (outcome (ModifyNode n) t), l as [|r2 l2]; auto; destruct (through exec_request t (r2 :: l2)) as [[? ?] ?]; auto.
Qed.
Lemma firsts_in : forall l kept r, In r (firsts request_eqb kept l) -> In r kept \/ In r l.
Proof.
  induction l as [|x l IH]; intros kept r H; auto. cbn [firsts] in H. destruct (existsb (request_eqb x) kept).
  - destruct (IH _ _ H) as [Q|Q]; [left; exact Q|right; right; exact Q].
  - destruct (IH _ _ H) as [Q|Q]; [|right; right; auto]. apply in_app_iff in Q. destruct Q as [Q|[Q|[]]]; auto. right; left; auto.
Qed.
Lemma refresh_tree : forall t, after RefreshAll t = t.
Proof. intros t. unfold after. rewrite refresh_exact. auto. Qed.

Lemma alike_refl : forall t, alike t t.
Proof. intros t. repeat split; auto. Qed.
Lemma alike_eq : forall t t', t' = t -> alike t t'.
Proof. intros t t' ->. apply alike_refl. Qed.

Lemma set_parent_alike : forall c n p k, at_rest c -> reg (tree_in c) -> p <> Some main_root -> length (snd (thread_op (SetParent n p) (tree_in c))) <= k ->
  alike (after (SetParent n p) (tree_in c)) (tree_in (steps_on (NOther (SetParent n p) :: repeat NTurn k) c)).
Proof.
  intros c n p k Hc R Np Hk. destruct (dget n (nodes (tree_in c))) as [nd|] eqn:En.
  - destruct (oid_eqb p n) eqn:Op.
    { apply alike_eq. apply easy_alike; auto. eapply easy_none; [cbn [thread_op]; unfold t_set_parent; rewrite En, Op; reflexivity|].
      unfold after. cbn [run_op]. unfold set_parent. rewrite (bind_live _ n nd) by auto. rewrite Op. reflexivity. }
    assert (Nn : p <> Some n) by (intros ->; cbn in Op; rewrite String.eqb_refl in Op; discriminate).
    destruct p as [x|]; [destruct (dget x (nodes (tree_in c))) as [pn|] eqn:Ex|].
    + apply alike_eq. apply (move_known c n x nd pn); auto. congruence.
    + apply (move_unknown c n (Some x) nd); auto. intros y Q. inv Q. auto.
    + apply (move_unknown c n None nd); auto. intros y Q. discriminate.
  - apply alike_eq. apply easy_alike; auto. eapply easy_none; [cbn [thread_op]; unfold t_set_parent; rewrite En; reflexivity|]. apply bind_dead; auto.
Qed.

Lemma elsewhere_alike : forall c o k, at_rest c -> reach calm (tree_in c) -> sound_elsewhere o -> length (snd (thread_op o (tree_in c))) <= k ->
  alike (after o (tree_in c)) (tree_in (steps_on (NOther o :: repeat NTurn k) c)).
Proof.
  intros c o k Hc Re So Hk. pose proof (reach_reg _ Re) as R.
  destruct o; try (apply alike_eq; apply easy_alike; auto; solve [eapply easy_one; [reflexivity|reflexivity]|apply easy_add_parent|apply easy_remove_parent|apply easy_add_child|apply easy_set_data]).
  - apply alike_eq. rewrite refresh_tree. rewrite (at_rest_through c RefreshAll k _ _ Hc eq_refl) by exact Hk.
    apply through_modify. intros r Hr. apply in_app_iff in Hr.
    assert (Q : In r (map RModify (dkeys (nodes (tree_in c))))) by (destruct Hr as [Hr|Hr]; apply firsts_in in Hr; destruct Hr as [[]|Hr]; apply filter_In in Hr; tauto).
    apply in_map_iff in Q. destruct Q as (n & <- & _). eauto.
  - apply set_parent_alike; auto.
  - destruct b; [|destruct So]. apply alike_eq. apply easy_alike; auto. apply easy_pen.
  - apply alike_eq. destruct b; [apply easy_alike; auto; apply easy_cen|]. destruct (dget n (nodes (tree_in c))) as [nd|] eqn:En; [apply (disable_children c n nd); auto|].
    apply easy_alike; auto. eapply easy_none; [cbn [thread_op]; unfold t_set_children_enabled; rewrite En; reflexivity|]. apply bind_dead; auto.
  - destruct (has_node (tree_in c) n) eqn:Hn.
    + rewrite (same_thread (MoveNode n p) (SetParent n p)) by (cbn [thread_op]; rewrite Hn; auto).
      assert (A : after (MoveNode n p) (tree_in c) = after (SetParent n p) (tree_in c)) by (unfold after; cbn [run_op]; unfold move_node; rewrite bind_get, Hn; auto).
      rewrite A. apply set_parent_alike; auto. cbn [thread_op] in *. rewrite Hn in Hk. auto.
    + apply alike_eq. apply easy_alike; auto. eapply easy_none; [cbn [thread_op]; rewrite Hn; reflexivity|]. unfold after. cbn [run_op]. unfold move_node. rewrite bind_get, Hn. reflexivity.
  - destruct (has_node (tree_in c) n) eqn:Hn.
    + apply alike_eq. rewrite (same_thread (TreeAddParent n p) (AddParent n p)) by (cbn [thread_op]; rewrite Hn; auto).
      assert (A : after (TreeAddParent n p) (tree_in c) = after (AddParent n p) (tree_in c)) by (unfold after; cbn [run_op]; unfold tree_add_parent; rewrite bind_get, Hn; auto).
      rewrite A. apply easy_alike; auto; [apply easy_add_parent|]. cbn [thread_op] in *. rewrite Hn in Hk. auto.
    + apply alike_eq. apply easy_alike; auto. eapply easy_none; [cbn [thread_op]; rewrite Hn; reflexivity|]. unfold after. cbn [run_op]. unfold tree_add_parent. rewrite bind_get, Hn. reflexivity.
Qed.
