(** What a call on the main tree leaves alone at every moment. *)
From Coq Require Import Permutation.
From Verif Require Import Base BaseFacts MainTree Spec SpecStay MainFacts MainInv MainOps MainDel MainRun MainAdd MainEff MainReg MainRegDel MainTight MainEvents MainLaws FrameFacts.
Open Scope m_scope.

(** From [t] to [t'] only relations of [A] come and only relations of [R] go. *)
Definition pm (A R : id -> id -> Prop) (t t' : mtree) : Prop :=
  (forall x, attrs t' x = attrs t x) /\
  forall p x, (In p (parents t' x) -> In p (parents t x) \/ A p x) /\ (In p (parents t x) -> In p (parents t' x) \/ R p x).

Lemma pm_refl : forall A R t, pm A R t t.
Proof. intros. split; auto. Qed.
Lemma pm_nodes : forall A R t t', nodes t' = nodes t -> pm A R t t'.
Proof. intros A R t t' E. split; intros; unfold attrs, parents; rewrite E; auto. Qed.
Lemma pm_trans : forall A R a b c, pm A R a b -> pm A R b c -> pm A R a c.
Proof.
  intros A R a b c [H1 H2] [H3 H4]. split; [intros; congruence|]. intros p x. destruct (H2 p x) as [B1 B2], (H4 p x) as [B3 B4]. split; intros I.
  - destruct (B3 I); auto.
  - destruct (B2 I); auto.
Qed.

Section Edit.
  Variables A R : id -> id -> Prop.

  Definition edit {X} (m : M X) : Prop := forall t, reg t ->
    wp m (fun t' es _ => reg t' /\ pm A R t t' /\ Forall (fun e => pm A R t (ev_tree e) /\ pm A R (ev_tree e) t') es) t.

  Lemma edit_bind : forall X Y (m : M X) (k : X -> M Y), edit m -> (forall a, edit (k a)) -> edit (bind m k).
  Proof.
    intros X Y m k Hm Hk t RG. specialize (Hm t RG). unfold wp, bind in *.
    destruct (m t) as [[t1 e1] [a|e|]]; simpl in *; auto. destruct Hm as (N1 & F1 & E1).
    specialize (Hk a t1 N1). unfold wp in Hk. destruct (k a t1) as [[t2 e2] r]; simpl in *. destruct Hk as (N2 & F2 & E2).
    split; auto. split; [eapply pm_trans; eauto|]. apply Forall_app. split.
    - eapply Forall_impl; [|apply E1]. intros e [H1 H2]. split; auto. eapply pm_trans; eauto.
    - eapply Forall_impl; [|apply E2]. intros e [H1 H2]. split; auto. eapply pm_trans; eauto.
  Qed.

  Lemma edit_const : forall X (m : M X), (forall t, exists r, m t = (t, [], r)) -> edit m.
  Proof. intros X m H t RG. destruct (H t) as (r & E). eapply wp_intro; [apply E|]. split; auto. split; auto using pm_refl. Qed.
  Lemma edit_ret : forall X (a : X), edit (ret a).
  Proof. intros. apply edit_const. intros. eexists; reflexivity. Qed.
  Lemma edit_get : edit get.
  Proof. apply edit_const. intros. eexists; reflexivity. Qed.
  Lemma edit_live : forall n, edit (live n).
  Proof. intros. apply edit_const. intros. unfold live. destruct (dget n (nodes t)); eexists; reflexivity. Qed.
  Lemma edit_for_each : forall X (l : list X) body, (forall x, edit (body x)) -> edit (for_each l body).
  Proof. induction l; simpl; intros; [apply edit_ret|]. apply edit_bind; auto. Qed.

  Lemma edit_atom : forall X (m : M X) t, steps m -> reg t -> (forall t' es r, m t = (t', es, r) -> pm A R t t' /\ Forall (fun e => nodes (ev_tree e) = nodes t') es) ->
    wp m (fun t' es _ => reg t' /\ pm A R t t' /\ Forall (fun e => pm A R t (ev_tree e) /\ pm A R (ev_tree e) t') es) t.
  Proof.
    intros X m t S RG H. specialize (S t RG). unfold wp in *. destruct (m t) as [[t' es] r]. destruct (H t' es r eq_refl) as [H1 H2]. simpl in *.
    split; [eapply reg_atoms; eauto|]. split; auto. eapply Forall_impl; [|apply H2]. intros e He.
    split; [|apply pm_nodes; auto]. eapply pm_trans; [apply H1|]. apply pm_nodes. auto.
  Qed.

  Lemma edit_pend_append : forall p c, (forall x, p = Some x -> x <> c) -> edit (pend_append (p, c)).
  Proof.
    intros p c H t RG. apply edit_atom; auto; [apply steps_pend_append; auto|]. intros t' es r E. unfold pend_append, modify in E. inv E. split; auto. apply pm_nodes. auto.
  Qed.

  Lemma edit_new : forall p c, A p c -> edit (new_relationship p c).
  Proof.
    intros p c HA t RG. apply edit_atom; auto; [apply steps_new_relationship|]. intros t' es r E.
    destruct (negb (truthy p) || negb (truthy c) || String.eqb p c) eqn:Eg.
    { unfold new_relationship in E. rewrite bind_modify, Eg in E. inv E. split; auto. apply pm_nodes. auto. }
    apply orb_false_iff in Eg. destruct Eg as [Eg E3]. apply orb_false_iff in Eg. destruct Eg as [E1 E2].
    unfold truthy in E1, E2. rewrite negb_involutive, eqb_neq in E1, E2. rewrite eqb_neq in E3.
    destruct (has_node t p && has_node t c) eqn:HL.
    2:{ rewrite new_relationship_dead in E by auto. inv E. split; auto. apply pm_nodes. auto. }
    apply andb_true_iff in HL. destruct HL as [Lp Lc]. pose proof (reg_ok _ RG) as O. pose proof (r_good _ RG) as G.
    destruct (circ_cases true t p c G) as [[_ Ha]|[_ Na]].
    - rewrite (new_relationship_circ true) in E by auto. inv E. split; auto.
      assert (NP : ~ In p (parents t c)) by (apply anc_not_parent; auto).
      split; [intros; rewrite attrs_del_edge; reflexivity|]. intros q x. rewrite parents_del_edge. change (parents (unpend p c t) x) with (parents t x).
      deq x c; [|tauto]. subst. rewrite remove1_notin by auto. tauto.
    - rewrite (new_relationship_ok true) in E by auto. inv E. split; [|repeat constructor].
      assert (PE : forall x, parents (related p c t) x = parents (add_edge p c t) x) by (intros; apply parents_nodes; apply nodes_related).
      split; [intros x; unfold attrs; rewrite nodes_related; apply attrs_add_edge|]. intros q x. rewrite PE, parents_add_edge by auto.
      deq x c; simpl; [|tauto]. subst. destruct (mem p (parents t c)); simpl; [tauto|]. rewrite in_app_iff. simpl. split; [|tauto]. intros [H|[<-|[]]]; auto.
  Qed.

  Lemma edit_break : forall p c, R p c -> edit (break_relationship p c).
  Proof.
    intros p c HR t RG. apply edit_atom; auto; [apply steps_break_relationship|]. intros t' es r E.
    assert (Dead : p = "" \/ c = "" \/ p = c \/ has_node t p && has_node t c = false -> pm A R t t' /\ Forall (fun e => nodes (ev_tree e) = nodes t') es).
    { intros H. rewrite break_dead in E by auto. inv E. split; auto. apply pm_nodes. auto. }
    destruct (id_dec p "") as [->|Np]; auto. destruct (id_dec c "") as [->|Nc]; auto. destruct (id_dec p c) as [->|Npc]; auto.
    destruct (has_node t p && has_node t c) eqn:HL; auto. apply andb_true_iff in HL. destruct HL as [Lp Lc]. destruct (live_id _ _ RG Lc).
    destruct (break_ok p c t) as (t2 & E2 & En & _); auto; [apply RG|]. rewrite E2 in E. inv E. split; [|repeat constructor].
    assert (PE : forall x, parents t' x = parents (del_edge p c t) x) by (intros; apply parents_nodes; auto).
    split; [intros x; unfold attrs; rewrite En; apply attrs_del_edge|]. intros q x. rewrite PE, parents_del_edge.
    deq x c; [|tauto]. subst. split; [intros; left; eapply remove1_In; eauto|]. intros Hq.
    destruct (id_dec q p) as [->|Nq]; auto. left. apply remove1_iff; auto. apply (ok_ndp _ (reg_ok _ RG)).
  Qed.

  Lemma edit_remove_parent : forall n p, R p n -> edit (remove_parent n p).
  Proof.
    intros n p HR t RG. destruct (In_dec_id p (parents t n)) as [I|N].
    - pose proof (edit_break p n HR t RG) as H. unfold wp in *. rewrite remove_parent_break by auto. exact H.
    - destruct (remove_parent_other n p t N) as (r & E). eapply wp_intro; [apply E|]. split; auto. split; auto using pm_refl.
  Qed.

  Lemma edit_add_parent : forall n p, (forall x, p = Some x -> A x n) -> edit (add_parent n p).
  Proof.
    intros n p HA. unfold add_parent. apply edit_bind; [apply edit_live|]. intros nd.
    destruct (negb (oid_eqb p n) && pen nd && _) eqn:Eg; [|apply edit_ret].
    apply andb_true_iff in Eg. destruct Eg as [Eg _]. apply andb_true_iff in Eg. destruct Eg as [Eg _].
    apply edit_bind; [apply edit_get|]. intros t0. destruct p as [x|].
    - destruct (dget x (nodes t0)) as [pn|].
      + destruct (cen pn); [apply edit_new; auto|apply edit_ret].
      + apply edit_pend_append. intros y Hy. apply (oid_eqb_neq _ _ Eg); auto.
    - apply edit_pend_append. discriminate.
  Qed.

  Lemma edit_drop : forall fuel n p i flag, (forall q, q <> p -> R q n) -> edit (drop_other_parents fuel n p i flag).
  Proof.
    intros fuel n p i flag HR. revert i flag. induction fuel; intros i flag; cbn [drop_other_parents]; (apply edit_bind; [apply edit_live|]); intros nd;
      destruct (nth_error (par nd) i) as [q|]; try apply edit_ret.
    - apply edit_const. intros. eexists; reflexivity.
    - destruct (String.eqb q p) eqn:E; [apply IHfuel|]. apply edit_bind; [apply edit_remove_parent; apply HR; apply eqb_neq; auto|]. intros _. apply IHfuel.
  Qed.

  Lemma edit_set_parent : forall n p, (forall x, p = Some x -> A x n) -> (forall q, p <> Some q -> R q n) -> edit (set_parent n p).
  Proof.
    intros n p HA HR. unfold set_parent. apply edit_bind; [apply edit_live|]. intros nd.
    destruct (negb (oid_eqb p n) && pen nd) eqn:Eg; [|apply edit_ret].
    apply andb_true_iff in Eg. destruct Eg as [Eg _].
    assert (Hpa : forall l, (forall x, p = Some x -> ~ In x l) -> edit (for_each l (fun q => break_relationship q n) ;; pend_append (p, n))).
    { intros l Hl. apply edit_bind.
      - induction l as [|q l IH]; [apply edit_ret|]. cbn [for_each]. apply edit_bind; [apply edit_break; apply HR; intros X; apply (Hl q X); left; auto|].
        intros _. apply IH. intros x Hx I. apply (Hl x Hx). right. auto.
      - intros _. apply edit_pend_append. intros y Hy. apply (oid_eqb_neq _ _ Eg); auto. }
    intros t RG. apply wp_get. destruct p as [x|].
    - destruct (dget x (nodes t)) as [pn|] eqn:Ex.
      + destruct (cen pn); [|apply edit_ret; auto].
        apply (edit_bind _ _ _ _ (edit_drop _ n x 0 false (fun q Hq => HR q ltac:(congruence)))); auto. intros flag.
        destruct (truthy x && negb flag); [apply edit_add_parent; auto|apply edit_ret].
      + apply Hpa; auto. intros y Hy. inv Hy. intros I. rewrite get_parents_reg in I by (apply RG || apply (reg_ok _ RG)).
        apply (ok_sym _ (reg_ok _ RG)) in I. destruct I as [I _]. unfold has_node, dmem in I. rewrite Ex in I. discriminate.
    - apply Hpa; auto. discriminate.
  Qed.
End Edit.

(** *** A moment within a call *)
Lemma edit_run : forall A R o t, edit A R (run_op o) -> reg t -> forall e, In e (events o t) ->
  pm A R t (ev_tree e) /\ pm A R (ev_tree e) (after o t).
Proof.
  intros A R o t H RG e He. specialize (H t RG). unfold wp in H. unfold events, after in *. destruct (run_op o t) as [[t' es] r].
  simpl in *. destruct H as (_ & _ & H). rewrite Forall_forall in H. auto.
Qed.

Lemma atom_trees : forall t t' es e, atom t t' es -> In e es -> ev_tree e = t'.
Proof. intros t t' es e H. destruct H; simpl; intros I; repeat (destruct I as [<-|I]; auto); destruct I. Qed.

Lemma refresh_trees : forall l t, (forall e, In e (snd (fst (for_each l modify_node t))) -> ev_tree e = t) /\ fst (fst (for_each l modify_node t)) = t.
Proof.
  induction l as [|x l IH]; intros t; cbn [for_each]; [simpl; tauto|]. destruct (IH t) as [I1 I2].
  destruct (modify_node x t) as [[t1 e1] r1] eqn:E. assert (t1 = t /\ (forall e, In e e1 -> ev_tree e = t)) as [-> H1].
  { unfold modify_node, bind, get, callback, ret in E. destruct (_ && _); inv E; split; auto; simpl; intros e H; [destruct H as [<-|[]]; auto|tauto]. }
  unfold bind. rewrite E. destruct r1 as [[]|y|]; simpl; auto. destruct (for_each l modify_node t) as [[t2 e2] r2]. simpl in *. split; auto.
  intros e He. apply in_app_iff in He. destruct He; auto.
Qed.

Lemma add_child_single : forall n c t, reg t -> exists t' es r, add_child n c t = (t', es, r) /\ forall e, In e es -> ev_tree e = t'.
Proof.
  intros n c t RG. assert (No : forall t' r, add_child n c t = (t', [], r) -> exists t' es r, add_child n c t = (t', es, r) /\ forall e, In e es -> ev_tree e = t').
  { intros t' r E. exists t', [], r. split; auto. intros e []. }
  destruct (has_node t n) eqn:Hn.
  2:{ apply (No t (Err ValueError)). unfold add_child, live, bind. rewrite (has_node_none _ _ Hn). reflexivity. }
  destruct (has_node_get _ _ Hn) as (nd & En).
  destruct (id_dec c n) as [Ec|Ec].
  { subst. apply (No t (Ok tt)). unfold add_child, live, bind. rewrite En, eqb_refl, andb_false_r. reflexivity. }
  destruct (In_dec_id c (childs t n)) as [Hin|Hin].
  { assert (Hm : mem c (chi nd) = true) by (apply mem_In; unfold childs in Hin; rewrite En in Hin; auto).
    apply (No t (Ok tt)). unfold add_child, live, bind. rewrite En, Hm. destruct (_ && _); reflexivity. }
  destruct (has_node t c) eqn:Hc.
  - destruct (add_child_new n c t) as (t' & es & r & E & H & _); auto. exists t', es, r. split; auto. intros e. eapply atom_trees; eauto.
  - eapply No. unfold add_child. rewrite (bind_live _ n nd) by auto. destruct (r_flags _ RG _ _ En) as [_ ->].
    rewrite (proj2 (eqb_neq c n)) by auto.
    assert (Hm : mem c (chi nd) = false) by (apply mem_false; unfold childs in Hin; rewrite En in Hin; auto).
    rewrite Hm. cbn [andb negb]. cbv iota. rewrite bind_get, (has_node_none _ _ Hc). reflexivity.
Qed.

(** Every tree seen during a call: the one after it, or one between before and after. *)
Definition moment (t T t' : mtree) : Prop :=
  nodes T = nodes t' \/ (frame t T /\ frame T t') \/
  exists A R : id -> id -> Prop, (forall p x, A p x -> R p x -> False) /\ pm A R t T /\ pm A R T t'.

Lemma moment_edit : forall (A R : id -> id -> Prop) o t, (forall p x, A p x -> R p x -> False) -> edit A R (run_op o) -> reg t ->
  forall e, In e (events o t) -> moment t (ev_tree e) (after o t).
Proof. intros A R o t X H RG e He. right. right. exists A, R. split; auto. apply edit_run; auto. Qed.

Lemma call_moments : forall o t, reg t -> calm t o -> forall e, In e (events o t) -> moment t (ev_tree e) (after o t).
Proof.
  intros o t RG (P & F & Un & St) e He.
  set (no := fun _ _ : id => False).
  assert (SP : forall n p, edit (fun q x => p = Some q /\ x = n) (fun q x => p <> Some q /\ x = n) (set_parent n p)) by (intros; apply edit_set_parent; auto).
  assert (AP : forall n p, edit (fun q x => p = Some q /\ x = n) no (add_parent n p)) by (intros; apply edit_add_parent; auto).
  assert (G : forall (A R : id -> id -> Prop) X (k : mtree -> M X), (forall t0, edit A R (k t0)) -> edit A R (bind get k)) by (intros; apply edit_bind; auto; apply edit_get).
  assert (DJ : forall (n : id) (p : option id) (q x : id), p = Some q /\ x = n -> p <> Some q /\ x = n -> False) by tauto.
  destruct o as [n nd p|n rc|n|n v| |p c|p c|n p|n p|n p|n c|n b|n b|n p|n p]; cbn in F; try contradiction; try discriminate F.
  - destruct P as (An & P1 & P2 & N1 & N2). unfold events, after in *. cbn [run_op] in *.
    destruct (has_node t n) eqn:Hn.
    { unfold add_node in He. rewrite bind_get, Hn in He. destruct He. }
    destruct (add_node_spec true n nd p t (r_good _ RG) Hn An (fun _ => Un Hn)) as (t3 & es' & r' & tg & E' & _ & _ & _ & _ & _ & [K|K]);
      rewrite E' in *; destruct K as (K & Ees & _); subst es'; simpl in He; [destruct He|]. destruct He as [<-|[]]. left. auto.
  - right. left. pose proof (framed_remove_node (remove_budget t) n rc t (ok_keys _ (reg_ok _ RG))) as W. unfold wp in W.
    unfold events, after in *. cbn [run_op] in *. unfold del_node in *. rewrite bind_get in *. destruct W as (_ & _ & W).
    rewrite Forall_forall in W. auto.
  - left. unfold events, after in *. cbn [run_op] in *. unfold modify_node in *. unfold bind, get, callback, ret in *.
    destruct (_ && _); simpl in *; [destruct He as [<-|[]]; auto|destruct He].
  - left. unfold events, after in *. cbn [run_op] in *. unfold set_node_data, live in *. unfold bind in *. destruct (dget n (nodes t)); [|destruct He].
    simpl in *. unfold modify_node, bind, get, callback, ret in *. destruct (_ && _); simpl in *; [destruct He as [<-|[]]; auto|destruct He].
  - left. unfold events, after in *. cbn [run_op] in *. unfold refresh_all in *. rewrite bind_get in *. destruct (refresh_trees (dkeys (nodes t)) t) as [R1 R2].
    rewrite R2. f_equal. auto.
  - apply (moment_edit (fun q x => q = p /\ x = c) no); auto. apply edit_new; auto.
  - apply (moment_edit no (fun q x => q = p /\ x = c)); auto. apply edit_break; auto.
  - apply (moment_edit (fun q x => p = Some q /\ x = n) no); auto. apply AP.
  - apply (moment_edit (fun q x => p = Some q /\ x = n) (fun q x => p <> Some q /\ x = n)); eauto.
  - apply (moment_edit no (fun q x => q = p /\ x = n)); auto. apply edit_remove_parent; auto.
  - left. destruct (add_child_single n c t RG) as (t' & es & r & E & H). unfold events, after in *. cbn [run_op] in *. rewrite E in *. f_equal. auto.
  - apply (moment_edit (fun q x => p = Some q /\ x = n) (fun q x => p <> Some q /\ x = n)); eauto. apply G. intros t0. destruct (has_node t0 n); [apply SP|apply edit_ret].
  - apply (moment_edit (fun q x => p = Some q /\ x = n) no); auto. apply G. intros t0. destruct (has_node t0 n); [apply AP|apply edit_ret].
Qed.

(** *** Calls about one relation *)
Lemma edit_about : forall o n, about o = Some n -> (forall p c, o <> AddChild p c) -> edit (fun _ x => x = n) (fun _ x => x = n) (run_op o).
Proof.
  intros o n H NC. set (A := fun _ x : id => x = n).
  assert (SP : forall p, edit A A (set_parent n p)) by (intros; apply edit_set_parent; unfold A; auto).
  assert (AP : forall p, edit A A (add_parent n p)) by (intros; apply edit_add_parent; unfold A; auto).
  destruct o; inv H; cbn [run_op]; auto.
  - apply edit_new. reflexivity.
  - apply edit_break. reflexivity.
  - apply edit_remove_parent. reflexivity.
  - destruct (NC n0 n). auto.
  - unfold move_node. apply edit_bind; [apply edit_get|]. intros t0. destruct (has_node t0 n); [auto|apply edit_ret].
  - unfold tree_add_parent. apply edit_bind; [apply edit_get|]. intros t0. destruct (has_node t0 n); [auto|apply edit_ret].
Qed.

Lemma about_pm : forall o t n, reg t -> about o = Some n -> let A := fun _ x : id => x = n in
  pm A A t (after o t) /\ forall e, In e (events o t) -> pm A A t (ev_tree e).
Proof.
  intros o t n RG H A.
  assert (G : (forall p c, o <> AddChild p c) -> pm A A t (after o t) /\ forall e, In e (events o t) -> pm A A t (ev_tree e)).
  { intros NC. pose proof (edit_about o n H NC) as E. specialize (E t RG). unfold wp in E. unfold after, events. destruct (run_op o t) as [[t' es] r].
    simpl in *. destruct E as (_ & E1 & E2). split; auto. rewrite Forall_forall in E2. intros e He. apply E2. auto. }
  destruct o; inv H; try (apply G; discriminate). clear G.
  unfold after, events. cbn [run_op]. destruct (add_child_single n0 n t RG) as (t' & es & r & E & X).
  enough (pm A A t t') by (rewrite E; simpl; split; auto; intros e He; rewrite X; auto).
  assert (P : forall t', nodes t' = nodes t -> pm A A t t') by (intros; apply pm_nodes; auto).
  destruct (has_node t n0) eqn:Hn.
  2:{ unfold add_child, live, bind in E. rewrite (has_node_none _ _ Hn) in E. inv E. auto. }
  destruct (has_node_get _ _ Hn) as (nd & En).
  destruct (id_dec n n0) as [Ec|Ec].
  { subst. unfold add_child, live, bind in E. rewrite En, eqb_refl, andb_false_r in E. inv E. auto. }
  destruct (In_dec_id n (childs t n0)) as [Hin|Hin].
  { assert (Hm : mem n (chi nd) = true) by (apply mem_In; unfold childs in Hin; rewrite En in Hin; auto).
    unfold add_child, live, bind in E. rewrite En, Hm in E. destruct (_ && _); inv E; auto. }
  destruct (has_node t n) eqn:Hc.
  - destruct (add_child_new n0 n t) as (t2 & es2 & r2 & E2 & _ & C); auto. rewrite E in E2. inv E2. destruct C as [(_ & _ & C & _)|(_ & _ & C & _)]; auto.
    assert (PE : forall x, parents t2 x = parents (add_edge n0 n t) x) by (intros; apply parents_nodes; auto).
    split; [intros x; unfold attrs; rewrite C; apply attrs_add_edge|]. intros q x. rewrite PE, parents_add_edge by auto.
    unfold A. deq x n; simpl; tauto.
  - unfold add_child in E. rewrite (bind_live _ n0 nd) in E by auto. destruct (r_flags _ RG _ _ En) as [_ Ef]. rewrite Ef in E.
    rewrite (proj2 (eqb_neq n n0)) in E by auto.
    assert (Hm : mem n (chi nd) = false) by (apply mem_false; unfold childs in Hin; rewrite En in Hin; auto).
    rewrite Hm in E. cbn [andb negb] in E. cbv iota in E. rewrite bind_get, (has_node_none _ _ Hc) in E. inv E. auto.
Qed.
