(** Proofs of the laws of the main tree: relations, root, deletion. *)
From Verif Require Import Base BaseFacts MainTree Spec MainFacts MainInv MainOps MainDel MainRun MainAdd MainEff MainReg MainRegDel MainTight MainEvents.
Open Scope m_scope.

(** ** Asking for a relation *)
Lemma refused_iff : forall t, reachx any_fresh t -> forall p c, p <> "" -> c <> "" -> p <> c ->
  has_node t p = true -> has_node t c = true ->
  (outcome (NewRelationship p c) t = Err Circular <-> anc t c p) /\
  (outcome (NewRelationship p c) t = Ok tt <-> ~ anc t c p).
Proof.
  intros t H p c N1 N2 N3 Hp Hc. pose proof (reachx_good _ H) as G. unfold outcome. cbn [run_op].
  destruct (circ_cases false t p c G) as [[_ A]|[_ A]].
  - rewrite (new_relationship_circ false p c t) by auto. cbn [snd]. split; split; intros; auto; try congruence; tauto.
  - rewrite (new_relationship_ok false p c t) by auto. cbn [snd]. split; split; intros; auto; try congruence; tauto.
Qed.

Lemma get_parents_nodes : forall t t' x, nodes t' = nodes t -> get_parents t' x = get_parents t x.
Proof. intros t t' x E. unfold get_parents. rewrite E. destruct (dget x (nodes t)); auto. destruct (pen n); auto. unfold has_node. rewrite E. auto. Qed.
Lemma get_children_nodes : forall t t' x, nodes t' = nodes t -> get_children t' x = get_children t x.
Proof. intros t t' x E. unfold get_children. rewrite E. destruct (dget x (nodes t)); auto. destruct (cen n); auto. unfold has_node. rewrite E. auto. Qed.
Lemma root_children_same : forall t t', nodes t' = nodes t -> rootc t' = rootc t -> root_children t' = root_children t.
Proof. intros t t' E1 E2. unfold root_children. rewrite E2. unfold has_node. rewrite E1. auto. Qed.

Lemma same_tree_nodes : forall t t', nodes t' = nodes t -> rootc t' = rootc t -> same_tree t t'.
Proof.
  intros t t' E1 E2. split; [unfold get_all_nodes; congruence|]. split; [apply root_children_same; auto|].
  intros x. split; [apply get_parents_nodes|apply get_children_nodes]; auto.
Qed.

Lemma add_edge_noop : forall p c t, NoDup (dkeys (nodes t)) -> In p (parents t c) -> In c (childs t p) -> nodes (add_edge p c t) = nodes t.
Proof.
  intros p c t ND Hp Hc. apply dict_ext; auto.
  - apply dkeys_add_edge.
  - intros k _. rewrite dget_add_edge. destruct (dget k (nodes t)) as [nd|] eqn:E; auto. simpl. f_equal.
    assert (E1 : (if String.eqb k c && negb (mem p (par nd)) then par nd ++ [p] else par nd) = par nd).
    { deq k c; auto. subst. unfold parents in Hp. rewrite E in Hp. apply mem_In in Hp. rewrite Hp. auto. }
    assert (E2 : (if String.eqb k p && negb (mem c (chi nd)) then chi nd ++ [c] else chi nd) = chi nd).
    { deq k p; auto. subst. unfold childs in Hc. rewrite E in Hc. apply mem_In in Hc. rewrite Hc. auto. }
    rewrite E1, E2. destruct nd; auto.
Qed.

(** What asking does, in an ordinary tree. *)
Lemma ask_spec : forall t p c o, reg t -> has_node t p = true -> has_node t c = true -> p <> c -> asks p c o ->
  (anc t c p /\ outcome o t = Err Circular /\ nodes (after o t) = nodes t /\ rootc (after o t) = rootc t) \/
  (~ anc t c p /\ outcome o t = Ok tt /\ nodes (after o t) = nodes (add_edge p c t) /\ rootc (after o t) = remove1 c (rootc t)).
Proof.
  intros t p c o R Hp Hc N A. pose proof (r_good _ R) as G. pose proof (reg_ok _ R) as O.
  destruct (live_id _ _ R Hp) as [P1 P2]. destruct (live_id _ _ R Hc) as [C1 C2].
  assert (HN : forall t' es r, new_relationship p c t = (t', es, r) ->
    (anc t c p /\ r = Err Circular /\ nodes t' = nodes t /\ rootc t' = rootc t) \/
    (~ anc t c p /\ r = Ok tt /\ nodes t' = nodes (add_edge p c t) /\ rootc t' = remove1 c (rootc t))).
  { intros t' es r E. destruct (circ_cases true t p c G) as [[_ B]|[_ B]].
    - rewrite (new_relationship_circ true p c t) in E by auto. inv E. left. split; auto. split; auto. split.
      + rewrite (nodes_del_edge_same p c t (unpend p c t)) by reflexivity. apply del_edge_noop; auto.
        * apply anc_not_parent; auto.
        * intros Hi. apply (anc_not_parent t p c O B). eapply reg_sym; eauto.
      + rewrite rootc_del_edge. auto.
    - rewrite (new_relationship_ok true p c t) in E by auto. inv E. right. split; auto. split; auto. split.
      + apply nodes_related.
      + rewrite rootc_related. apply remove1_notin. intro Hin. apply remove1_iff in Hin; [tauto|apply (r_root _ R)]. }
  assert (HR : In p (parents t c) ->
    ~ anc t c p /\ nodes t = nodes (add_edge p c t) /\ rootc t = remove1 c (rootc t)).
  { intros Hi. split; [intros B; eapply anc_not_parent; eauto|]. split.
    - symmetry. apply add_edge_noop; auto; [apply O|]. apply (ok_sym _ O _ _ Hi).
    - symmetry. apply remove1_notin. intros Hr. apply (r_root _ R) in Hr; auto. rewrite Hr in Hi. destruct Hi. }
  destruct (has_node_get _ _ Hp) as (pn & Ep). destruct (has_node_get _ _ Hc) as (cn & Ec).
  destruct (r_flags _ R _ _ Ep) as [_ Fp]. destruct (r_flags _ R _ _ Ec) as [Fc _].
  assert (HAP : forall t' es r, add_parent c (Some p) t = (t', es, r) ->
    (anc t c p /\ r = Err Circular /\ nodes t' = nodes t /\ rootc t' = rootc t) \/
    (~ anc t c p /\ r = Ok tt /\ nodes t' = nodes (add_edge p c t) /\ rootc t' = remove1 c (rootc t))).
  { intros t' es r E. unfold add_parent in E. rewrite (bind_live _ c cn) in E by auto. cbn [oid_eqb] in E.
    rewrite (proj2 (eqb_neq p c)), Fc in E by auto. cbn [negb andb] in E.
    destruct (mem_spec p (par cn)) as [Hi|Hi]; cbn [negb andb] in E; cbv iota in E.
    - inv E. right. assert (Hi2 : In p (parents t' c)) by (unfold parents; rewrite Ec; auto).
      destruct (HR Hi2) as (X & Y & Z). auto.
    - rewrite bind_get, Ep, Fp in E. eauto. }
  unfold outcome, after. inv A; cbn [run_op].
  - destruct (new_relationship p c t) as [[t' es] r] eqn:E. simpl. eauto.
  - destruct (In_dec_id c (childs t p)) as [Hi|Hi].
    + assert (Hip : In p (parents t c)) by (eapply reg_sym; eauto). destruct (HR Hip) as (X & Y & Z).
      unfold add_child. rewrite (bind_live _ p pn) by auto. rewrite Fp, (proj2 (eqb_neq c p)) by auto. cbn [negb andb]. cbv iota.
      assert (Hm : mem c (chi pn) = true) by (apply mem_In; unfold childs in Hi; rewrite Ep in Hi; auto). rewrite Hm.
      right. simpl. auto.
    + destruct (add_child_new p c t R Hp Hc N Hi) as (t' & es & r & E & _ & D). rewrite E. simpl. auto.
  - destruct (add_parent c (Some p) t) as [[t' es] r] eqn:E. simpl. eauto.
  - unfold tree_add_parent. rewrite bind_get, Hc. destruct (add_parent c (Some p) t) as [[t' es] r] eqn:E. simpl. eauto.
Qed.

Lemma ask_refused : forall t, reach calm t -> forall p c o, asks p c o -> has_node t p = true -> has_node t c = true -> p <> c ->
  (outcome o t = Err Circular <-> anc t c p) /\ (outcome o t = Ok tt <-> ~ anc t c p) /\
  (outcome o t = Err Circular -> same_tree t (after o t)).
Proof.
  intros t H p c o A Hp Hc N. pose proof (reach_reg _ H) as R.
  destruct (ask_spec t p c o R Hp Hc N A) as [(B & E & E1 & E2)|(B & E & _)]; rewrite E.
  - split; [split; auto|]. split; [split; [discriminate|tauto]|]. intros _. apply same_tree_nodes; auto.
  - split; [split; [discriminate|tauto]|]. split; [split; auto|]. discriminate.
Qed.

Lemma reg_add_edge : forall t p c, reg t -> has_node t p = true -> has_node t c = true -> ~ anc t c p -> reg (add_edge p c t).
Proof.
  intros t p c R Hp Hc A. apply (reg_rel t p c); auto; [apply rootc_add_edge|].
  intros q d. rewrite pend_add_edge. apply (reg_pend _ R).
Qed.

Lemma filter_app1 : forall (f : id -> bool) l x, f x = true -> filter f (l ++ [x]) = filter f l ++ [x].
Proof. intros f l x H. induction l; simpl; [rewrite H; auto|]. destruct (f a); simpl; rewrite IHl; auto. Qed.

Lemma mem_filter : forall f x l, f x = true -> mem x (filter f l) = mem x l.
Proof.
  intros f x l H. destruct (mem_spec x l) as [Hi|Hi].
  - apply mem_In. apply filter_In. auto.
  - apply mem_false. intro. apply filter_In in H0. tauto.
Qed.

Lemma filter_drop : forall f x l, filter f (drop x l) = drop x (filter f l).
Proof.
  intros f x l. unfold drop. induction l; simpl; auto.
  destruct (String.eqb a x) eqn:E; simpl; destruct (f a) eqn:F; simpl; rewrite ?E; simpl; rewrite IHl; auto.
Qed.

Lemma remove1_drop : forall x l, NoDup l -> remove1 x l = drop x l.
Proof. intros. apply remove1_filter; auto. Qed.

Lemma ask_accepted : forall t, reach calm t -> forall p c o, asks p c o -> has_node t p = true -> has_node t c = true -> p <> c ->
  outcome o t = Ok tt ->
  get_all_nodes (after o t) = get_all_nodes t /\
  root_children (after o t) = drop c (root_children t) /\
  (forall x, get_parents (after o t) x = if String.eqb x c then add_last p (get_parents t x) else get_parents t x) /\
  (forall x, get_children (after o t) x = if String.eqb x p then add_last c (get_children t x) else get_children t x).
Proof.
  intros t H p c o A Hp Hc N HO. pose proof (reach_reg _ H) as R.
  destruct (ask_spec t p c o R Hp Hc N A) as [(B & E & E1 & E2)|(B & E & E1 & E2)]; [congruence|].
  pose proof (reg_add_edge t p c R Hp Hc B) as R2.
  split; [unfold get_all_nodes; rewrite E1; apply dkeys_add_edge|].
  assert (HL : forall x, has_node (after o t) x = has_node t x).
  { intros. rewrite (has_node_nodes (add_edge p c t) (after o t)) by auto. apply has_node_add_edge. }
  split.
  { unfold root_children. rewrite E2, remove1_drop by apply (r_root _ R). rewrite filter_drop.
    f_equal. apply filter_ext. auto. }
  split; intros x.
  - rewrite (get_parents_nodes (add_edge p c t) (after o t)) by auto.
    rewrite (get_parents_reg _ x (reg_ok _ R2) (r_flags _ R2)), (get_parents_reg _ x (reg_ok _ R) (r_flags _ R)).
    rewrite parents_add_edge by auto. unfold add_last. destruct (String.eqb x c); auto. destruct (mem p (parents t x)); auto.
  - rewrite (get_children_nodes (add_edge p c t) (after o t)) by auto.
    rewrite (get_children_reg _ x (r_flags _ R2)), (get_children_reg _ x (r_flags _ R)).
    rewrite childs_add_edge by auto. unfold add_last. rewrite mem_filter by auto.
    rewrite (filter_ext (has_node (add_edge p c t)) (has_node t)) by (intros; apply has_node_add_edge).
    destruct (String.eqb x p); auto. destruct (mem c (childs t x)); simpl; auto. apply filter_app1; auto.
Qed.

(** ** Parents and children agree *)
Lemma parents_reported : forall t, reachx any_fresh t -> forall p c, In p (get_parents t c) ->
  has_node t p = true /\ (children_enabled t p = true -> In c (get_children t p)).
Proof.
  intros t H p c Hp. pose proof (reachx_good _ H) as G. unfold get_parents in Hp.
  destruct (dget c (nodes t)) as [nd|] eqn:E; [|destruct Hp]. destruct (pen nd); [|destruct Hp].
  apply filter_In in Hp. destruct Hp as [Hp Lp]. split; auto.
  assert (Hi : In c (childs t p)) by (apply (ok_sym _ (g_ok _ _ _ G)); unfold parents; rewrite E; auto).
  unfold children_enabled, get_children. unfold childs in Hi. destruct (dget p (nodes t)); [|discriminate]. intros ->.
  apply filter_In. split; auto. eapply get_has_node; eauto.
Qed.

Lemma fresh_unlisted_named : forall t, reachx fresh_unlisted t -> reachx fresh_named t.
Proof. intros t H. eapply reachx_mono; [|apply H]. intros t' o (A & B & _). split; auto. Qed.

Lemma children_reported : forall t, reachx fresh_unlisted t -> forall p c, In c (get_children t p) ->
  has_node t c = true /\ (parents_enabled t c = true -> In p (get_parents t c)).
Proof.
  intros t H p c Hc. pose proof (reachx_unlisted _ H) as G. pose proof (reachx_named _ (fresh_unlisted_named _ H)) as E0.
  unfold get_children in Hc.
  destruct (dget p (nodes t)) as [nd|] eqn:E; [|destruct Hc]. destruct (cen nd); [|destruct Hc].
  apply filter_In in Hc. destruct Hc as [Hc Lc]. split; auto.
  assert (Hi : In p (parents t c)) by (apply listed_parent; auto; unfold childs; rewrite E; auto).
  unfold parents_enabled, get_parents. unfold parents in Hi. destruct (dget c (nodes t)); [|discriminate]. intros ->.
  apply filter_In. split; auto. eapply get_has_node; eauto.
Qed.

Lemma reg_agree : forall t p c, reg t -> (In p (get_parents t c) <-> In c (get_children t p)).
Proof.
  intros t p c R. rewrite (get_parents_reg _ c (reg_ok _ R) (r_flags _ R)), (get_children_reg _ p (r_flags _ R)), filter_In.
  split.
  - intros H. split; [apply (ok_sym _ (reg_ok _ R) _ _ H)|eapply In_parents_live; eauto].
  - intros [A B]. eapply reg_sym; eauto.
Qed.

Lemma agree : forall t, reach calm t -> forall p c, In p (get_parents t c) <-> In c (get_children t p).
Proof. intros. apply reg_agree. apply reach_reg; auto. Qed.

(** ** Root *)
Lemma reg_root_children : forall t, reg t -> root_children t = rootc t.
Proof. intros t R. apply filter_id. apply (r_root _ R). Qed.

Lemma root_exact : forall t, reach calm t ->
  NoDup (root_children t) /\
  forall x, In x (root_children t) <-> has_node t x = true /\ get_parents t x = [].
Proof.
  intros t H. pose proof (reach_reg _ H) as R. rewrite (reg_root_children _ R). destruct (r_root _ R) as (A & B & C).
  split; auto. intros x. rewrite (get_parents_reg _ x (reg_ok _ R) (r_flags _ R)). split.
  - intros Hx. split; auto. apply C; auto.
  - intros [Hx Hp]. apply C; auto.
Qed.

Lemma reg_anc_desc : forall t n x, reg t -> (anc t n x <-> desc t n x).
Proof.
  intros t n x R. split.
  - intros A. induction A; [apply desc_refl|]. eapply desc_step; [apply IHA|]. apply reg_agree; auto.
    rewrite (get_parents_reg _ x (reg_ok _ R) (r_flags _ R)). auto.
  - intros D. induction D; [apply anc_refl|]. eapply anc_trans; [apply IHD|]. eapply anc_step; [|apply anc_refl].
    apply reg_agree in H; auto. rewrite (get_parents_reg _ x (reg_ok _ R) (r_flags _ R)) in H. auto.
Qed.

Lemma reached_from_root : forall t, reach calm t -> forall x, has_node t x = true ->
  exists r, In r (root_children t) /\ desc t r x.
Proof.
  intros t H x Hx. pose proof (reach_reg _ H) as R. destruct (ok_rank _ (reg_ok _ R)) as (r & Hr).
  assert (HI : forall k x, r x < k -> has_node t x = true -> exists a, In a (root_children t) /\ desc t a x).
  { induction k as [|k IH]; intros y Hk Hy; [lia|]. destruct (parents t y) as [|p l] eqn:E.
    - exists y. split; [|apply desc_refl]. rewrite (reg_root_children _ R). apply (r_root _ R); auto.
    - assert (Hp : In p (parents t y)) by (rewrite E; left; auto). pose proof (Hr _ _ Hp).
      destruct (IH p) as (a & Ha & Da); [lia|apply (ok_sym _ (reg_ok _ R) _ _ Hp)|].
      exists a. split; auto. eapply desc_step; [apply Da|]. apply reg_agree; auto.
      rewrite (get_parents_reg _ y (reg_ok _ R) (r_flags _ R)). auto. }
  apply (HI (S (r x))); auto.
Qed.

(** ** Deletion *)
Lemma attrs_frame_parents : forall t t' x l, frame t t' -> has_node t' x = true ->
  parents t' x = l -> get_parents t' x = if parents_enabled t x then filter (has_node t') l else [].
Proof.
  intros t t' x l F Hx <-. destruct (has_node_get _ _ Hx) as [nd' E]. destruct (F _ _ E) as (nd & E2 & Pe & _).
  unfold get_parents, parents_enabled, parents. rewrite E, E2, Pe. auto.
Qed.

Lemma get_parents_raw : forall t x, ok t -> get_parents t x = if parents_enabled t x then parents t x else [].
Proof.
  intros t x O. unfold get_parents, parents_enabled, parents. destruct (dget x (nodes t)) as [nd|] eqn:E; auto.
  destruct (pen nd); auto. apply filter_id. intros p Hp. apply (ok_sym _ O x p). unfold parents. rewrite E. auto.
Qed.

Lemma frame_parents_enabled : forall t t' x, frame t t' -> has_node t' x = true -> parents_enabled t' x = parents_enabled t x.
Proof.
  intros t t' x F Hx. destruct (has_node_get _ _ Hx) as [nd' E]. destruct (F _ _ E) as (nd & E2 & Pe & _).
  unfold parents_enabled. rewrite E, E2. auto.
Qed.

Lemma outcome_del_live : forall s t n, good s t -> outcome (DelNode n false) t = Ok tt -> has_node t n = true ->
  forall c, In c (childs t n) -> has_node t c = true.
Proof.
  intros s t n G HO Hn c Hc. destruct (has_node t c) eqn:E; auto. unfold outcome in HO. cbn [run_op] in HO.
  rewrite (del_one_err s n t G Hn) in HO by eauto. discriminate.
Qed.

Lemma del_one_laws : forall t, reachx any_fresh t -> forall n, has_node t n = true -> outcome (DelNode n false) t = Ok tt ->
  let t' := after (DelNode n false) t in
  get_all_nodes t' = drop n (get_all_nodes t) /\
  (forall x, x <> n -> get_parents t' x = drop n (get_parents t x)) /\
  (forall x, x <> n -> get_children t' x = drop n (get_children t x)) /\
  (forall x, In x (root_children t') <-> x <> n /\ (In x (root_children t) \/ In x (childs t n) /\ parents t' x = [])).
Proof.
  intros t H n Hn HO t'. pose proof (reachx_good _ H) as G.
  pose proof (outcome_del_live _ _ _ G HO Hn) as HL.
  assert (O : ok t) by apply (g_ok _ _ _ G).
  pose proof (framed_del_node n false t (ok_keys _ O)) as HF. unfold wp in HF. destruct HF as (_ & F & _).
  pose proof (del_node_good false n false t G) as HG. unfold wp in HG. destruct HG as (G' & _).
  assert (Et : t' = without n (shedded n t)) by (unfold t', after; cbn [run_op]; rewrite (del_one false n t G Hn HL); auto).
  change (fst (fst (del_node n false t))) with t' in F, G'. clearbody t'. subst t'.
  set (t' := without n (shedded n t)) in *.
  assert (ND : NoDup (dkeys (nodes (shedded n t)))) by (rewrite dkeys_shedded; apply O).
  assert (HLs : forall x, has_node (shedded n t) x = has_node t x) by (intros; apply has_node_keys; apply dkeys_shedded).
  assert (HL' : forall x, has_node t' x = negb (String.eqb x n) && has_node t x).
  { intros. unfold t'. rewrite has_node_without, HLs by auto. auto. }
  split.
  { unfold get_all_nodes, t', without. simpl. rewrite ddel_dkeys, dkeys_shedded. apply remove1_drop. apply O. }
  split.
  { intros x Hx. destruct (has_node t x) eqn:Lx.
    - assert (Lx' : has_node t' x = true) by (rewrite HL', (proj2 (eqb_neq x n)), Lx by auto; auto).
      rewrite (get_parents_raw _ x (g_ok _ _ _ G')), (get_parents_raw _ x O), (frame_parents_enabled _ _ _ F Lx').
      unfold t'. rewrite parents_without, (proj2 (eqb_neq x n)), (parents_shedded false) by auto.
      destruct (parents_enabled t x); auto. apply remove1_drop. apply O.
    - unfold get_parents. rewrite (has_node_none _ _ Lx).
      assert (Lx' : has_node t' x = false) by (rewrite HL', Lx, andb_false_r; auto). rewrite (has_node_none _ _ Lx'). auto. }
  split.
  { intros x Hx. destruct (has_node t x) eqn:Lx.
    - assert (Lx' : has_node t' x = true) by (rewrite HL', (proj2 (eqb_neq x n)), Lx by auto; auto).
      destruct (has_node_get _ _ Lx') as [nd' E']. destruct (F _ _ E') as (nd & E & _ & Ce & _).
      assert (EC : chi nd' = if mem x (evens (parents t n)) then remove1 n (chi nd) else chi nd).
      { assert (EE : childs t' x = chi nd') by (unfold childs; rewrite E'; auto). rewrite <- EE. unfold t'.
        rewrite childs_without, (proj2 (eqb_neq x n)) by auto. unfold shedded. rewrite childs_shed_other by auto.
        rewrite (childs_detached false) by auto. unfold childs. rewrite E. auto. }
      unfold get_children. rewrite E', E, Ce, EC. destruct (cen nd); auto. rewrite <- filter_drop.
      assert (NDc : NoDup (chi nd)). { pose proof (ok_ndc _ O x) as N. unfold childs in N. rewrite E in N. auto. }
      assert (HQ : forall l, filter (has_node t') (drop n l) = filter (has_node t) (drop n l)).
      { intros l. apply filter_ext_in. intros y Hy. unfold drop in Hy. apply filter_In in Hy. rewrite HL'. destruct Hy as [_ ->]. auto. }
      destruct (mem x (evens (parents t n))).
      + rewrite remove1_drop by auto. apply HQ.
      + rewrite <- HQ. unfold drop. clear -HL'. induction (chi nd) as [|y l IH]; auto. simpl. rewrite IH.
        destruct (String.eqb y n) eqn:Ey; simpl; auto. rewrite HL', Ey. simpl. auto.
    - unfold get_children. rewrite (has_node_none _ _ Lx).
      assert (Lx' : has_node t' x = false) by (rewrite HL', Lx, andb_false_r; auto). rewrite (has_node_none _ _ Lx'). auto. }
  intros x. unfold root_children at 1. rewrite filter_In, HL'.
  assert (HRC : In x (rootc (shedded n t)) <-> In x (rootc t) \/ (In x (childs t n) /\ parents (shedded n t) x = [])).
  { unfold shedded at 1. rewrite rootc_shed by apply O. fold (shedded n t). unfold detached. rewrite rootc_cut, in_app_iff, filter_In.
    change (rootc (unmention n t)) with (rootc t). destruct (parents (shedded n t) x); intuition discriminate. }
  destruct (id_dec x n) as [->|Hx].
  { rewrite eqb_refl. simpl. intuition discriminate. }
  rewrite (proj2 (eqb_neq x n)) by auto. cbn [negb andb].
  assert (HP : parents t' x = parents (shedded n t) x) by (unfold t'; rewrite parents_without, (proj2 (eqb_neq x n)) by auto; auto).
  rewrite HP.
  assert (HI : In x (rootc t') <-> In x (rootc (shedded n t))).
  { unfold t', without. simpl. split; [apply remove1_In|]. intros. apply remove1_In_neq; auto. }
  rewrite HI, HRC. unfold root_children. rewrite filter_In. split.
  - intros [[A|[A B]] C]; auto.
  - intros [_ [[A B]|[A B]]]; auto.
Qed.

Lemma del_one_iff : forall t, reachx any_fresh t -> forall n, has_node t n = true ->
  (outcome (DelNode n false) t = Ok tt <-> forall c, In c (childs t n) -> has_node t c = true) /\
  (outcome (DelNode n false) t <> Ok tt -> outcome (DelNode n false) t = Err KeyError).
Proof.
  intros t H n Hn. pose proof (reachx_good _ H) as G.
  assert (D : (forall c, In c (childs t n) -> has_node t c = true) \/ (exists c, In c (childs t n) /\ has_node t c = false)).
  { induction (childs t n) as [|a l IH]; [left; intros c []|]. destruct (has_node t a) eqn:E.
    - destruct IH as [IH|(c & A & B)]; [left|right; exists c; simpl; auto]. intros c [->|Hc]; auto.
    - right. exists a. simpl; auto. }
  unfold outcome. cbn [run_op]. destruct D as [D|D].
  - rewrite (del_one false n t G Hn D). cbn [snd]. split; [tauto|]. intros X. exfalso; apply X; auto.
  - rewrite (del_one_err false n t G Hn D). split; [|auto]. split; [discriminate|]. intros X. destruct D as (c & A & B).
    rewrite (X c A) in B. discriminate.
Qed.

Lemma del_tidy_ok : forall t, reach tidy t -> forall n b, outcome (DelNode n b) t = Ok tt.
Proof.
  intros t H n b. destruct (reach_tidy t H) as [R T]. destruct b; [apply del_rec_ok; apply R|apply del_one_ok; auto].
Qed.

Lemma del_rec_never_raises : forall t, reachx fresh_unlisted t -> forall n, outcome (DelNode n true) t = Ok tt.
Proof. intros t H n. apply del_rec_ok; [apply reachx_unlisted; auto|apply reachx_named, fresh_unlisted_named; auto]. Qed.

Lemma del_rec_laws_x : forall t, reachx fresh_unlisted t -> forall n,
  let t' := after (DelNode n true) t in
  (forall x, has_node t' x = true <-> has_node t x = true /\ ~ anc t n x) /\
  (forall x, has_node t' x = true -> get_parents t' x = get_parents t x) /\
  (forall x, has_node t' x = true -> get_children t' x = filter (has_node t') (get_children t x)).
Proof.
  intros t H n t'. assert (G : good true t) by (apply reachx_unlisted; auto).
  assert (He : has_node t "" = false) by (apply reachx_named, fresh_unlisted_named; auto).
  split; [apply del_rec_nodes; auto|].
  pose proof (framed_del_node n true t (ok_keys _ (g_ok _ _ _ G))) as HF. unfold wp in HF. destruct HF as (_ & F & _).
  pose proof (del_node_good true n true t G) as HG. unfold wp in HG. destruct HG as (G' & _).
  change (fst (fst (del_node n true t))) with t' in F, G'.
  pose proof (del_rec_parents n t G He) as HP. fold t' in HP.
  split; intros x Hx.
  - rewrite (get_parents_raw _ x (g_ok _ _ _ G')), (get_parents_raw _ x (g_ok _ _ _ G)), (frame_parents_enabled _ _ _ F Hx), HP; auto.
  - apply survivors_children; auto. intros c p Lc Lp Hp. rewrite HP; auto.
Qed.

Lemma reach_calm_unlisted : forall t, reach calm t -> reachx fresh_unlisted t.
Proof.
  intros t H. apply reach_reachx. eapply reach_mono; [|apply H]. intros t' o (P & _ & U & _).
  destruct o; simpl in *; repeat split; auto; try tauto.
Qed.

Lemma del_rec_laws : forall t, reach calm t -> forall n,
  let t' := after (DelNode n true) t in
  outcome (DelNode n true) t = Ok tt /\
  (forall x, has_node t' x = true <-> has_node t x = true /\ ~ desc t n x) /\
  (forall x, has_node t' x = true -> get_parents t' x = get_parents t x) /\
  (forall x, has_node t' x = true -> get_children t' x = filter (has_node t') (get_children t x)).
Proof.
  intros t H n t'. pose proof (reach_calm_unlisted _ H) as HX. destruct (del_rec_laws_x t HX n) as (A & B & C).
  split; [apply del_rec_never_raises; auto|]. split; auto. intros x. unfold t'. rewrite A.
  rewrite (reg_anc_desc t n x) by (apply reach_reg; auto). tauto.
Qed.

(** What an accepted or refused request stores, in any history. *)
Lemma new_rel_exact : forall t, reachx any_fresh t -> forall p c, p <> "" -> c <> "" -> p <> c ->
  has_node t p = true -> has_node t c = true -> outcome (NewRelationship p c) t = Ok tt ->
  let t' := after (NewRelationship p c) t in
  get_all_nodes t' = get_all_nodes t /\
  (forall x, parents t' x = if String.eqb x c then add_last p (parents t x) else parents t x) /\
  (forall x, childs t' x = if String.eqb x p then add_last c (childs t x) else childs t x).
Proof.
  intros t H p c N1 N2 N3 Hp Hc Ho. pose proof (reachx_good _ H) as G.
  destruct (refused_iff t H p c N1 N2 N3 Hp Hc) as [_ HR]. apply HR in Ho.
  unfold after. cbn [run_op]. rewrite (new_relationship_ok false p c t) by auto. cbn [fst].
  split; [|split].
  - unfold get_all_nodes. rewrite nodes_related. apply dkeys_add_edge.
  - intros x. rewrite (parents_nodes (add_edge p c t)) by apply nodes_related. rewrite parents_add_edge by auto.
    unfold add_last. destruct (String.eqb x c); cbn [andb]; auto. destruct (mem p (parents t x)); auto.
  - intros x. rewrite (childs_nodes (add_edge p c t)) by apply nodes_related. rewrite childs_add_edge by auto.
    unfold add_last. destruct (String.eqb x p); cbn [andb]; auto. destruct (mem c (childs t x)); auto.
Qed.
