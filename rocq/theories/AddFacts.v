(** What an addition does to the relations and to the list of nodes. *)
From Verif Require Import Base BaseFacts MainTree Spec SpecFrame MainFacts MainOps MainRun MainInv MainAdd MainEvents MainLaws FrameFacts.
Open Scope m_scope.

Section Only.
  Variable R : id -> id -> Prop.

  (** Relations of [t'] that are not in [t] are in [R]. *)
  Definition only (t t' : mtree) : Prop :=
    (forall p c, In p (parents t' c) -> In p (parents t c) \/ R p c) /\
    (forall p c, In c (childs t' p) -> In c (childs t p) \/ R p c).

  Definition ony {A} (m : M A) : Prop := forall t, wp m (fun t' _ _ => only t t') t.

  Lemma only_refl : forall t, only t t.
  Proof. intros t. split; auto. Qed.
  Lemma only_trans : forall a b c, only a b -> only b c -> only a c.
  Proof.
    intros a b c [H1 H2] [H3 H4]. split; intros p d H.
    - destruct (H3 _ _ H); auto.
    - destruct (H4 _ _ H); auto.
  Qed.
  Lemma only_nodes : forall t t', nodes t' = nodes t -> only t t'.
  Proof. intros t t' H. unfold only, parents, childs. rewrite H. auto. Qed.

  Lemma ony_bind : forall A B (m : M A) (k : A -> M B), ony m -> (forall a, ony (k a)) -> ony (bind m k).
  Proof.
    intros A B m k Hm Hk t. apply wp_bind. pose proof (Hm t) as H. unfold wp in *.
    destruct (m t) as [[t1 e1] r]. simpl in *. destruct r as [a|e|]; auto.
    pose proof (Hk a t1) as H'. unfold wp in H'. destruct (k a t1) as [[t2 e2] r2]. simpl in *. eapply only_trans; eauto.
  Qed.
  Lemma ony_same : forall A (m : M A), (forall t, exists es r, m t = (t, es, r)) -> ony m.
  Proof. intros A m H t. destruct (H t) as (es & r & E). unfold wp. rewrite E. apply only_refl. Qed.
  Lemma ony_modify : forall f, (forall t, only t (f t)) -> ony (modify f).
  Proof. intros f H t. unfold wp. simpl. auto. Qed.
  Lemma ony_ret : forall A (a : A), ony (ret a).
  Proof. intros. apply ony_same. intros. do 2 eexists; reflexivity. Qed.
  Lemma ony_get : ony get.
  Proof. intros. apply ony_same. intros. do 2 eexists; reflexivity. Qed.
  Lemma ony_raise : forall A e, ony (@raise A e).
  Proof. intros. apply ony_same. intros. do 2 eexists; reflexivity. Qed.
  Lemma ony_callback : forall k n, ony (callback k n).
  Proof. intros. apply ony_same. intros. do 2 eexists; reflexivity. Qed.
  Lemma ony_node_at : forall n, ony (node_at n).
  Proof. intros. apply ony_same. intros. unfold node_at. destruct (dget n (nodes t)); do 2 eexists; reflexivity. Qed.
  Lemma ony_circular : forall p c, ony (is_circular p c).
  Proof. intros. apply ony_same. intros t. destruct (is_circular_state p c t) as (r & E). eauto. Qed.
  Lemma ony_pend_remove : forall r, ony (pend_remove r).
  Proof. intros r t. unfold wp, pend_remove. destruct (rel_mem r (pend t)); simpl; apply only_nodes; auto. Qed.

  Lemma only_upd : forall n f t, (forall nd q, In q (par (f nd)) -> In q (par nd) \/ R q n) ->
    (forall nd c, In c (chi (f nd)) -> In c (chi nd) \/ R n c) -> only t (upd_node n f t).
  Proof.
    intros n f t H1 H2. split; intros p c; [unfold parents|unfold childs]; rewrite dget_upd.
    - deq c n; auto. subst. destruct (dget n (nodes t)); simpl; auto.
    - deq p n; auto. subst. destruct (dget n (nodes t)); simpl; auto.
  Qed.

  Lemma ony_create : forall p c, R p c -> ony (create_relationship p c).
  Proof.
    intros p c H. unfold create_relationship. apply ony_bind; [apply ony_node_at|]. intros pn.
    apply ony_bind; [apply ony_node_at|]. intros cn. apply ony_modify. intros t. cbv zeta.
    eapply only_trans; [|apply only_nodes; reflexivity].
    eapply only_trans; [|apply only_upd]; [apply only_upd| |]; intros nd q; match goal with |- context [mem ?a ?b] => destruct (mem a b) end; simpl; auto;
      rewrite in_app_iff; simpl; intros [Hi|[Hi|[]]]; subst; auto.
  Qed.

  Lemma ony_build : forall n l b, (forall p c, In (Some p, c) l -> R p c) -> ony (build_pendings n l b).
  Proof.
    induction l as [|[rp c] l IH]; intros b H; cbn [build_pendings]; [apply ony_ret|].
    apply ony_bind; [|intros; apply IH; intros; apply H; right; auto].
    unfold build_pending. simpl fst. simpl snd. apply ony_bind; [apply ony_get|]. intros t. apply ony_bind.
    - destruct (String.eqb c n) eqn:E; simpl; [|apply ony_ret]. apply eqb_eq in E. subst.
      destruct rp as [rp|]; simpl; [|apply ony_ret]. destruct (has_node t rp); [|apply ony_ret].
      apply ony_bind; [apply ony_circular|]. intros ci. apply ony_bind.
      + destruct ci; [apply ony_ret|]. apply ony_bind; [apply ony_create; apply H; left; auto|intros; apply ony_ret].
      + intros. apply ony_bind; [apply ony_pend_remove|intros; apply ony_ret].
    - intros a. apply ony_bind; [apply ony_get|]. intros t'. destruct rp as [rp|]; simpl; [|apply ony_ret].
      destruct (String.eqb rp n) eqn:E; simpl; [|apply ony_ret]. apply eqb_eq in E. subst. destruct (has_node t' c); [|apply ony_ret].
      apply ony_bind; [apply ony_circular|]. intros ci. apply ony_bind.
      + destruct ci; [apply ony_ret|]. apply ony_create; apply H; left; auto.
      + intros. apply ony_bind; [apply ony_pend_remove|intros; apply ony_ret].
  Qed.
End Only.

Lemma only_add : forall n nd po t, has_node t n = false -> app_node n nd ->
  only (fun p c => In (Some p, c) (pend t ++ npend nd) \/ c = n /\ po = Some p) (put n nd t) (after (AddNode n nd po) t).
Proof.
  intros n nd po t Hn An. unfold after. cbn [run_op]. unfold add_node. rewrite bind_get, Hn, bind_modify, bind_modify. fold (put n nd t).
  rewrite bind_get.
  assert (W : forall (m : M unit) R t0, ony R m -> only R t0 (fst (fst (m t0)))).
  { intros m R t0 H. specialize (H t0). unfold wp in H. destruct (m t0) as [[t1 e1] r1]. exact H. }
  apply W. apply ony_bind.
  - apply ony_build. unfold put. simpl. intros p c H. left. apply in_app_iff. apply merge_pending_In in H. tauto.
  - intros a. apply ony_bind.
    + destruct po as [p|]; [|apply ony_ret]. apply ony_bind; [apply ony_circular|]. intros ci. destruct ci; [apply ony_raise|].
      apply ony_bind; [apply ony_get|]. intros t2. destruct (has_node t2 p).
      * apply ony_bind; [apply ony_create; auto|intros; apply ony_ret].
      * apply ony_bind; [apply ony_modify; intros; apply only_nodes; auto|intros; apply ony_ret].
    + intros a'. apply ony_bind; [|intros; apply ony_callback].
      destruct a'; [apply ony_modify; intros; apply only_nodes; auto|apply ony_ret].
Qed.

Lemma drop_app1 : forall n l, drop n (l ++ [n]) = drop n l.
Proof. intros. unfold drop. rewrite filter_app. simpl. rewrite eqb_refl. simpl. apply app_nil_r. Qed.

Lemma add_exact : forall t, reachx any_fresh t -> forall n nd po, app_node n nd -> has_node t n = false ->
  outcome (AddNode n nd po) t = Ok tt ->
  let t' := after (AddNode n nd po) t in
  events (AddNode n nd po) t = [Ev EAdded n t'] /\
  (forall x, x <> n -> drop n (parents t' x) = drop n (parents t x)) /\
  (forall x, x <> n -> drop n (childs t' x) = drop n (childs t x)) /\
  (forall p, In p (parents t' n) -> po = Some p \/ In (Some p, n) (pend t ++ npend nd)) /\
  (forall c, In c (childs t' n) -> In (Some n, c) (pend t ++ npend nd)) /\
  (forall p, po = Some p -> if has_node t' p then In p (parents t' n) else In (Some p, n) (pend t')) /\
  (forall p c, In (Some p, c) (pend t ++ npend nd) -> p = n \/ c = n ->
     if has_node t' p && has_node t' c then In p (parents t' c) \/ anc t' c p else In (Some p, c) (pend t')).
Proof.
  intros t R n nd po An Hn Ho t'. pose proof (reachx_good _ R) as G.
  destruct (add_node_spec false n nd po t G Hn An) as (t3 & es & r & tg & E & G3 & Gg & Gr & En & PD & HR); [discriminate|].
  unfold outcome in Ho. simpl in Ho. rewrite E in Ho. simpl in Ho.
  assert (E3 : t' = t3) by (unfold t', after; simpl; rewrite E; reflexivity).
  pose proof (only_add n nd po t Hn An) as [O1 O2]. fold t' in O1, O2. rewrite E3 in *.
  destruct HR as [(Hr & _)|(_ & Ees & Er & Hpo)]; [congruence|].
  assert (Pn : parents (put n nd t) n = [] /\ childs (put n nd t) n = []).
  { destruct (app_node_facts _ _ An) as (Ep & Ec & _). unfold parents, childs, put. simpl. rewrite dget_dset_same. simpl. auto. }
  destruct Pn as [Pn Cn].
  assert (Po : forall x, x <> n -> parents (put n nd t) x = parents t x /\ childs (put n nd t) x = childs t x).
  { intros x Hx. unfold parents, childs, put. simpl. rewrite dget_dset_other by auto. auto. }
  assert (P3 : forall x, parents t3 x = parents tg x) by (intros; unfold parents; rewrite En; auto).
  assert (C3 : forall x, childs t3 x = childs tg x) by (intros; unfold childs; rewrite En; auto).
  split. { unfold events. simpl. rewrite E. simpl. exact Ees. }
  split. { intros x Hx. rewrite P3. destruct (Po x Hx) as [A _]. destruct (grown_parents_other _ _ _ x Gr Hx) as [Q|[_ Q]]; rewrite Q, A; auto. apply drop_app1. }
  split. { intros x Hx. rewrite C3. destruct (Po x Hx) as [_ A]. destruct (grown_childs_other _ _ _ x Gr Hx) as [Q|[_ Q]]; rewrite Q, A; auto. apply drop_app1. }
  split. { intros p Hp. destruct (O1 _ _ Hp) as [H|[H|[_ H]]]; auto. rewrite Pn in H. destruct H. }
  split. { intros c Hc. destruct (O2 _ _ Hc) as [H|[H|[-> H]]]; auto. { rewrite Cn in H. destruct H. }
    exfalso. destruct (Hpo _ H) as [A _]. apply A. apply anc_refl. }
  split. { intros p Hp. destruct (Hpo p Hp) as (_ & [[A B]|[A B]]); rewrite A; auto. }
  intros p c Hin Hor. assert (Hm : In (Some p, c) (merge_pending (npend nd) (pend t))).
  { apply merge_pending_In. apply in_app_iff in Hin. tauto. }
  specialize (PD _ Hm).
  assert (Hh : forall x, has_node t3 x = has_node (put n nd t) x).
  { intros x. rewrite (MainEff.has_node_nodes tg t3) by auto. apply (grown_has _ _ _ _ Gr). }
  assert (Hn3 : has_node (put n nd t) n = true) by (unfold has_node, dmem, put; simpl; rewrite dget_dset_same; auto).
  rewrite !Hh. unfold applicable in PD. simpl in PD. destruct Hor as [->| ->]; rewrite eqb_refl, Hn3 in *; simpl in *.
  - deq c n; simpl in *.
    + subst. rewrite Hn3. simpl in *. apply PD; auto.
    + destruct (has_node (put n nd t) c); auto.
  - rewrite andb_true_r. destruct (has_node (put n nd t) p) eqn:Ep; simpl in PD.
    + apply PD; auto.
    + deq p n; simpl in PD; auto. subst. congruence.
Qed.

Lemma told_shrinks : forall ks es ks', told ks es ks' -> Forall (fun e => ev_kind e <> EAdded) es -> NoDup ks ->
  exists f, ks' = filter f ks.
Proof.
  induction 1 as [ks|ks n s es ks' Hn Hs H IH|ks n s es ks' Hn Hs H IH|ks n s es ks' Hn Hs H IH]; intros Hf ND.
  - exists (fun _ => true). symmetry. apply filter_id. auto.
  - inversion Hf as [|? ? Hk Hf']; subst; simpl in *; exfalso; apply Hk; reflexivity.
  - inversion Hf; subst. auto.
  - inversion Hf; subst. destruct IH as (f & E); auto; [apply remove1_NoDup; auto|]. rewrite BaseFacts.remove1_filter in E by auto.
    exists (fun x => negb (String.eqb x n) && f x). rewrite E. clear. induction ks as [|a l IH]; simpl; auto.
    destruct (negb (String.eqb a n)); simpl; [destruct (f a)|]; rewrite IH; auto.
Qed.

Lemma filter_self : forall (f : id -> bool) l, filter f l = filter (fun x => mem x (filter f l)) l.
Proof.
  intros f l. apply filter_ext_in. intros a Ha. destruct (f a) eqn:E; symmetry.
  - apply mem_In. apply filter_In. auto.
  - destruct (mem_spec a (filter f l)) as [H|H]; auto. apply filter_In in H. destruct H. congruence.
Qed.

Lemma nodes_after : forall t, reachx any_fresh t -> forall o, fresh_add o ->
  get_all_nodes (after o t) =
    match o with
    | AddNode n _ _ => add_last n (get_all_nodes t)
    | DelNode _ _ => filter (has_node (after o t)) (get_all_nodes t)
    | _ => get_all_nodes t
    end.
Proof.
  intros t R o Hf. pose proof (reachx_good _ R) as G. unfold get_all_nodes.
  destruct o; try (match goal with |- context [after ?o t] =>
    pose proof (quiet_run_op o eq_refl t) as Q; unfold wp in Q; unfold after; destruct (run_op o t) as [[t' es] r]; simpl in *; apply Q end).
  - destruct (has_node t n) eqn:Hn.
    + assert (E : run_op (AddNode n nd parent) t = (t, [], Ok tt))
        by (simpl; unfold add_node; rewrite bind_get, Hn; reflexivity).
      unfold after. rewrite E. simpl. unfold add_last. apply has_node_In in Hn. apply mem_In in Hn. rewrite Hn. auto.
    + destruct (add_node_spec false n nd parent t G Hn Hf) as (t3 & es & r & tg & E & G3 & Gg & Gr & En & PD & HR); [discriminate|].
      unfold after. cbn [run_op]. rewrite E. simpl. rewrite En, (grown_keys _ _ _ Gr), dkeys_put by auto. unfold add_last.
      destruct (mem_spec n (dkeys (nodes t))) as [H|H]; auto. apply has_node_In in H. congruence.
  - assert (T : tells (run_op (DelNode n recursive))).
    { simpl. apply tells_bind; [apply tells_quiet, quiet_get|]. intros. apply tells_remove_node. }
    destruct (T t) as [T1 T2]. destruct (told_shrinks _ _ _ T1 T2 (ok_keys _ (g_ok _ _ _ G))) as (f & E).
    unfold after. change (dkeys (nodes (fst (fst (run_op (DelNode n recursive) t)))) = filter (has_node (fst (fst (run_op (DelNode n recursive) t)))) (dkeys (nodes t))).
    rewrite E. rewrite filter_self at 1. apply filter_ext. intros a. rewrite <- E. unfold has_node, dmem.
    destruct (dget a (nodes (fst (fst (run_op (DelNode n recursive) t))))) eqn:Q.
    + apply mem_In. eapply dget_Some_In; eauto.
    + destruct (mem_spec a (dkeys (nodes (fst (fst (run_op (DelNode n recursive) t)))))) as [H|H]; auto.
      apply has_node_In in H. unfold has_node, dmem in H. rewrite Q in H. discriminate.
Qed.

Lemma added_object : forall t, reachx any_fresh t -> forall n nd po, app_node n nd -> has_node t n = false ->
  let t' := after (AddNode n nd po) t in
  data_at t' n = Some (data nd) /\ parents_enabled t' n = pen nd /\ children_enabled t' n = cen nd.
Proof.
  intros t R n nd po An Hn t'. pose proof (reachx_good _ R) as G.
  destruct (add_node_spec false n nd po t G Hn An) as (t3 & es & r & tg & E & G3 & Gg & Gr & En & _); [discriminate|].
  assert (E3 : t' = t3) by (unfold t', after; simpl; rewrite E; reflexivity).
  assert (A : attrs t3 n = Some (pen nd, cen nd, data nd)).
  { unfold attrs. rewrite En. fold (attrs tg n). rewrite (grown_attrs _ _ _ _ Gr). unfold attrs, put. simpl. rewrite dget_dset_same. reflexivity. }
  rewrite E3. unfold attrs in A. unfold data_at, parents_enabled, children_enabled.
  destruct (dget n (nodes t3)) as [nd'|]; [|discriminate]. simpl in *. inversion A. auto.
Qed.
