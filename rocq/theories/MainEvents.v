(** What the events of a call tell about the set of nodes, and the invariants of
    all reachable trees. *)
From Verif Require Import Base BaseFacts MainTree Spec MainFacts MainInv MainOps MainDel MainRun MainAdd.
Open Scope m_scope.

Definition tells_post {A} (ks : list id) (t' : mtree) (es : list event) (r : res A) : Prop :=
  told ks es (dkeys (nodes t')) /\ Forall (fun e => ev_kind e <> EAdded) es.
Definition tells {A} (m : M A) : Prop := forall t, wp m (tells_post (dkeys (nodes t))) t.

Lemma told_app : forall a e1 b e2 c, told a e1 b -> told b e2 c -> told a (e1 ++ e2) c.
Proof. induction 1; simpl; intros; auto; constructor; auto. Qed.

Lemma tells_bind_wp : forall A B (m : M A) (k : A -> M B) ks t,
  wp m (tells_post ks) t ->
  (forall a t1 e1, m t = (t1, e1, Ok a) -> wp (k a) (tells_post (dkeys (nodes t1))) t1) ->
  wp (bind m k) (tells_post ks) t.
Proof.
  intros A B m k ks t Hm Hk. apply wp_bind. unfold wp in *.
  destruct (m t) as [[t1 e1] r] eqn:Em. simpl in *.
  destruct r as [a|e|]; simpl in *; auto. destruct Hm as [H1 H2], (Hk a t1 e1 eq_refl) as [H3 H4].
  split; [eapply told_app; eassumption|apply Forall_app; auto].
Qed.

Lemma tells_bind : forall A B (m : M A) (k : A -> M B), tells m -> (forall a, tells (k a)) -> tells (bind m k).
Proof. intros A B m k Hm Hk t. apply tells_bind_wp; auto. intros. apply Hk. Qed.

Lemma tells_quiet : forall A (m : M A), quiet m -> tells m.
Proof.
  intros A m H t. eapply wp_conseq; [|apply H]. intros t' es r [K F]. split.
  - rewrite K. clear K H.
    induction F as [|e es (H1 & H2 & H3) F IH]; [constructor|]. destruct e as [k n s]; simpl in *. subst k.
    constructor; auto. apply has_node_In; auto.
  - eapply Forall_impl; [|apply F]. simpl. intros e (H1 & _). congruence.
Qed.

Lemma tells_for_each : forall X (l : list X) body, (forall x, tells (body x)) -> tells (for_each l body).
Proof. induction l; simpl; intros; [apply tells_quiet, quiet_ret|]. apply tells_bind; auto. Qed.

Lemma quiet_node_at : forall n, quiet (node_at n).
Proof. intros. apply quiet_const. intros. unfold node_at. destruct (dget n (nodes t)); eexists; reflexivity. Qed.

Lemma quiet_destroy_then : forall p c B (k : unit -> M B),
  (forall t t0, dkeys (nodes t) = dkeys (nodes t0) -> has_node t0 p = true -> has_node t0 c = true -> wp (k tt) (quiet_post t0) t) ->
  quiet (destroy_relationship p c ;; k tt).
Proof.
  intros p c B k Hk t. destruct (has_node t p && has_node t c) eqn:E.
  - apply andb_true_iff in E. destruct E. eapply wp_Ok_nil; [apply destroy_eq; auto|].
    apply Hk; auto. apply dkeys_del_edge.
  - unfold wp. erewrite bind_Err by (apply destroy_err; auto). split; [reflexivity|constructor].
Qed.

Lemma quiet_remove_child : forall n c, quiet (remove_child n c).
Proof.
  intros n c. unfold remove_child.
  apply (quiet_destroy_then n c _ (fun _ => callback EModified c ;;
    cn <- node_at c ;;
    match par cn with [] => modify (fun t => set_rootc (rootc t ++ [c]) t) | _ => ret tt end)).
  intros t t0 K Hn Hc. apply quiet_bind_wp; auto; [apply quiet_callback; auto|].
  intros _ t1 _ _ K1. apply quiet_shift; auto. apply quiet_bind; [apply quiet_node_at|].
  intros cn. destruct (par cn); [apply quiet_modify; auto|apply quiet_ret].
Qed.

Lemma quiet_remove_parents : forall fuel n i, quiet (remove_parents fuel n i).
Proof.
  induction fuel; intros n i; cbn [remove_parents]; (apply quiet_bind; [apply quiet_node_at|]); intros nd;
    destruct (nth_error (par nd) i) as [p|]; try apply quiet_ret.
  - apply quiet_const. intros. eexists; reflexivity.
  - apply (quiet_destroy_then p n _ (fun _ => callback EModified p ;; remove_parents fuel n (S i))).
    intros t t0 K Hp Hn. apply quiet_bind_wp; auto; [apply quiet_callback; auto|].
    intros _ t1 _ _ K1. apply quiet_shift; auto.
Qed.

Lemma tells_remove_node : forall fuel n r, tells (remove_node fuel n r).
Proof.
  induction fuel; intros n r; cbn [remove_node]; (apply tells_bind; [apply tells_quiet, quiet_get|]); intros t0;
    (destruct (negb (has_node t0 n)); [apply tells_quiet, quiet_ret|]);
    (apply tells_bind; [apply tells_quiet, quiet_modify; auto|]); intros _;
    (apply tells_bind; [apply tells_quiet, quiet_node_at|]); intros nd;
    (apply tells_bind; [apply tells_quiet, quiet_remove_parents|]); intros _;
    (apply tells_bind; [apply tells_quiet, quiet_node_at|]); intros nd'.
  - intros t. unfold wp. simpl. split; constructor.
  - apply tells_bind.
    { apply tells_for_each. intros c. destruct r; [apply IHfuel|apply tells_quiet, quiet_remove_child]. }
    intros _. apply tells_bind; [apply tells_quiet, quiet_modify; auto|]. intros _.
    intros t. unfold wp. destruct (has_node t n) eqn:Hn.
    + destruct (has_node_get _ _ Hn) as (x & Ex). erewrite bind_Ok_nil by (apply node_at_Some; eauto).
      rewrite bind_modify. apply has_node_In in Hn. split; [|repeat constructor; discriminate]. simpl.
      rewrite ddel_dkeys. constructor; auto; [|constructor]. unfold get_all_nodes. simpl. apply ddel_dkeys.
    + erewrite bind_Err by (apply node_at_None; apply has_node_none; auto). simpl. split; constructor.
Qed.

Lemma dkeys_put : forall n nd t, has_node t n = false -> dkeys (nodes (put n nd t)) = dkeys (nodes t) ++ [n].
Proof.
  intros. unfold put. simpl. apply dkeys_dset_notin. intro Hin. apply has_node_In in Hin. congruence.
Qed.

Lemma good_strict : forall s t, good s t -> good false t.
Proof.
  intros s t G. constructor; [apply (g_ok _ _ _ G)|]. intros x c H1 H2 H3 H4 H5 H6. split; auto.
  destruct (g_imp _ _ _ G x c) as [_ H]; auto.
Qed.

(** Every call that is not an addition that raises tells the truth. *)
Lemma op_tells : forall s o t, good s t -> fresh_add o ->
  (match o with AddNode _ _ _ => outcome o t = Ok tt | _ => True end) ->
  told (get_all_nodes t) (events o t) (get_all_nodes (after o t)).
Proof.
  intros s o t G Hf Ho. unfold get_all_nodes.
  destruct (add_or_del o) eqn:Ead.
  - destruct o; try discriminate; clear Ead.
    + destruct (has_node t n) eqn:Hn.
      * assert (E : run_op (AddNode n nd parent) t = (t, [], Ok tt))
          by (simpl; unfold add_node; rewrite bind_get, Hn; reflexivity).
        unfold events, after. rewrite E. constructor.
      * assert (G' : good false t) by (eapply good_strict; eauto).
        destruct (add_node_spec false n nd parent t G' Hn Hf) as
          (t3 & es & r & tg & E & G3 & Gg & Gr & En & PD & [(E1 & _)|(E1 & E2 & _)]); [discriminate| |].
        { unfold outcome in Ho. simpl in Ho. rewrite E in Ho. simpl in Ho. congruence. }
        unfold events, after. simpl. rewrite E. simpl. subst es.
        assert (K : dkeys (nodes t3) = dkeys (nodes t) ++ [n]).
        { rewrite En, (grown_keys _ _ _ Gr). apply dkeys_put; auto. }
        rewrite K. constructor; auto; [|constructor].
        intro Hin. apply has_node_In in Hin. congruence.
    + unfold events, after. simpl. unfold del_node. apply (tells_bind _ _ get (fun t => remove_node (remove_budget t) n recursive)); [apply tells_quiet, quiet_get|].
      intros. apply tells_remove_node.
  - apply (tells_quiet _ _ (quiet_run_op o Ead)).
Qed.

(** Reachable trees. *)
Lemma told_absent : forall x ks es ks', told ks es ks' -> Forall (fun e => ev_kind e <> EAdded) es ->
  ~ In x ks -> ~ In x ks' /\ Forall (fun e => ~ In x (dkeys (nodes (ev_tree e)))) es.
Proof.
  induction 1 as [ks|ks n s es ks' Hn Hs H IH|ks n s es ks' Hn Hs H IH|ks n s es ks' Hn Hs H IH]; intros Hf Hx;
    [split; auto|inversion Hf as [|? ? Hk Hf']; subst; simpl in *; exfalso; apply Hk; reflexivity| |];
    inversion Hf as [|? ? Hk Hf']; subst; simpl in *.
  - destruct IH as [A B]; auto.
  - assert (Hx' : ~ In x (remove1 n ks)) by (intro; apply Hx; eapply remove1_In; eauto).
    destruct IH as [A B]; auto. split; auto. constructor; auto. simpl. rewrite <- Hs in Hx'. exact Hx'.
Qed.

Lemma op_absent : forall s o t x, good s t -> fresh_add o -> (match o with AddNode n _ _ => n <> x | _ => True end) ->
  has_node t x = false ->
  has_node (after o t) x = false /\ Forall (fun e => has_node (ev_tree e) x = false) (events o t).
Proof.
  intros s o t x G Hf Hx Ht.
  assert (HI : forall t', has_node t' x = false <-> ~ In x (dkeys (nodes t'))).
  { intros t'. rewrite <- has_node_In. destruct (has_node t' x); split; congruence. }
  destruct o; try (
    match goal with |- context [after ?o t] =>
      destruct (told_absent x _ _ _ (proj1 (tells_quiet _ _ (quiet_run_op o eq_refl) t))
                  (proj2 (tells_quiet _ _ (quiet_run_op o eq_refl) t)) (proj1 (HI t) Ht)) as [A B]
    end; split; [apply HI; exact A|eapply Forall_impl; [|exact B]; intros e He; apply HI; exact He]).
  - destruct (has_node t n) eqn:Hn.
    + assert (E : run_op (AddNode n nd parent) t = (t, [], Ok tt))
        by (simpl; unfold add_node; rewrite bind_get, Hn; reflexivity).
      unfold events, after. rewrite E. simpl. auto.
    + assert (G' : good false t) by (eapply good_strict; eauto).
      destruct (add_node_spec false n nd parent t G' Hn Hf) as
        (t3 & es & r & tg & E & G3 & Gg & Gr & En & PD & HR); [discriminate|].
      assert (K : has_node t3 x = false).
      { apply HI. rewrite En, (grown_keys _ _ _ Gr), dkeys_put by auto. rewrite in_app_iff. simpl.
        apply HI in Ht. intros [H|[H|[]]]; auto. }
      unfold events, after. simpl. rewrite E. simpl. split; auto.
      destruct HR as [(_ & -> & _)|(_ & -> & _)]; auto.
  - assert (T : tells (run_op (DelNode n recursive))).
    { simpl. apply tells_bind; [apply tells_quiet, quiet_get|]. intros. apply tells_remove_node. }
    destruct (told_absent x _ _ _ (proj1 (T t)) (proj2 (T t)) (proj1 (HI t) Ht)) as [A B].
    split; [apply HI; exact A|eapply Forall_impl; [|exact B]; intros e He; apply HI; exact He].
Qed.

Lemma reach_reachx : forall P t, reach P t -> reachx P t.
Proof. induction 1; [constructor|apply reachx_call; auto]. Qed.

Lemma reachx_mono : forall (P Q : mtree -> mop -> Prop) t, (forall t o, P t o -> Q t o) -> reachx P t -> reachx Q t.
Proof.
  induction 2; [constructor|apply reachx_call; auto|eapply reachx_abort; eauto].
Qed.

Lemma reach_mono : forall (P Q : mtree -> mop -> Prop) t, (forall t o, P t o -> Q t o) -> reach P t -> reach Q t.
Proof. induction 2; [constructor|apply reach_call; auto]. Qed.

Lemma reachx_good : forall t, reachx any_fresh t -> good false t.
Proof.
  induction 1 as [|t o H IH Hp|t o e H IH Hp He]; [apply good_empty| |];
    assert (HX : false = true -> unlisted_add t o) by discriminate;
    destruct (run_op_good false o t IH Hp HX) as [A B]; auto.
  rewrite Forall_forall in B. apply B; auto.
Qed.

Lemma reachx_named : forall t, reachx fresh_named t -> has_node t "" = false.
Proof.
  intros t H.
  assert (G : good false t /\ has_node t "" = false); [|tauto].
  induction H as [|t o H [G IH] [Hf Hn]|t o e H [G IH] [Hf Hn] He]; [split; [apply good_empty|reflexivity]| |];
    assert (HX : false = true -> unlisted_add t o) by discriminate;
    destruct (run_op_good false o t G Hf HX) as [A B];
    destruct (op_absent false o t "" G Hf Hn IH) as [C D]; auto.
  rewrite Forall_forall in B, D. split; [apply B|apply D]; auto.
Qed.

Lemma reachx_unlisted : forall t, reachx fresh_unlisted t -> good true t.
Proof.
  induction 1 as [|t o H IH (Hf & Hn & Hu)|t o e H IH (Hf & Hn & Hu) He]; [apply good_empty| |];
    destruct (run_op_good true o t IH Hf (fun _ => Hu)) as [A B]; auto.
  rewrite Forall_forall in B. apply B; auto.
Qed.
