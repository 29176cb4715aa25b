(** Proofs about the relations that wait for one of their nodes. *)
From Verif Require Import Base BaseFacts MainTree Spec MainFacts MainInv MainOps MainDel MainRun MainAdd MainEff MainReg MainRegDel MainTight MainEvents MainLaws.
Open Scope m_scope.

Section Pending.
Variables p c : id.
Hypothesis Np : p <> "".
Hypothesis Nc : c <> "".
Hypothesis Npc : p <> c.
Local Notation pc := (Some p, c).

Lemma rel_eqb_eq : forall a b, rel_eqb a b = true <-> a = b.
Proof.
  intros [[x|] y] [[x'|] y']; unfold rel_eqb; simpl; split; intros H; try discriminate.
  - apply andb_true_iff in H. destruct H as [A B]. apply eqb_eq in A. apply eqb_eq in B. congruence.
  - inv H. rewrite !eqb_refl. auto.
  - apply eqb_eq in H. congruence.
  - inv H. apply eqb_refl.
Qed.

Lemma rel_remove1_other : forall r x l, x <> r -> In x l -> In x (rel_remove1 r l).
Proof.
  induction l as [|y l IH]; simpl; intros N H; auto. destruct (rel_eqb r y) eqn:E.
  - apply rel_eqb_eq in E. subst y. destruct H; [congruence|auto].
  - destruct H; [left|right]; auto.
Qed.

(** The relation waits. *)
Definition waits (t : mtree) : Prop :=
  has_node t p && has_node t c = false /\ ~ In p (parents t c) /\ In pc (pend t).

Definition sp {A} (m : M A) : Prop := forall t, waits t -> wp m (fun t' _ _ => waits t') t.

Lemma sp_bind : forall A B (m : M A) (k : A -> M B), sp m -> (forall a, sp (k a)) -> sp (bind m k).
Proof.
  intros A B m k Hm Hk t H. apply wp_bind. eapply wp_conseq; [|apply Hm; auto].
  intros t' es [a|e|] HW; auto. apply Hk; auto.
Qed.

Lemma sp_bind_wp : forall A B (m : M A) (k : A -> M B) t,
  wp m (fun t' _ _ => waits t') t -> (forall a t' es, m t = (t', es, Ok a) -> waits t' -> wp (k a) (fun t' _ _ => waits t') t') ->
  wp (bind m k) (fun t' _ _ => waits t') t.
Proof.
  intros A B m k t Hm Hk. apply wp_bind. unfold wp in *. destruct (m t) as [[t1 e1] [a|e|]] eqn:E; cbn [fst snd] in *; auto.
  apply (Hk a t1 e1); auto.
Qed.

Lemma sp_const : forall A (m : M A), (forall t, exists es r, m t = (t, es, r)) -> sp m.
Proof. intros A m H t HW. destruct (H t) as (es & r & E). unfold wp. rewrite E. auto. Qed.
Lemma sp_ret : forall A (a : A), sp (ret a).
Proof. intros. apply sp_const. intros. eexists _, _. reflexivity. Qed.
Lemma sp_raise : forall A e, sp (@raise A e).
Proof. intros. apply sp_const. intros. eexists _, _. reflexivity. Qed.
Lemma sp_get : sp get.
Proof. intros. apply sp_const. intros. eexists _, _. reflexivity. Qed.
Lemma sp_callback : forall k n, sp (callback k n).
Proof. intros. apply sp_const. intros. eexists _, _. reflexivity. Qed.
Lemma sp_live : forall n, sp (live n).
Proof. intros. apply sp_const. intros. unfold live. destruct (dget n (nodes t)); eexists _, _; reflexivity. Qed.
Lemma sp_node_at : forall n, sp (node_at n).
Proof. intros. apply sp_const. intros. unfold node_at. destruct (dget n (nodes t)); eexists _, _; reflexivity. Qed.
Lemma sp_circular : forall a b, sp (is_circular a b).
Proof. intros. apply sp_const. intros. unfold is_circular. destruct (loop _ _ _); eexists _, _; reflexivity. Qed.
Lemma sp_for_each : forall X (l : list X) body, (forall x, In x l -> sp (body x)) -> sp (for_each l body).
Proof.
  induction l; simpl; intros; [apply sp_ret|]. apply sp_bind; [apply H; left; auto|]. intros _. apply IHl. intros. apply H. right; auto.
Qed.

Lemma waits_same : forall t t', waits t -> dkeys (nodes t') = dkeys (nodes t) -> (In p (parents t' c) -> In p (parents t c)) -> pend t' = pend t -> waits t'.
Proof.
  intros t t' (A & B & C) K H E. split; [|split].
  - rewrite !(has_node_keys t' t) by auto. auto.
  - auto.
  - rewrite E. auto.
Qed.

Lemma sp_modify_same : forall f, (forall t, dkeys (nodes (f t)) = dkeys (nodes t)) ->
  (forall t, In p (parents (f t) c) -> In p (parents t c)) -> (forall t, pend (f t) = pend t) -> sp (modify f).
Proof. intros f H1 H2 H3 t HW. unfold wp. simpl. eapply waits_same; eauto. Qed.

Lemma parents_upd : forall n f t x, parents (upd_node n f t) x = if String.eqb x n then match dget n (nodes t) with Some nd => par (f nd) | None => [] end else parents t x.
Proof.
  intros. unfold parents, upd_node. destruct (dget n (nodes t)) as [nd|] eqn:E; simpl.
  - deq x n; [subst; rewrite dget_dset_same; auto|rewrite dget_dset_other; auto].
  - deq x n; auto. subst. rewrite E. auto.
Qed.

Lemma sp_upd : forall n f, (forall nd, In p (par (f nd)) -> In p (par nd)) -> sp (modify (upd_node n f)).
Proof.
  intros n f H. apply sp_modify_same.
  - intros. apply dkeys_upd.
  - intros t. rewrite parents_upd. deq c n; auto. subst. unfold parents. destruct (dget n (nodes t)); auto.
  - intros. apply pend_upd.
Qed.

Lemma sp_rootc : forall f, sp (modify (fun t => set_rootc (f t) t)).
Proof. intros. apply sp_modify_same; auto. Qed.

Lemma sp_append : forall r, sp (pend_append r).
Proof.
  intros r t (A & B & C). unfold wp, pend_append, modify. simpl. split; auto. split; auto. simpl. apply in_app_iff. auto.
Qed.

Lemma sp_create : forall q d t, waits t -> has_node t q && has_node t d = true -> wp (create_relationship q d) (fun t' _ _ => waits t') t.
Proof.
  intros q d t HW HL. apply andb_true_iff in HL. destruct HL as [Hq Hd]. unfold wp. rewrite create_eq by auto. cbn [fst].
  destruct HW as (A & B & C). split; [|split].
  - rewrite !has_node_add_edge. auto.
  - rewrite parents_add_edge by auto. destruct (String.eqb c d) eqn:E; cbn [andb]; auto. apply eqb_eq in E. subst d.
    destruct (mem q (parents t c)); cbn [negb]; auto. intros Hi. apply in_app_iff in Hi. destruct Hi as [Hi|[->|[]]]; auto.
    rewrite Hq, Hd in A. discriminate.
  - rewrite pend_add_edge. auto.
Qed.

Lemma sp_destroy : forall q d, sp (destroy_relationship q d).
Proof.
  intros q d t HW. unfold destroy_relationship. apply (sp_bind _ _ (node_at q)); auto; [apply sp_node_at|]. intros _.
  apply sp_bind; [apply sp_node_at|]. intros _. apply sp_modify_same.
  - intros. rewrite !dkeys_upd. auto.
  - intros t0 H. rewrite !parents_upd in H. deq c d.
    + subst d. unfold upd_node in H. unfold parents. destruct (dget q (nodes t0)) as [nq|] eqn:E; simpl in H.
      * destruct (String.eqb c q) eqn:Ed.
        -- apply eqb_eq in Ed. subst q. rewrite dget_dset_same in H. simpl in H. apply remove1_In in H. rewrite E. auto.
        -- apply eqb_neq in Ed. rewrite dget_dset_other in H by auto. destruct (dget c (nodes t0)); auto. simpl in H. apply remove1_In in H. auto.
      * destruct (dget c (nodes t0)); auto. simpl in H. apply remove1_In in H. auto.
    + deq c q; auto. subst q. unfold parents. destruct (dget c (nodes t0)); auto.
  - intros. rewrite !pend_upd. auto.
Qed.

Lemma sp_new_relationship : forall q d, sp (new_relationship q d).
Proof.
  intros q d t HW. unfold new_relationship. unfold wp. rewrite bind_modify. fold (unpend q d t).
  change (wp (if negb (truthy q) || negb (truthy d) || String.eqb q d then ret tt
  else
    t <- get ;;
    if negb (has_node t q) || negb (has_node t d) then pend_append (Some q, d)
    else
      circ <- is_circular q d ;;
      if circ then destroy_relationship q d ;; raise Circular
      else
        create_relationship q d ;;
        modify (fun t => set_rootc (remove1 d (rootc t)) t) ;;
        callback EModified q ;;
        callback EModified d) (fun t' _ _ => waits t') (unpend q d t)).
  destruct HW as (A & B & C).
  assert (HD : waits (unpend q d t) \/ (q = p /\ d = c)).
  { destruct (id_dec q p) as [->|N1]; [destruct (id_dec d c) as [->|N2]|]; auto; left; (split; [|split]); auto;
      apply rel_remove1_other; auto; congruence. }
  destruct HD as [HW|[-> ->]].
  - destruct (negb (truthy q) || negb (truthy d) || String.eqb q d); [apply sp_ret; auto|].
    apply wp_get. destruct (negb (has_node (unpend q d t) q) || negb (has_node (unpend q d t) d)) eqn:E; [apply sp_append; auto|].
    rewrite <- negb_andb in E. apply negb_false_iff in E.
    apply sp_bind_wp; [apply sp_circular; auto|]. intros b t1 es Ec HW1.
    assert (t1 = unpend q d t) by (unfold is_circular in Ec; destruct (loop _ _ _) in Ec; congruence). subst t1.
    destruct b; [apply (sp_bind _ _ (destroy_relationship q d)); auto; [apply sp_destroy|intros; apply sp_raise]|].
    apply sp_bind_wp; [apply sp_create; auto|]. intros u t2 es2 _ HW2.
    revert t2 HW2. fold (sp (modify (fun t0 => set_rootc (remove1 d (rootc t0)) t0) ;; callback EModified q ;; callback EModified d)).
    apply sp_bind; [apply sp_rootc|intros _]. apply sp_bind; intros; apply sp_callback.
  - rewrite guard_false by auto. apply wp_get. change (has_node (unpend p c t)) with (has_node t). rewrite <- negb_andb, A. cbn [negb].
    unfold wp, pend_append, modify. cbn [fst]. split; auto. split; auto. simpl. apply in_app_iff. right. left; auto.
Qed.

Lemma sp_break : forall q d t, waits t -> (q, d) <> (p, c) -> wp (break_relationship q d) (fun t' _ _ => waits t') t.
Proof.
  intros q d t HW N. unfold break_relationship.
  assert (HW1 : waits (forget q d t)).
  { destruct HW as (A & B & C). split; auto. split; auto. simpl. apply filter_In. split; auto.
    destruct (rel_eqb (Some q, d) pc) eqn:E; auto. apply rel_eqb_eq in E. congruence. }
  unfold wp. rewrite bind_modify. fold (forget q d t).
  match goal with |- context [fst (fst (?m (forget q d t)))] => change (wp m (fun t' _ _ => waits t') (forget q d t)) end.
  revert HW1. generalize (forget q d t). clear t HW. intros t HW.
  destruct (negb (truthy q) || negb (truthy d) || String.eqb q d); [apply sp_ret; auto|].
  apply wp_get. destruct (negb (has_node t q) || negb (has_node t d)); [apply sp_ret; auto|].
  revert t HW. match goal with |- forall t, waits t -> wp ?m _ _ => fold (sp m) end.
  apply sp_bind; [apply sp_destroy|intros _]. apply sp_bind; [apply sp_get|intros t1].
  apply sp_bind; [|intros _; apply sp_bind; intros; apply sp_callback].
  destruct (get_parents t1 d); [|apply sp_ret]. unfold root_add_child. destruct (String.eqb d main_root); [apply sp_ret|].
  apply sp_bind; [apply sp_get|intros t2]. destruct (mem d (rootc t2)); [apply sp_ret|].
  destruct (dget d (nodes t2)) as [cn|]; [|apply sp_append]. destruct (pen cn); [|apply sp_ret].
  apply sp_bind; [apply sp_rootc|intros _; apply sp_new_relationship].
Qed.

Lemma sp_add_parent : forall n q, sp (add_parent n q).
Proof.
  intros n q. unfold add_parent. apply sp_bind; [apply sp_live|intros nd]. destruct (_ && _ && _); [|apply sp_ret].
  apply sp_bind; [apply sp_get|intros t]. destruct q as [x|]; [|apply sp_append].
  destruct (dget x (nodes t)) as [pn|]; [|apply sp_append]. destruct (cen pn); [apply sp_new_relationship|apply sp_ret].
Qed.

Lemma sp_remove_parent : forall n q, sp (remove_parent n q).
Proof.
  intros n q t HW. unfold remove_parent. apply sp_bind_wp; [apply sp_live; auto|]. intros nd t1 es El HW1.
  destruct (pen nd && mem q (par nd)) eqn:E; [|apply sp_ret; auto]. apply andb_true_iff in E. destruct E as [_ E]. apply mem_In in E.
  assert (N : (q, n) <> (p, c)).
  { intros X. inv X. unfold live in El. destruct (dget c (nodes t)) eqn:Ed; inv El. destruct HW1 as (_ & B & _). apply B. unfold parents. rewrite Ed. auto. }
  apply sp_bind_wp.
  - apply (sp_upd n (fun nd => set_par (remove1 q (par nd)) nd)); auto. intros nd0. simpl. apply remove1_In.
  - intros u t2 es2 _ HW2. apply sp_break; auto.
Qed.

Lemma sp_drop : forall f n q i b, sp (drop_other_parents f n q i b).
Proof.
  induction f; intros n q i b; cbn [drop_other_parents]; (apply sp_bind; [apply sp_live|intros nd]);
    destruct (nth_error (par nd) i); try apply sp_ret.
  - apply sp_const. intros. eexists _, _. reflexivity.
  - destruct (String.eqb i0 q); auto. apply sp_bind; [apply sp_remove_parent|intros _; auto].
Qed.

Lemma sp_loop : forall n t l, waits t -> (n = c -> ~ In p l) ->
  wp (for_each l (fun q => break_relationship q n)) (fun t' _ _ => waits t') t.
Proof.
  intros n t l. revert t. induction l as [|q l IH]; intros t HW Hl; cbn [for_each]; [apply sp_ret; auto|].
  apply sp_bind_wp.
  - apply sp_break; auto. intros X. inv X. apply Hl; [auto|left; auto].
  - intros u t' es _ HW'. apply IH; auto. intros -> Hi. apply Hl; [auto|right; auto].
Qed.

Lemma not_reported : forall t, waits t -> ~ In p (get_parents t c).
Proof.
  intros t (_ & B & _) Hi. apply B. unfold get_parents in Hi. unfold parents. destruct (dget c (nodes t)); auto.
  destruct (pen n); [|destruct Hi]. apply filter_In in Hi. tauto.
Qed.

Lemma sp_set_parent : forall n q, sp (set_parent n q).
Proof.
  intros n q. unfold set_parent. apply sp_bind; [apply sp_live|intros nd]. destruct (_ && _); [|apply sp_ret].
  intros t HW. apply wp_get.
  assert (HL : wp (for_each (get_parents t n) (fun q => break_relationship q n) ;; pend_append (q, n)) (fun t' _ _ => waits t') t).
  { apply sp_bind_wp; [apply sp_loop; auto; intros ->; apply not_reported; auto|]. intros u t' es _ HW'. apply sp_append; auto. }
  destruct q as [x|]; auto. destruct (dget x (nodes t)) as [pn|]; auto. destruct (cen pn); [|apply sp_ret; auto].
  revert t HW HL. intros t HW _. revert t HW. match goal with |- forall t, waits t -> wp ?m _ _ => fold (sp m) end.
  apply sp_bind; [apply sp_drop|intros b]. destruct (truthy x && negb b); [apply sp_add_parent|apply sp_ret].
Qed.

Lemma sp_modify_node : forall n, sp (modify_node n).
Proof. intros. unfold modify_node. apply sp_bind; [apply sp_get|intros t]. destruct (_ && _); [apply sp_callback|apply sp_ret]. Qed.

Lemma sp_children : forall n t l, waits t -> (n = p -> ~ In c l) ->
  wp (for_each l (fun d => break_relationship n d)) (fun t' _ _ => waits t') t.
Proof.
  intros n t l. revert t. induction l as [|q l IH]; intros t HW Hl; cbn [for_each]; [apply sp_ret; auto|].
  apply sp_bind_wp.
  - apply sp_break; auto. intros X. inv X. apply Hl; [auto|left; auto].
  - intros u t' es _ HW'. apply IH; auto. intros -> Hi. apply Hl; [auto|right; auto].
Qed.

Lemma ordinary_waits : forall o, (match o with AddNode _ _ _ | DelNode _ _ => False | _ => True end) -> o <> BreakRelationship p c -> sp (run_op o).
Proof.
  intros o Hk Hb. destruct o; try (destruct Hk; fail); cbn [run_op].
  - apply sp_modify_node.
  - unfold set_node_data. apply sp_bind; [apply sp_live|intros _]. apply sp_bind; [apply sp_upd; auto|intros _]. apply sp_modify_node.
  - unfold refresh_all. apply sp_bind; [apply sp_get|intros t]. apply sp_for_each. intros. apply sp_modify_node.
  - apply sp_new_relationship.
  - intros t HW. apply sp_break; auto. congruence.
  - apply sp_add_parent.
  - apply sp_set_parent.
  - apply sp_remove_parent.
  - unfold add_child. apply sp_bind; [apply sp_live|intros nd]. destruct (_ && _); [|apply sp_ret]. destruct (mem c0 (chi nd)); [apply sp_ret|].
    apply sp_bind; [apply sp_get|intros t]. destruct (dget c0 (nodes t)) as [cn|]; [|apply sp_append]. destruct (pen cn); [|apply sp_ret].
    apply sp_bind; [apply sp_upd; auto|intros _; apply sp_new_relationship].
  - unfold set_parents_enabled. apply sp_bind; [apply sp_live|intros nd]. apply sp_bind; [apply sp_get|intros t].
    apply sp_bind; [|intros _; apply sp_upd; auto]. destruct b; [apply sp_ret|apply sp_for_each; intros; apply sp_remove_parent].
  - unfold set_children_enabled. apply sp_bind; [apply sp_live|intros nd]. intros t HW. apply wp_get.
    apply sp_bind_wp; [|intros u t' es _ HW'; apply sp_upd; auto].
    destruct b; [apply sp_ret; auto|]. apply sp_children; auto. intros -> Hi. destruct HW as (A & _ & _).
    unfold get_children in Hi. destruct (dget p (nodes t)) eqn:Ed; [|destruct Hi]. destruct (cen n); [|destruct Hi].
    apply filter_In in Hi. destruct Hi as [_ Hi]. unfold has_node at 1 in A. unfold dmem in A. rewrite Ed, Hi in A. discriminate.
  - unfold move_node. apply sp_bind; [apply sp_get|intros t]. destruct (has_node t n); [apply sp_set_parent|apply sp_ret].
  - unfold tree_add_parent. apply sp_bind; [apply sp_get|intros t]. destruct (has_node t n); [apply sp_add_parent|apply sp_ret].
Qed.

(** Deletions. *)
Definition wanes (t t' : mtree) : Prop := NoDup (dkeys (nodes t)) ->
  NoDup (dkeys (nodes t')) /\
  (forall x, has_node t' x = true -> has_node t x = true) /\
  (has_node t' p = has_node t p -> has_node t' c = has_node t c -> In pc (pend t) -> In pc (pend t')).
Definition wn {A} (m : M A) : Prop := forall t, wp m (fun t' _ r => forall a, r = Ok a -> wanes t t') t.

Lemma wanes_refl : forall t, wanes t t.
Proof. split; auto. Qed.
Lemma wanes_trans : forall a b d, wanes a b -> wanes b d -> wanes a d.
Proof.
  intros a b d HA HB ND. destruct (HA ND) as (ND1 & A1 & A2). destruct (HB ND1) as (ND2 & B1 & B2).
  split; auto. split; auto. intros H1 H2 Hi.
  assert (S : forall x, has_node d x = has_node a x -> has_node b x = has_node a x).
  { intros x Hx. destruct (has_node a x) eqn:E.
    - apply B1. auto.
    - destruct (has_node b x) eqn:Eb; auto. apply A1 in Eb. congruence. }
  apply B2; [rewrite (S p); auto|rewrite (S c); auto|]. apply A2; auto.
Qed.

Lemma wn_bind : forall A B (m : M A) (k : A -> M B), wn m -> (forall a, wn (k a)) -> wn (bind m k).
Proof.
  intros A B m k Hm Hk t. apply wp_bind. eapply wp_conseq; [|apply Hm]. intros t1 e1 [a|e|] H1; [|discriminate|discriminate].
  eapply wp_conseq; [|apply Hk]. simpl. intros t2 e2 r H2 b E. eapply wanes_trans; eauto.
Qed.
Lemma wn_same : forall A (m : M A), (forall t, wp m (fun t' _ _ => dkeys (nodes t') = dkeys (nodes t) /\ pend t' = pend t) t) -> wn m.
Proof.
  intros A m H t. eapply wp_conseq; [|apply H]. intros t' es r [K E] a _ ND. split; [rewrite K; auto|]. split.
  - intros x. rewrite (has_node_keys t' t) by auto. auto.
  - intros. rewrite E. auto.
Qed.
Lemma wn_for_each : forall X (l : list X) body, (forall x, wn (body x)) -> wn (for_each l body).
Proof. induction l; simpl; intros; [apply wn_same; intros; unfold wp; simpl; auto|apply wn_bind; auto]. Qed.

Lemma wn_node_at : forall n, wn (node_at n).
Proof. intros. apply wn_same. intros. unfold wp, node_at. destruct (dget n (nodes t)); simpl; auto. Qed.
Lemma wn_destroy : forall q d, wn (destroy_relationship q d).
Proof.
  intros. unfold destroy_relationship. apply wn_bind; [apply wn_node_at|intros _]. apply wn_bind; [apply wn_node_at|intros _].
  apply wn_same. intros. unfold wp. simpl. rewrite !dkeys_upd, !pend_upd. auto.
Qed.
Lemma wn_callback : forall k n, wn (callback k n).
Proof. intros. apply wn_same. intros. unfold wp. simpl. auto. Qed.
Lemma wn_ret : forall A (a : A), wn (ret a).
Proof. intros. apply wn_same. intros. unfold wp. simpl. auto. Qed.
Lemma wn_rootc : forall f, wn (modify (fun t => set_rootc (f t) t)).
Proof. intros. apply wn_same. intros. unfold wp. simpl. auto. Qed.

Lemma wn_remove_parents : forall f n i, wn (remove_parents f n i).
Proof.
  induction f; intros n i; cbn [remove_parents]; (apply wn_bind; [apply wn_node_at|intros nd]);
    destruct (nth_error (par nd) i); try apply wn_ret.
  - intros t. unfold wp. simpl. discriminate.
  - apply wn_bind; [apply wn_destroy|intros _]. apply wn_bind; [apply wn_callback|intros _; auto].
Qed.

Lemma wn_remove_child : forall n d, wn (remove_child n d).
Proof.
  intros. unfold remove_child. apply wn_bind; [apply wn_destroy|intros _]. apply wn_bind; [apply wn_callback|intros _].
  apply wn_bind; [apply wn_node_at|intros cn]. destruct (par cn); [apply wn_rootc|apply wn_ret].
Qed.

Lemma wn_bind_at : forall A B (m : M A) (k : A -> M B) (P : mtree -> Prop) t0 t, wn m -> wanes t0 t ->
  (forall a t', wanes t0 t' -> wp (k a) (fun t'' _ r => forall b, r = Ok b -> P t'') t') ->
  wp (bind m k) (fun t'' _ r => forall b, r = Ok b -> P t'') t.
Proof.
  intros A B m k P t0 t Hm H0 Hk. apply wp_bind. eapply wp_conseq; [|apply Hm].
  intros t1 e1 [a|e|] H1; [|discriminate|discriminate]. apply Hk. eapply wanes_trans; eauto.
Qed.

Lemma wn_remove : forall f n b, wn (remove_node f n b).
Proof.
  induction f as [|f IH]; intros n b t; cbn [remove_node]; apply wp_get;
    (destruct (negb (has_node t n)) eqn:Hn; [apply wn_ret|]); apply negb_false_iff in Hn;
    set (t1 := set_pend (filter (fun r => negb (mentions n r)) (pend t)) t);
    unfold wp; rewrite bind_modify; fold t1;
    match goal with |- forall a, snd (?m t1) = Ok a -> wanes t _ => change (wp m (fun t' _ r => forall a, r = Ok a -> wanes t t') t1) end;
    (apply wn_bind_at with (t0 := t1); [apply wn_node_at|apply wanes_refl|intros nd t2 H2]);
    (apply wn_bind_at with (t0 := t1); [apply wn_remove_parents|auto|intros _ t3 H3]);
    (apply wn_bind_at with (t0 := t1); [apply wn_node_at|auto|intros nd' t4 H4]).
  - unfold wp. simpl. discriminate.
  - apply wn_bind_at with (t0 := t1); [apply wn_for_each; intros x; destruct b; [apply IH|apply wn_remove_child]|auto|intros _ t5 H5].
    apply wn_bind_at with (t0 := t1); [apply wn_rootc|auto|intros _ t6 H6].
    apply wn_bind_at with (t0 := t1); [apply wn_node_at|auto|intros nd2 t7 HW].
    unfold wp. simpl. intros _ _ ND. destruct (HW ND) as (ND7 & W1 & W2). set (t' := set_nodes (ddel n (nodes t7)) t7).
    assert (HD : forall x, has_node t' x = true -> has_node t7 x = true /\ x <> n).
    { intros x Hx. unfold has_node, dmem in *. cbn [t' set_nodes nodes] in Hx. deq x n.
      - subst. rewrite dget_ddel, eqb_refl in Hx by auto. discriminate.
      - rewrite dget_ddel_other in Hx by auto. auto. }
    split; [apply ddel_NoDup; auto|]. split.
    + intros x Hx. apply HD in Hx. apply W1. tauto.
    + intros H1 H7 Hi.
      assert (S : forall x, has_node t' x = has_node t x -> x <> n).
      { intros x Hx ->. rewrite Hn in Hx. apply HD in Hx. tauto. }
      assert (S2 : forall x, has_node t' x = has_node t x -> has_node t7 x = has_node t1 x).
      { intros x Hx. change (has_node t1 x) with (has_node t x). destruct (has_node t x) eqn:E.
        - apply HD in Hx. tauto.
        - destruct (has_node t7 x) eqn:E2; auto. apply W1 in E2. change (has_node t1 x) with (has_node t x) in E2. congruence. }
      change (pend t') with (pend t7). apply W2; auto. unfold t1. simpl. apply filter_In. split; auto. unfold mentions. simpl.
      rewrite (proj2 (eqb_neq p n)), (proj2 (eqb_neq c n)); auto.
Qed.

(** One call. *)
Lemma call_waits : forall s o t, good s t -> fresh_add o -> (s = true -> unlisted_add t o) -> waits t ->
  o <> BreakRelationship p c -> (match o with DelNode _ _ => outcome o t = Ok tt | _ => True end) ->
  has_node (after o t) p = has_node t p -> has_node (after o t) c = has_node t c -> waits (after o t).
Proof.
  intros s o t G Hf Hu HW Nb Ho H1 H2.
  assert (D : has_node (after o t) p && has_node (after o t) c = false) by (rewrite H1, H2; apply HW).
  assert (O : ok (after o t)).
  { destruct (run_op_good s o t G Hf Hu) as [A _]. apply (g_ok _ _ _ A). }
  assert (HP : ~ In p (parents (after o t) c)).
  { intros Hi. assert (Hc : has_node (after o t) c = true) by (eapply In_parents_live; eauto).
    destruct (ok_sym _ O _ _ Hi) as [Hp _]. rewrite Hp, Hc in D. discriminate. }
  destruct HW as (A & B & C). split; auto. split; auto.
  assert (OW : (match o with AddNode _ _ _ | DelNode _ _ => False | _ => True end) -> In pc (pend (after o t))).
  { intros Hk. pose proof (ordinary_waits o Hk Nb t (conj A (conj B C))) as X. unfold wp in X. apply X. }
  destruct o; try exact (OW I).
  - (* AddNode *)
    destruct (has_node t n) eqn:Hn.
    { unfold after. cbn [run_op]. unfold add_node. rewrite bind_get, Hn. auto. }
    destruct (add_node_spec s n nd parent t G Hn Hf) as (t3 & es & r & tg & E & G3 & _ & Gr & En & PD & _).
    { intros Es. apply Hu; auto. }
    unfold after in *. cbn [run_op] in *. rewrite E in *. cbn [fst] in *.
    specialize (PD (Some p, c)). rewrite merge_pending_In in PD. specialize (PD (or_introl C)).
    assert (K : forall x, has_node t3 x = String.eqb x n || has_node t x).
    { intros x. rewrite (has_node_keys t3 (put n nd t)) by (rewrite En; apply (grown_keys _ _ _ Gr)).
      unfold put, has_node, dmem. simpl. deq x n; [subst; rewrite dget_dset_same; auto|rewrite dget_dset_other; auto]. }
    assert (N1 : p <> n). { intros ->. rewrite K, eqb_refl in H1. simpl in H1. congruence. }
    assert (N2 : c <> n). { intros ->. rewrite K, eqb_refl in H2. simpl in H2. congruence. }
    unfold applicable in PD. cbn [fst snd] in PD. rewrite (proj2 (eqb_neq c n)), (proj2 (eqb_neq p n)) in PD by auto. exact PD.
  - unfold after, outcome in *. cbn [run_op] in *. unfold del_node in *. rewrite bind_get in *.

    pose proof (wn_remove (remove_budget t) n recursive t) as HX. unfold wp in HX. destruct (HX tt Ho) as (_ & _ & X); [apply (ok_keys _ (g_ok _ _ _ G))|auto].
Qed.

(** Adding the missing node. *)
Lemma add_builds : forall s n nd po t, good s t -> app_node n nd -> (s = true -> unlisted_add t (AddNode n nd po)) ->
  In pc (pend t) -> has_node t n = false -> (n = c /\ has_node t p = true \/ n = p /\ has_node t c = true) ->
  let t' := after (AddNode n nd po) t in In p (parents t' c) \/ anc t' c p.
Proof.
  intros s n nd po t G An Hu Hi Hn Hcase.
  destruct (add_node_spec s n nd po t G Hn An) as (t3 & es & r & tg & E & G3 & _ & Gr & En & PD & _).
  { intros Es. apply Hu; auto. }
  unfold after. cbn [run_op]. rewrite E. cbn [fst].
  specialize (PD (Some p, c)). rewrite merge_pending_In in PD. specialize (PD (or_introl Hi)).
  assert (K : forall x, has_node (put n nd t) x = String.eqb x n || has_node t x).
  { intros x. unfold put, has_node, dmem. simpl. deq x n; [subst; rewrite dget_dset_same; auto|rewrite dget_dset_other; auto]. }
  assert (Ea : applicable (put n nd t) n (Some p, c) = true).
  { unfold applicable. cbn [fst snd opt_in]. destruct Hcase as [[-> Hp]|[-> Hc]].
    - rewrite eqb_refl, (K p), Hp, orb_true_r. auto.
    - rewrite eqb_refl, (K c), Hc, orb_true_r. cbn [andb]. apply orb_true_r. }
  rewrite Ea in PD. apply (PD p); auto.
Qed.
End Pending.

Lemma declared : forall t p c o, p <> "" -> c <> "" -> p <> c -> has_node t p && has_node t c = false ->
  o = NewRelationship p c \/ (o = AddChild p c /\ children_enabled t p = true /\ ~ In c (childs t p)) \/
  (o = AddParent c (Some p) /\ parents_enabled t c = true /\ ~ In p (parents t c)) ->
  outcome o t = Ok tt /\ In (Some p, c) (pend (after o t)).
Proof.
  intros t p c o Np Nc Npc HL [->|[(-> & Hc & Hi)|(-> & Hc & Hi)]].
  - unfold outcome, after. cbn [run_op]. rewrite new_relationship_dead by auto. split; auto. simpl. apply in_app_iff. right. left; auto.
  - unfold outcome, after. cbn [run_op]. unfold add_child. unfold children_enabled in Hc. unfold childs in Hi.
    destruct (dget p (nodes t)) as [nd|] eqn:E; [|discriminate]. rewrite (bind_live _ p nd) by auto.
    rewrite Hc, (proj2 (eqb_neq c p)) by auto. cbn [andb negb]. destruct (mem_spec c (chi nd)); [tauto|]. rewrite bind_get.
    assert (Hp : has_node t p = true) by (unfold has_node, dmem; rewrite E; auto). rewrite Hp in HL. cbn [andb] in HL.
    rewrite (has_node_none _ _ HL). simpl. split; auto. apply in_app_iff. right. left; auto.
  - unfold parents_enabled in Hc. unfold parents in Hi. destruct (dget c (nodes t)) as [nd|] eqn:E; [|discriminate].
    assert (Hlc : has_node t c = true) by (unfold has_node, dmem; rewrite E; auto). rewrite Hlc, andb_true_r in HL.
    assert (Hm : mem p (par nd) = false) by (destruct (mem_spec p (par nd)); tauto).
    unfold outcome, after. cbn [run_op].
    unfold add_parent. rewrite (bind_live _ c nd) by auto. cbn [oid_eqb]. rewrite (proj2 (eqb_neq p c)), Hc, Hm by auto. cbn [andb negb].
    rewrite bind_get, (has_node_none _ _ HL). simpl. split; auto. apply in_app_iff. right. left; auto.
Qed.

(** From the declaration to the addition. *)
Lemma during_waits : forall p c, p <> "" -> c <> "" -> p <> c -> forall t t', during p c t t' -> good false t -> waits p c t ->
  good false t' /\ waits p c t' /\ has_node t' p = has_node t p /\ has_node t' c = has_node t c.
Proof.
  intros p c N1 N2 N3 t t' H G W. induction H as [|t1 o H IH (Hf & Nb & Ho & H1 & H2)]; auto.
  destruct IH as (G1 & W1 & K1 & K2). split; [|split; [|split; congruence]].
  - apply (run_op_good false o t1 G1 Hf). discriminate.
  - eapply (call_waits p c N1 N2 N3 false); eauto. discriminate.
Qed.

Lemma waits_start : forall t, ok t -> forall p c, has_node t p && has_node t c = false -> In (Some p, c) (pend t) -> waits p c t.
Proof.
  intros t O p c D Hi. split; auto. split; auto. intros Hp.
  assert (Hc : has_node t c = true) by (eapply In_parents_live; eauto).
  destruct (ok_sym _ O _ _ Hp) as [Hl _]. rewrite Hl, Hc in D. discriminate.
Qed.

Lemma kept : forall t, reachx any_fresh t -> forall p c, p <> "" -> c <> "" -> has_node t p && has_node t c = false ->
  In (Some p, c) (pend t) -> forall t', during p c t t' -> In (Some p, c) (pend t').
Proof.
  intros t H p c N1 N2 D Hi t' Hd. pose proof (reachx_good _ H) as G. pose proof (g_ok _ _ _ G) as O.
  destruct (during_waits p c N1 N2 (ok_pend _ O _ _ Hi) t t' Hd G) as (_ & W & _); [apply waits_start; auto|apply W].
Qed.

Lemma built : forall t, reachx any_fresh t -> forall p c, p <> "" -> c <> "" -> has_node t p && has_node t c = false ->
  In (Some p, c) (pend t) -> forall t', during p c t t' -> forall n nd po, app_node n nd ->
  n = c /\ has_node t c = false /\ has_node t p = true \/ n = p /\ has_node t p = false /\ has_node t c = true ->
  let t'' := after (AddNode n nd po) t' in In p (parents t'' c) \/ anc t'' c p.
Proof.
  intros t H p c N1 N2 D Hi t' Hd n nd po An Hn. pose proof (reachx_good _ H) as G. pose proof (g_ok _ _ _ G) as O.
  destruct (during_waits p c N1 N2 (ok_pend _ O _ _ Hi) t t' Hd G) as (G' & W & K1 & K2); [apply waits_start; auto|].
  apply (add_builds p c false); auto; try discriminate.
  - apply W.
  - destruct Hn as [(-> & A & _)|(-> & A & _)]; congruence.
  - destruct Hn as [(-> & _ & A)|(-> & _ & A)]; [left|right]; split; congruence.
Qed.
