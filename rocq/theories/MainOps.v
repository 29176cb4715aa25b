(** The invariant is preserved by every call of the application. *)
From Verif Require Import Base BaseFacts MainTree Spec MainFacts MainInv.
Open Scope m_scope.

Section Strict.
Variable strict : bool.
Local Notation good := (good strict).
Local Notation keeps := (keeps strict).
Local Notation keeps_post := (keeps_post strict).

Lemma wp_conseq : forall A (m : M A) (Q Q' : mtree -> list event -> res A -> Prop) t,
  (forall t' es r, Q t' es r -> Q' t' es r) -> wp m Q t -> wp m Q' t.
Proof. unfold wp; auto. Qed.

Lemma wp_bind_any : forall A B (m : M A) (k : A -> M B) (Q1 : mtree -> list event -> res A -> Prop)
    (Q : mtree -> list event -> res B -> Prop) t,
  wp m Q1 t ->
  (forall t1 e1 a, Q1 t1 e1 (Ok a) -> wp (k a) (fun t2 e2 r => Q t2 (e1 ++ e2) r) t1) ->
  (forall t1 e1 e, Q1 t1 e1 (Err e) -> Q t1 e1 (Err e)) ->
  (forall t1 e1, Q1 t1 e1 Diverge -> Q t1 e1 Diverge) ->
  wp (bind m k) Q t.
Proof.
  intros A B m k Q1 Q t Hm Hk He Hd. apply wp_bind. unfold wp in *.
  destruct (m t) as [[t1 e1] [a|e|]]; simpl in *; auto.
Qed.

Lemma is_circular_state : forall p c t, exists r, is_circular p c t = (t, [], r).
Proof. intros. unfold is_circular. destruct (loop _ _ _); eauto. Qed.

(** How much the lists of parents can grow. *)
Definition grows {A} (k : nat) (m : M A) : Prop := forall t,
  wp m (fun t' _ _ => forall x, length (parents t' x) <= k + length (parents t x)) t.

Lemma grows_weaken : forall A (m : M A) j k, j <= k -> grows j m -> grows k m.
Proof. intros. intro t. eapply wp_conseq; [|apply H0]. simpl. intros. specialize (H1 x). lia. Qed.

Lemma grows_bind : forall A B (m : M A) (k : A -> M B) i j,
  grows i m -> (forall a, grows j (k a)) -> grows (i + j) (bind m k).
Proof.
  intros A B m k i j Hm Hk t. eapply wp_bind_any; [apply Hm|..]; simpl; intros.
  - eapply wp_conseq; [|apply Hk]. simpl. intros. specialize (H0 x). specialize (H x). lia.
  - specialize (H x). lia.
  - specialize (H x). lia.
Qed.

Lemma grows_bind0 : forall A B (m : M A) (k : A -> M B) j,
  grows 0 m -> (forall a, grows j (k a)) -> grows j (bind m k).
Proof. intros. apply (grows_bind _ _ m k 0 j); auto. Qed.

Lemma grows_bind1 : forall A B (m : M A) (k : A -> M B) j,
  grows j m -> (forall a, grows 0 (k a)) -> grows j (bind m k).
Proof. intros. rewrite <- (Nat.add_0_r j). apply (grows_bind _ _ m k j 0); auto. Qed.

Lemma grows_const : forall A (m : M A), (forall t, exists es r, m t = (t, es, r)) -> grows 0 m.
Proof. intros A m H t. destruct (H t) as (es & r & E). eapply wp_intro; eauto. Qed.

Lemma grows_ret : forall A (a : A), grows 0 (ret a).
Proof. intros. apply grows_const. intros. do 2 eexists. reflexivity. Qed.

Lemma grows_raise : forall A e, grows 0 (@raise A e).
Proof. intros. apply grows_const. intros. do 2 eexists. reflexivity. Qed.

Lemma grows_get : grows 0 get.
Proof. intros. apply grows_const. intros. do 2 eexists. reflexivity. Qed.

Lemma grows_callback : forall k n, grows 0 (callback k n).
Proof. intros. apply grows_const. intros. do 2 eexists. reflexivity. Qed.

Lemma grows_is_circular : forall p c, grows 0 (is_circular p c).
Proof. intros. apply grows_const. intros. destruct (is_circular_state p c t) as [r E]. eauto. Qed.

Lemma grows_same_nodes : forall f, (forall t, nodes (f t) = nodes t) -> grows 0 (modify f).
Proof.
  intros f H t. eapply wp_intro; [reflexivity|]. simpl. intros. unfold parents. rewrite H. auto.
Qed.

Lemma remove1_length_le : forall x l, length (remove1 x l) <= length l.
Proof. induction l; simpl; auto. destruct (String.eqb x a); simpl; lia. Qed.

Lemma grows_destroy : forall p c, grows 0 (destroy_relationship p c).
Proof.
  intros p c t. destruct (has_node t p && has_node t c) eqn:E.
  - apply andb_true_iff in E. destruct E. eapply wp_intro; [apply destroy_eq; auto|]. simpl. intros.
    rewrite parents_del_edge. destruct (String.eqb x c); auto. apply remove1_length_le.
  - eapply wp_intro; [apply destroy_err; auto|]. auto.
Qed.

Lemma grows_create : forall p c, grows 1 (create_relationship p c).
Proof.
  intros p c t. destruct (has_node t p && has_node t c) eqn:E.
  - apply andb_true_iff in E. destruct E. eapply wp_intro; [apply create_eq; auto|]. simpl. intros.
    rewrite parents_add_edge by auto. destruct (String.eqb x c && _); [rewrite app_length; simpl; lia|auto].
  - eapply wp_intro; [|intros; simpl; apply Nat.le_succ_diag_r].
    unfold create_relationship. unfold has_node, dmem in E.
    destruct (dget p (nodes t)) eqn:Ep.
    + erewrite bind_Ok_nil by (apply node_at_Some; eauto).
      destruct (dget c (nodes t)) eqn:Ec; [discriminate|]. erewrite bind_Err by (apply node_at_None; auto). reflexivity.
    + erewrite bind_Err by (apply node_at_None; auto). reflexivity.
Qed.

Ltac grow :=
  repeat first
    [ apply grows_ret | apply grows_raise | apply grows_get | apply grows_callback
    | apply grows_is_circular | apply grows_destroy | apply grows_create
    | apply grows_same_nodes; intros; reflexivity ].

Lemma grows_new_relationship : forall p c, grows 1 (new_relationship p c).
Proof.
  intros. unfold new_relationship. apply grows_bind0; [grow|]. intros _.
  destruct (_ || _); [eapply grows_weaken with (j := 0); [lia|grow]|].
  apply grows_bind0; [grow|]. intros t.
  destruct (_ || _); [eapply grows_weaken with (j := 0); [lia|apply grows_same_nodes; auto]|].
  apply grows_bind0; [grow|]. intros circ. destruct circ.
  - eapply grows_weaken with (j := 0); [lia|]. apply grows_bind0; [grow|]. intros; grow.
  - apply grows_bind1; [grow|]. intros. apply grows_bind0; [grow|]. intros. apply grows_bind0; [grow|].
    intros; grow.
Qed.

Lemma grows_root_add_child : forall c, grows 1 (root_add_child c).
Proof.
  intros. unfold root_add_child.
  destruct (String.eqb _ _); [eapply grows_weaken with (j := 0); [lia|grow]|].
  apply grows_bind0; [grow|]. intros t.
  destruct (mem _ _); [eapply grows_weaken with (j := 0); [lia|grow]|].
  destruct (dget c (nodes t)) as [cn|].
  - destruct (pen cn); [|eapply grows_weaken with (j := 0); [lia|grow]].
    apply grows_bind0; [grow|]. intros. apply grows_new_relationship.
  - eapply grows_weaken with (j := 0); [lia|apply grows_same_nodes; auto].
Qed.

Lemma grows_break_relationship : forall p c, grows 1 (break_relationship p c).
Proof.
  intros. unfold break_relationship. apply grows_bind0; [grow|]. intros _.
  destruct (_ || _); [eapply grows_weaken with (j := 0); [lia|grow]|].
  apply grows_bind0; [grow|]. intros t.
  destruct (_ || _); [eapply grows_weaken with (j := 0); [lia|grow]|].
  apply grows_bind0; [grow|]. intros _. apply grows_bind0; [grow|]. intros t1.
  apply grows_bind1; [|intros; apply grows_bind0; [grow|intros; grow]].
  destruct (get_parents t1 c); [apply grows_root_add_child|eapply grows_weaken with (j := 0); [lia|grow]].
Qed.

Lemma remove_parent_len : forall n p t,
  wp (remove_parent n p) (fun t' _ _ => length (parents t' n) <= length (parents t n)) t.
Proof.
  intros n p t. unfold remove_parent, live. destruct (dget n (nodes t)) as [nd|] eqn:E.
  - eapply wp_Ok_nil; [rewrite E; reflexivity|]. destruct (pen nd && mem p (par nd)) eqn:Eg.
    + apply wp_modify. eapply wp_conseq; [|apply grows_break_relationship]. simpl. intros. specialize (H n).
      apply andb_true_iff in Eg. destruct Eg as [_ Eg]. apply mem_In in Eg.
      eapply Nat.le_trans; [apply H|]. unfold parents at 1. rewrite dget_upd, eqb_refl, E. simpl.
      unfold parents. rewrite E. rewrite <- (remove1_length p (par nd)) by auto. auto.
    + apply wp_ret. auto.
  - unfold wp. erewrite bind_Err; [|rewrite E; reflexivity]. auto.
Qed.

Lemma wp_and : forall A (m : M A) (P Q : mtree -> list event -> res A -> Prop) t,
  wp m P t -> wp m Q t -> wp m (fun t' es r => P t' es r /\ Q t' es r) t.
Proof. unfold wp; auto. Qed.

Lemma wp_live : forall (Q : mtree -> list event -> res unit -> Prop) n t (k : node -> M unit),
  (forall nd, dget n (nodes t) = Some nd -> wp (k nd) Q t) ->
  (dget n (nodes t) = None -> Q t [] (Err ValueError)) ->
  wp (bind (live n) k) Q t.
Proof.
  intros. unfold wp. unfold live. destruct (dget n (nodes t)) as [nd|] eqn:E.
  - erewrite bind_Ok_nil; [|rewrite E; reflexivity]. apply H; auto.
  - erewrite bind_Err; [|rewrite E; reflexivity]. apply H0; auto.
Qed.

Lemma drop_other_parents_keeps : forall fuel n p i flag t, good t -> length (parents t n) <= i + fuel ->
  wp (drop_other_parents fuel n p i flag) keeps_post t.
Proof.
  induction fuel; intros n p i flag t H Hl.
  - simpl. apply keeps_bind_wp; [apply keeps_live; auto|]. intros nd t1 e1 E _.
    unfold live in E. destruct (dget n (nodes t)) as [nd'|] eqn:En; inv E.
    unfold parents in Hl. rewrite En in Hl.
    assert (Hnone : nth_error (par nd) i = None) by (apply nth_error_None; lia).
    rewrite Hnone. apply keeps_ret; auto.
  - simpl. apply keeps_bind_wp; [apply keeps_live; auto|]. intros nd t1 e1 E _.
    unfold live in E. destruct (dget n (nodes t)) as [nd'|] eqn:En; inv E.
    destruct (nth_error (par nd) i) as [q|]; [|apply keeps_ret; auto].
    destruct (String.eqb q p).
    + apply IHfuel; auto. lia.
    + apply keeps_bind_wp; [apply remove_parent_keeps; auto|]. intros a t2 e2 E2 G2.
      apply IHfuel; auto. pose proof (remove_parent_len n q t1) as HL. unfold wp in HL. rewrite E2 in HL.
      simpl in HL. lia.
Qed.

Lemma set_parent_keeps : forall n p, keeps (set_parent n p).
Proof.
  intros n p t H. unfold set_parent. apply wp_live; [|intros; kp]. intros nd En.
  destruct (negb (oid_eqb p n) && pen nd) eqn:Eg; [|apply keeps_ret; auto].
  apply andb_true_iff in Eg. destruct Eg as [Eg _]. pose proof (oid_eqb_neq _ _ Eg) as Hne.
  apply wp_get. destruct p as [x|].
  - destruct (dget x (nodes t)) as [pn|].
    + destruct (cen pn); [|apply keeps_ret; auto].
      apply keeps_bind_wp; [apply drop_other_parents_keeps; auto; unfold parents; rewrite En; lia|].
      intros flag t1 e1 _ G1. destruct (truthy x && negb flag); [apply add_parent_keeps|apply keeps_ret]; auto.
    + apply keeps_bind_wp; [apply keeps_for_each; auto; intros; apply break_relationship_keeps|].
      intros. apply keeps_pend_append; auto.
  - apply keeps_bind_wp; [apply keeps_for_each; auto; intros; apply break_relationship_keeps|].
    intros. apply keeps_pend_append; auto.
Qed.

(** Adding a node. *)
Lemma create_keeps_any : forall t p c, good t -> ~ anc t c p -> wp (create_relationship p c) keeps_post t.
Proof.
  intros t p c H Ha. destruct (has_node t p && has_node t c) eqn:E.
  - apply andb_true_iff in E. destruct E. apply create_keeps; auto.
  - unfold create_relationship. unfold has_node, dmem in E. destruct (dget p (nodes t)) eqn:Ep.
    + eapply wp_Ok_nil; [apply node_at_Some; eauto|]. destruct (dget c (nodes t)) eqn:Ec; [discriminate|].
      unfold wp. erewrite bind_Err by (apply node_at_None; auto). simpl. kp.
    + unfold wp. erewrite bind_Err by (apply node_at_None; auto). simpl. kp.
Qed.

Lemma is_circular_keeps : forall p c, keeps (is_circular p c).
Proof.
  intros p c t H. destruct (circ_cases strict t p c H) as [[E _]|[E _]]; eapply keeps_eq; eauto; discriminate.
Qed.

Lemma circ_then : forall B p c (k : bool -> M B) t, good t ->
  (anc t c p -> wp (k true) keeps_post t) -> (~ anc t c p -> wp (k false) keeps_post t) ->
  wp (bind (is_circular p c) k) keeps_post t.
Proof.
  intros B p c k t H H1 H2. destruct (circ_cases strict t p c H) as [[E A]|[E A]]; eapply wp_Ok_nil; eauto.
Qed.

Lemma build_pending_keeps : forall n r a, keeps (build_pending n r a).
Proof.
  intros n r a t H. unfold build_pending. apply wp_get.
  apply keeps_bind_wp.
  - destruct (String.eqb (snd r) n && opt_in t (fst r)); [|apply keeps_ret; auto].
    destruct (fst r) as [rp|]; [|apply keeps_ret; auto].
    apply circ_then; auto; intros Ha.
    + apply keeps_bind; [apply keeps_ret| |auto].
      intros. apply keeps_bind; [apply pend_remove_keeps|intros; apply keeps_ret].
    + apply keeps_bind_wp.
      * apply keeps_bind_wp; [apply create_keeps_any; auto|]. intros. apply keeps_ret; auto.
      * intros. apply keeps_bind; auto; [apply pend_remove_keeps|intros; apply keeps_ret].
  - intros a1 t1 e1 _ G1. apply wp_get. destruct (_ && _); [|apply keeps_ret; auto].
    apply circ_then; auto; intros Ha.
    + apply keeps_bind; auto; [apply keeps_ret|]. intros.
      apply keeps_bind; [apply pend_remove_keeps|intros; apply keeps_ret].
    + apply keeps_bind_wp; [apply create_keeps_any; auto|]. intros.
      apply keeps_bind; auto; [apply pend_remove_keeps|intros; apply keeps_ret].
Qed.

Lemma build_pendings_keeps : forall n l a, keeps (build_pendings n l a).
Proof.
  induction l; simpl; intros.
  - apply keeps_ret.
  - apply keeps_bind; [apply build_pending_keeps|]. intros; auto.
Qed.

Lemma merge_pending_In : forall l acc r, In r (merge_pending l acc) <-> In r acc \/ In r l.
Proof.
  induction l; simpl; intros; [tauto|]. rewrite IHl. destruct (rel_mem a acc) eqn:E.
  - apply rel_mem_In in E. intuition (subst; auto).
  - rewrite in_app_iff. simpl. intuition.
Qed.

Lemma app_node_facts : forall n nd, app_node n nd ->
  par nd = [] /\ chi nd = [] /\ (forall p c, In (Some p, c) (npend nd) -> p <> c /\ (p = n \/ c = n)).
Proof.
  induction 1; simpl; auto.
  - repeat split; auto; destruct H.
  - destruct IHapp_node as (A & B & C). unfold detached_add_parent.
    destruct (_ && _) eqn:E; simpl; auto. repeat split; auto; apply in_app_iff in H0; destruct H0 as [H0|[H0|[]]].
    + eapply C; eauto.
    + inv H0. apply andb_true_iff in E. destruct E as [E _]. apply andb_true_iff in E. destruct E as [E _].
      eapply oid_eqb_neq; eauto.
    + eapply C; eauto.
    + inv H0. auto.
  - destruct IHapp_node as (A & B & C). unfold detached_set_parent.
    destruct (_ && _) eqn:E; simpl; auto. repeat split; auto; apply in_app_iff in H0; destruct H0 as [H0|[H0|[]]].
    + eapply C; eauto.
    + inv H0. apply andb_true_iff in E. destruct E as [E _]. eapply oid_eqb_neq; eauto.
    + eapply C; eauto.
    + inv H0. auto.
  - destruct IHapp_node as (A & B & C). unfold detached_add_child.
    destruct (_ && _) eqn:E; simpl; auto. repeat split; auto; apply in_app_iff in H0; destruct H0 as [H0|[H0|[]]].
    + eapply C; eauto.
    + inv H0. apply andb_true_iff in E. destruct E as [E _]. apply andb_true_iff in E. destruct E as [_ E].
      apply negb_true_iff, eqb_neq in E. auto.
    + eapply C; eauto.
    + inv H0. auto.
Qed.

Lemma add_node_keeps : forall n nd p t, app_node n nd -> good t ->
  (strict = true -> has_node t n = false -> forall q, ~ In n (childs t q)) ->
  wp (add_node n nd p) keeps_post t.
Proof.
  intros n nd p t An H Hs. destruct (app_node_facts _ _ An) as (Ep & Ec & Enp).
  unfold add_node. apply wp_get. destruct (has_node t n) eqn:Hn; [apply keeps_ret; auto|].
  apply wp_modify. apply wp_modify. apply wp_get.
  set (t1 := set_nodes _ _).
  assert (G1 : good t1).
  { unfold t1. apply good_put; auto; [|intros Hst q; exact (Hs Hst eq_refl q)].
    apply goodx_set_pend; auto.
    intros q c Hq. apply merge_pending_In in Hq. destruct Hq as [Hq|Hq].
    - apply (ok_pend _ (g_ok _ _ _ H)); auto.
    - apply Enp; auto. }
  apply keeps_bind_wp; [apply build_pendings_keeps; auto|]. intros a t2 e2 _ G2.
  apply keeps_bind_wp.
  - destruct p as [x|]; [|apply keeps_ret; auto].
    apply circ_then; auto; intros Ha; [apply keeps_raise; auto|].
    apply wp_get. destruct (has_node t2 x).
    + apply keeps_bind_wp; [apply create_keeps_any; auto|]. intros. apply keeps_ret; auto.
    + apply keeps_bind; auto; [|intros; apply keeps_ret]. apply keeps_pend_append.
      intros y Hy. inv Hy. intro; subst. apply Ha. apply anc_refl.
  - intros a' t3 e3 _ G3. apply keeps_bind; auto; [|intros; apply keeps_callback].
    destruct a'; [|apply keeps_ret]. apply keeps_modify. intros. apply goodx_set_rootc; auto.
Qed.

End Strict.
