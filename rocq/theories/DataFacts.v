(** No call changes the data of a node, except the one made for that. *)
From Verif Require Import Base BaseFacts MainTree Spec MainFacts MainOps MainRun MainInv MainAdd MainEvents.
Open Scope m_scope.

Definition data_of (t : mtree) (x : id) : option nat := option_map data (dget x (nodes t)).

Section Keeps.
  Variable X : id -> Prop.

  (** Outside [X], the data in [t'] is that in [t]. *)
  Definition dd (t t' : mtree) : Prop := forall x v, ~ X x -> data_of t' x = Some v -> data_of t x = Some v.

  Definition dk {A} (m : M A) : Prop :=
    forall t, wp m (fun t' es _ => dd t t' /\ Forall (fun e => dd t (ev_tree e)) es) t.

  Lemma dd_refl : forall t, dd t t.
  Proof. intros t x v H. auto. Qed.

  Lemma dd_trans : forall a b c, dd a b -> dd b c -> dd a c.
  Proof. intros a b c H1 H2 x v Hx H. auto. Qed.

  Lemma dk_bind : forall A B (m : M A) (k : A -> M B), dk m -> (forall a, dk (k a)) -> dk (bind m k).
  Proof.
    intros A B m k Hm Hk t. apply wp_bind. pose proof (Hm t) as H. unfold wp in *.
    destruct (m t) as [[t1 e1] r]. simpl in *. destruct H as [H1 H2]. destruct r as [a|e|]; auto.
    pose proof (Hk a t1) as H. unfold wp in H. destruct (k a t1) as [[t2 e2] r2]. simpl in *. destruct H as [H3 H4].
    split; [eapply dd_trans; eauto|]. apply Forall_app. split; auto.
    eapply Forall_impl; [|exact H4]. simpl. intros e He. eapply dd_trans; eauto.
  Qed.

  Lemma dk_same : forall A (m : M A), (forall t, exists r, m t = (t, [], r)) -> dk m.
  Proof. intros A m H t. destruct (H t) as (r & E). unfold wp. rewrite E. simpl. split; [apply dd_refl|auto]. Qed.

  Lemma dk_ret : forall A (a : A), dk (ret a).
  Proof. intros. apply dk_same. intros. eexists; reflexivity. Qed.
  Lemma dk_raise : forall A e, dk (@raise A e).
  Proof. intros. apply dk_same. intros. eexists; reflexivity. Qed.
  Lemma dk_diverge : forall A, dk (@diverge A).
  Proof. intros. apply dk_same. intros. eexists; reflexivity. Qed.
  Lemma dk_get : dk get.
  Proof. intros. apply dk_same. intros. eexists; reflexivity. Qed.
  Lemma dk_live : forall n, dk (live n).
  Proof. intros. apply dk_same. intros. unfold live. destruct (dget n (nodes t)); eexists; reflexivity. Qed.
  Lemma dk_node_at : forall n, dk (node_at n).
  Proof. intros. apply dk_same. intros. unfold node_at. destruct (dget n (nodes t)); eexists; reflexivity. Qed.
  Lemma dk_is_circular : forall p c, dk (is_circular p c).
  Proof. intros. apply dk_same. intros. apply is_circular_state. Qed.
  Lemma dk_callback : forall k n, dk (callback k n).
  Proof. intros k n t. unfold wp. simpl. split; [apply dd_refl|]. constructor; auto. apply dd_refl. Qed.
  Lemma dk_modify : forall f, (forall t, dd t (f t)) -> dk (modify f).
  Proof. intros f H t. unfold wp. simpl. auto. Qed.

  Lemma dd_nodes : forall t t', nodes t' = nodes t -> dd t t'.
  Proof. intros t t' H x v _. unfold data_of. rewrite H. auto. Qed.

  Lemma dd_upd : forall n f t, (forall nd, data (f nd) = data nd) -> dd t (upd_node n f t).
  Proof.
    intros n f t H x v _. unfold data_of. rewrite dget_upd. deq x n; auto. subst.
    destruct (dget n (nodes t)); simpl; auto. rewrite H. auto.
  Qed.

  Lemma dk_create : forall p c, dk (create_relationship p c).
  Proof.
    intros. unfold create_relationship. apply dk_bind; [apply dk_node_at|]. intros _.
    apply dk_bind; [apply dk_node_at|]. intros _. apply dk_modify. intros t. cbv zeta.
    eapply dd_trans; [|apply dd_nodes; reflexivity]. eapply dd_trans; [|apply dd_upd]; [apply dd_upd|]; intros nd; match goal with |- context [mem ?a ?b] => destruct (mem a b) end; auto.
  Qed.
  Lemma dk_destroy : forall p c, dk (destroy_relationship p c).
  Proof.
    intros. unfold destroy_relationship. apply dk_bind; [apply dk_node_at|]. intros _.
    apply dk_bind; [apply dk_node_at|]. intros _. apply dk_modify. intros t. cbv zeta.
    eapply dd_trans; [|apply dd_upd]; [apply dd_upd|]; intros nd; auto.
  Qed.
  Lemma dk_pend_remove : forall r, dk (pend_remove r).
  Proof.
    intros r t. unfold wp, pend_remove. destruct (rel_mem r (pend t)); simpl; split; auto; apply dd_nodes; auto.
  Qed.
  Lemma dk_pend_append : forall r, dk (pend_append r).
  Proof. intros. apply dk_modify. intros. apply dd_nodes. auto. Qed.
  Lemma dk_for_each : forall Y (l : list Y) body, (forall x, dk (body x)) -> dk (for_each l body).
  Proof. induction l; simpl; intros; [apply dk_ret|]. apply dk_bind; auto. Qed.

  Ltac dk1 :=
    first
      [ apply dk_ret | apply dk_raise | apply dk_diverge | apply dk_get | apply dk_live | apply dk_node_at
      | apply dk_is_circular | apply dk_callback | apply dk_create | apply dk_destroy | apply dk_pend_remove
      | apply dk_pend_append
      | apply dk_modify; intros; first [apply dd_nodes; reflexivity | apply dd_upd; intros; reflexivity]
      | apply dk_for_each; intros
      | apply dk_bind; [|intros]
      | match goal with |- context [if ?b then _ else _] => destruct b end
      | match goal with |- context [match ?b with _ => _ end] => destruct b end ].
  Ltac dk := repeat dk1.

  Lemma dk_new_relationship : forall p c, dk (new_relationship p c).
  Proof. intros. unfold new_relationship. dk. Qed.
  Lemma dk_root_add_child : forall c, dk (root_add_child c).
  Proof. intros. unfold root_add_child. repeat first [apply dk_new_relationship|dk1]. Qed.
  Lemma dk_break : forall p c, dk (break_relationship p c).
  Proof. intros. unfold break_relationship. repeat first [apply dk_root_add_child|dk1]. Qed.
  Lemma dk_add_parent : forall n p, dk (add_parent n p).
  Proof. intros. unfold add_parent. repeat first [apply dk_new_relationship|dk1]. Qed.
  Lemma dk_remove_parent : forall n p, dk (remove_parent n p).
  Proof. intros. unfold remove_parent. repeat first [apply dk_break|dk1]. Qed.
  Lemma dk_drop_other_parents : forall fuel n p i flag, dk (drop_other_parents fuel n p i flag).
  Proof.
    induction fuel; intros; cbn [drop_other_parents]; repeat first [apply dk_remove_parent|apply IHfuel|dk1].
  Qed.
  Lemma dk_set_parent : forall n p, dk (set_parent n p).
  Proof.
    intros. unfold set_parent.
    repeat first [apply dk_break|apply dk_drop_other_parents|apply dk_add_parent|dk1].
  Qed.
  Lemma dk_add_child : forall n c, dk (add_child n c).
  Proof. intros. unfold add_child. repeat first [apply dk_new_relationship|dk1]. Qed.
  Lemma dk_set_parents_enabled : forall n b, dk (set_parents_enabled n b).
  Proof. intros. unfold set_parents_enabled. repeat first [apply dk_remove_parent|dk1]. Qed.
  Lemma dk_set_children_enabled : forall n b, dk (set_children_enabled n b).
  Proof. intros. unfold set_children_enabled. repeat first [apply dk_break|dk1]. Qed.
  Lemma dk_modify_node : forall n, dk (modify_node n).
  Proof. intros. unfold modify_node. dk. Qed.
  Lemma dk_refresh_all : dk refresh_all.
  Proof. unfold refresh_all. repeat first [apply dk_modify_node|dk1]. Qed.
  Lemma dk_remove_parents : forall fuel n i, dk (remove_parents fuel n i).
  Proof. induction fuel; intros; cbn [remove_parents]; repeat first [apply IHfuel|dk1]. Qed.
  Lemma dk_remove_child : forall n c, dk (remove_child n c).
  Proof. intros. unfold remove_child. dk. Qed.

  Lemma dd_ddel : forall n t, NoDup (dkeys (nodes t)) -> dd t (set_nodes (ddel n (nodes t)) t).
  Proof.
    intros n t N x v _. unfold data_of. simpl. rewrite dget_ddel by auto. deq x n; auto. discriminate.
  Qed.
End Keeps.

Lemma dk_set_node_data : forall n v, dk (eq n) (set_node_data n v).
Proof.
  intros. unfold set_node_data. apply dk_bind; [apply dk_live|]. intros nd. apply dk_bind.
  - apply dk_modify. intros t x w Hx. unfold data_of. rewrite dget_upd. deq x n; auto. congruence.
  - intros. apply dk_modify_node.
Qed.

Lemma dk_build_pendings : forall X n l b, dk X (build_pendings n l b).
Proof.
  induction l as [|r l IH]; intros b; cbn [build_pendings]; [apply dk_ret|]. apply dk_bind; auto.
  unfold build_pending.
  repeat first
    [ apply dk_ret | apply dk_get | apply dk_is_circular | apply dk_create | apply dk_pend_remove
    | apply dk_bind; [|intros]
    | match goal with |- context [if ?b then _ else _] => destruct b end
    | match goal with |- context [match ?b with _ => _ end] => destruct b end ].
Qed.

Lemma dk_add_node : forall n nd p, dk (eq n) (add_node n nd p).
Proof.
  intros. unfold add_node.
  repeat first
    [ apply dk_build_pendings | apply dk_ret | apply dk_raise | apply dk_get | apply dk_is_circular | apply dk_create
    | apply dk_pend_append | apply dk_callback
    | apply dk_modify; intros; first [apply dd_nodes; reflexivity | idtac]
    | apply dk_bind; [|intros]
    | match goal with |- context [if ?b then _ else _] => destruct b end
    | match goal with |- context [match ?b with _ => _ end] => destruct b end ].
  intros x v Hx. unfold data_of. simpl. rewrite dget_dset_other by congruence. auto.
Qed.

(** Deletions need unique keys, which the model only has for good trees. *)
Lemma dk_remove_node : forall X fuel n r t, NoDup (dkeys (nodes t)) ->
  wp (remove_node fuel n r) (fun t' es _ => dd X t t' /\ Forall (fun e => dd X t (ev_tree e)) es /\ NoDup (dkeys (nodes t'))) t.
Proof.
  intros X.
  set (P := fun A (m : M A) => forall t, NoDup (dkeys (nodes t)) ->
    wp m (fun t' es _ => dd X t t' /\ Forall (fun e => dd X t (ev_tree e)) es /\ NoDup (dkeys (nodes t'))) t).
  assert (PB : forall A B (m : M A) (k : A -> M B), P _ m -> (forall a, P _ (k a)) -> P _ (bind m k)).
  { intros A B m k Hm Hk t N. apply wp_bind. pose proof (Hm t N) as H. unfold wp in *.
    destruct (m t) as [[t1 e1] r]. simpl in *. destruct H as (H1 & H2 & H5). destruct r as [a|e|]; auto.
    pose proof (Hk a t1 H5) as H. unfold wp in H. destruct (k a t1) as [[t2 e2] r2]. simpl in *. destruct H as (H3 & H4 & H6).
    split; [eapply dd_trans; eauto|]. split; auto. apply Forall_app. split; auto.
    eapply Forall_impl; [|exact H4]. simpl. intros e He. eapply dd_trans; eauto. }
  assert (PQ : forall A (m : M A), dk X m -> quiet m -> P _ m).
  { intros A m H1 H2 t N. pose proof (H1 t) as A1. pose proof (H2 t) as A2. unfold wp in *.
    destruct (m t) as [[t1 e1] r]. simpl in *. destruct A1, A2 as [A2 _]. split; auto. split; auto. rewrite A2. auto. }
  assert (PF : forall Y (l : list Y) body, (forall x, P _ (body x)) -> P _ (for_each l body)).
  { induction l; simpl; intros; [apply PQ; [apply dk_ret|apply quiet_ret]|]. apply PB; auto. }
  intros fuel. change (forall n r, P _ (remove_node fuel n r)).
  induction fuel; intros n r; cbn [remove_node]; (apply PB; [apply PQ; [apply dk_get|apply quiet_get]|]); intros t0;
    (destruct (negb (has_node t0 n)); [apply PQ; [apply dk_ret|apply quiet_ret]|]);
    (apply PB; [apply PQ; [apply dk_modify; intros; apply dd_nodes; reflexivity|apply quiet_modify; auto]|]); intros _;
    (apply PB; [apply PQ; [apply dk_node_at|apply MainEvents.quiet_node_at]|]); intros nd;
    (apply PB; [apply PQ; [apply dk_remove_parents|apply MainEvents.quiet_remove_parents]|]); intros _;
    (apply PB; [apply PQ; [apply dk_node_at|apply MainEvents.quiet_node_at]|]); intros nd'.
  - intros t N. unfold wp. simpl. split; [apply dd_refl|auto].
  - apply PB.
    { apply PF. intros c. destruct r; [apply IHfuel|apply PQ; [apply dk_remove_child|apply MainEvents.quiet_remove_child]]. }
    intros _. apply PB; [apply PQ; [apply dk_modify; intros; apply dd_nodes; reflexivity|apply quiet_modify; auto]|]. intros _.
    apply PB; [apply PQ; [apply dk_node_at|apply MainEvents.quiet_node_at]|]. intros nd''.
    apply PB.
    + intros t N. unfold wp. simpl. split; [apply dd_ddel; auto|]. split; auto. apply ddel_NoDup; auto.
    + intros _ t N. unfold wp. simpl. split; [apply dd_refl|]. split; auto. constructor; auto. apply dd_refl.
Qed.

Definition touches (o : mop) (x : id) : Prop :=
  match o with AddNode n _ _ => n = x | SetData n _ => n = x | _ => False end.

Lemma op_data : forall s o t, good s t ->
  wp (run_op o) (fun t' es _ => dd (touches o) t t' /\ Forall (fun e => dd (touches o) t (ev_tree e)) es) t.
Proof.
  intros s o t G.
  assert (H0 : forall (m : M unit), dk (fun _ => False) m -> wp m (fun t' es _ => dd (fun _ => False) t t' /\ Forall (fun e => dd (fun _ => False) t (ev_tree e)) es) t) by (intros m H; apply H).
  destruct o; try (apply H0; simpl; first
    [ apply dk_modify_node | apply dk_refresh_all | apply dk_new_relationship | apply dk_break | apply dk_add_parent
    | apply dk_set_parent | apply dk_remove_parent | apply dk_add_child | apply dk_set_parents_enabled
    | apply dk_set_children_enabled ]; fail).
  - apply (dk_add_node n nd parent t).
  - cbn [run_op]. unfold del_node. apply wp_get.
    eapply wp_conseq; [|apply (dk_remove_node (fun _ => False) (remove_budget t) n recursive t (ok_keys _ (g_ok _ _ _ G)))].
    intros t' es r (A & B & C). split; auto.
  - apply (dk_set_node_data n v t).
  - apply H0. apply dk_bind; [apply dk_get|]. intros t1. destruct (has_node t1 n); [apply dk_set_parent|apply dk_ret].
  - apply H0. apply dk_bind; [apply dk_get|]. intros t1. destruct (has_node t1 n); [apply dk_add_parent|apply dk_ret].
Qed.
