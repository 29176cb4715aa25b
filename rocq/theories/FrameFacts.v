(** What a call leaves as it is in the nodes: an observation [g] of node objects
    that does not look at their relations. The proofs follow DataFacts. *)
From Verif Require Import Base BaseFacts MainTree Spec MainFacts MainOps MainRun MainInv MainAdd MainEvents SpecFrame.
Open Scope m_scope.

Section Obs.
  Context {V : Type}.
  Variable g : node -> V.
  Hypothesis g_par : forall l nd, g (set_par l nd) = g nd.
  Hypothesis g_chi : forall l nd, g (set_chi l nd) = g nd.
  Variable X : id -> Prop.

  Definition obs (t : mtree) (x : id) : option V := option_map g (dget x (nodes t)).


  (** Outside [X], the data in [t'] is that in [t]. *)
  Definition gd (t t' : mtree) : Prop := forall x v, ~ X x -> obs t' x = Some v -> obs t x = Some v.

  Definition gk {A} (m : M A) : Prop :=
    forall t, wp m (fun t' es _ => gd t t' /\ Forall (fun e => gd t (ev_tree e)) es) t.

  Lemma gd_refl : forall t, gd t t.
  Proof. intros t x v H. auto. Qed.

  Lemma gd_trans : forall a b c, gd a b -> gd b c -> gd a c.
  Proof. intros a b c H1 H2 x v Hx H. auto. Qed.

  Lemma gk_bind : forall A B (m : M A) (k : A -> M B), gk m -> (forall a, gk (k a)) -> gk (bind m k).
  Proof.
    intros A B m k Hm Hk t. apply wp_bind. pose proof (Hm t) as H. unfold wp in *.
    destruct (m t) as [[t1 e1] r]. simpl in *. destruct H as [H1 H2]. destruct r as [a|e|]; auto.
    pose proof (Hk a t1) as H. unfold wp in H. destruct (k a t1) as [[t2 e2] r2]. simpl in *. destruct H as [H3 H4].
    split; [eapply gd_trans; eauto|]. apply Forall_app. split; auto.
    eapply Forall_impl; [|exact H4]. simpl. intros e He. eapply gd_trans; eauto.
  Qed.

  Lemma gk_same : forall A (m : M A), (forall t, exists r, m t = (t, [], r)) -> gk m.
  Proof. intros A m H t. destruct (H t) as (r & E). unfold wp. rewrite E. simpl. split; [apply gd_refl|auto]. Qed.

  Lemma gk_ret : forall A (a : A), gk (ret a).
  Proof. intros. apply gk_same. intros. eexists; reflexivity. Qed.
  Lemma gk_raise : forall A e, gk (@raise A e).
  Proof. intros. apply gk_same. intros. eexists; reflexivity. Qed.
  Lemma gk_diverge : forall A, gk (@diverge A).
  Proof. intros. apply gk_same. intros. eexists; reflexivity. Qed.
  Lemma gk_get : gk get.
  Proof. intros. apply gk_same. intros. eexists; reflexivity. Qed.
  Lemma gk_live : forall n, gk (live n).
  Proof. intros. apply gk_same. intros. unfold live. destruct (dget n (nodes t)); eexists; reflexivity. Qed.
  Lemma gk_node_at : forall n, gk (node_at n).
  Proof. intros. apply gk_same. intros. unfold node_at. destruct (dget n (nodes t)); eexists; reflexivity. Qed.
  Lemma gk_is_circular : forall p c, gk (is_circular p c).
  Proof. intros. apply gk_same. intros. apply is_circular_state. Qed.
  Lemma gk_callback : forall k n, gk (callback k n).
  Proof. intros k n t. unfold wp. simpl. split; [apply gd_refl|]. constructor; auto. apply gd_refl. Qed.
  Lemma gk_modify : forall f, (forall t, gd t (f t)) -> gk (modify f).
  Proof. intros f H t. unfold wp. simpl. auto. Qed.

  Lemma gd_nodes : forall t t', nodes t' = nodes t -> gd t t'.
  Proof. intros t t' H x v _. unfold obs. rewrite H. auto. Qed.

  Lemma gd_upd : forall n f t, (forall nd, g (f nd) = g nd) -> gd t (upd_node n f t).
  Proof.
    intros n f t H x v _. unfold obs. rewrite dget_upd. deq x n; auto. subst.
    destruct (dget n (nodes t)); simpl; auto. rewrite H. auto.
  Qed.

  Lemma gk_create : forall p c, gk (create_relationship p c).
  Proof.
    intros. unfold create_relationship. apply gk_bind; [apply gk_node_at|]. intros _.
    apply gk_bind; [apply gk_node_at|]. intros _. apply gk_modify. intros t. cbv zeta.
    eapply gd_trans; [|apply gd_nodes; reflexivity]. eapply gd_trans; [|apply gd_upd]; [apply gd_upd|]; intros nd; match goal with |- context [mem ?a ?b] => destruct (mem a b) end; auto.
  Qed.
  Lemma gk_destroy : forall p c, gk (destroy_relationship p c).
  Proof.
    intros. unfold destroy_relationship. apply gk_bind; [apply gk_node_at|]. intros _.
    apply gk_bind; [apply gk_node_at|]. intros _. apply gk_modify. intros t. cbv zeta.
    eapply gd_trans; [|apply gd_upd]; [apply gd_upd|]; intros nd; auto.
  Qed.
  Lemma gk_pend_remove : forall r, gk (pend_remove r).
  Proof.
    intros r t. unfold wp, pend_remove. destruct (rel_mem r (pend t)); simpl; split; auto; apply gd_nodes; auto.
  Qed.
  Lemma gk_pend_append : forall r, gk (pend_append r).
  Proof. intros. apply gk_modify. intros. apply gd_nodes. auto. Qed.
  Lemma gk_for_each : forall Y (l : list Y) body, (forall x, gk (body x)) -> gk (for_each l body).
  Proof. induction l; simpl; intros; [apply gk_ret|]. apply gk_bind; auto. Qed.

  Ltac gk1 :=
    first
      [ apply gk_ret | apply gk_raise | apply gk_diverge | apply gk_get | apply gk_live | apply gk_node_at
      | apply gk_is_circular | apply gk_callback | apply gk_create | apply gk_destroy | apply gk_pend_remove
      | apply gk_pend_append
      | apply gk_modify; intros; first [apply gd_nodes; reflexivity | apply gd_upd; intros; rewrite ?g_par, ?g_chi; reflexivity]
      | apply gk_for_each; intros
      | apply gk_bind; [|intros]
      | match goal with |- context [if ?b then _ else _] => destruct b end
      | match goal with |- context [match ?b with _ => _ end] => destruct b end ].
  Ltac gk := repeat gk1.

  Lemma gk_new_relationship : forall p c, gk (new_relationship p c).
  Proof. intros. unfold new_relationship. gk. Qed.
  Lemma gk_root_add_child : forall c, gk (root_add_child c).
  Proof. intros. unfold root_add_child. repeat first [apply gk_new_relationship|gk1]. Qed.
  Lemma gk_break : forall p c, gk (break_relationship p c).
  Proof. intros. unfold break_relationship. repeat first [apply gk_root_add_child|gk1]. Qed.
  Lemma gk_add_parent : forall n p, gk (add_parent n p).
  Proof. intros. unfold add_parent. repeat first [apply gk_new_relationship|gk1]. Qed.
  Lemma gk_remove_parent : forall n p, gk (remove_parent n p).
  Proof. intros. unfold remove_parent. repeat first [apply gk_break|gk1]. Qed.
  Lemma gk_drop_other_parents : forall fuel n p i flag, gk (drop_other_parents fuel n p i flag).
  Proof.
    induction fuel; intros; cbn [drop_other_parents]; repeat first [apply gk_remove_parent|apply IHfuel|gk1].
  Qed.
  Lemma gk_set_parent : forall n p, gk (set_parent n p).
  Proof.
    intros. unfold set_parent.
    repeat first [apply gk_break|apply gk_drop_other_parents|apply gk_add_parent|gk1].
  Qed.
  Lemma gk_add_child : forall n c, gk (add_child n c).
  Proof. intros. unfold add_child. repeat first [apply gk_new_relationship|gk1]. Qed.
  Lemma gd_upd_or : forall n f t, (forall nd, g (f nd) = g nd) \/ X n -> gd t (upd_node n f t).
  Proof.
    intros n f t [H|H]; [apply gd_upd; auto|]. intros x v Hx. unfold obs. rewrite dget_upd. deq x n; auto. subst. contradiction.
  Qed.
  Lemma gk_set_parents_enabled : forall n b, (forall nd, g (set_pen b nd) = g nd) \/ X n -> gk (set_parents_enabled n b).
  Proof.
    intros. unfold set_parents_enabled. apply gk_bind; [apply gk_live|]. intros nd. apply gk_bind; [apply gk_get|]. intros t.
    apply gk_bind; [repeat first [apply gk_remove_parent|gk1]|]. intros _. apply gk_modify. intros. apply gd_upd_or; auto.
  Qed.
  Lemma gk_set_children_enabled : forall n b, (forall nd, g (set_cen b nd) = g nd) \/ X n -> gk (set_children_enabled n b).
  Proof.
    intros. unfold set_children_enabled. apply gk_bind; [apply gk_live|]. intros nd. apply gk_bind; [apply gk_get|]. intros t.
    apply gk_bind; [repeat first [apply gk_break|gk1]|]. intros _. apply gk_modify. intros. apply gd_upd_or; auto.
  Qed.
  Lemma gk_modify_node : forall n, gk (modify_node n).
  Proof. intros. unfold modify_node. gk. Qed.
  Lemma gk_refresh_all : gk refresh_all.
  Proof. unfold refresh_all. repeat first [apply gk_modify_node|gk1]. Qed.
  Lemma gk_remove_parents : forall fuel n i, gk (remove_parents fuel n i).
  Proof. induction fuel; intros; cbn [remove_parents]; repeat first [apply IHfuel|gk1]. Qed.
  Lemma gk_remove_child : forall n c, gk (remove_child n c).
  Proof. intros. unfold remove_child. gk. Qed.

  Lemma gd_ddel : forall n t, NoDup (dkeys (nodes t)) -> gd t (set_nodes (ddel n (nodes t)) t).
  Proof.
    intros n t N x v _. unfold obs. simpl. rewrite dget_ddel by auto. deq x n; auto. discriminate.
  Qed.


Lemma gk_set_node_data : forall n v, (forall nd, g (set_data v nd) = g nd) \/ X n -> gk (set_node_data n v).
Proof.
  intros. unfold set_node_data. apply gk_bind; [apply gk_live|]. intros nd. apply gk_bind.
  - apply gk_modify. intros. apply gd_upd_or; auto.
  - intros. apply gk_modify_node.
Qed.

Lemma gk_build_pendings : forall n l b, gk (build_pendings n l b).
Proof.
  induction l as [|r l IH]; intros b; cbn [build_pendings]; [apply gk_ret|]. apply gk_bind; auto.
  unfold build_pending.
  repeat first
    [ apply gk_ret | apply gk_get | apply gk_is_circular | apply gk_create | apply gk_pend_remove
    | apply gk_bind; [|intros]
    | match goal with |- context [if ?b then _ else _] => destruct b end
    | match goal with |- context [match ?b with _ => _ end] => destruct b end ].
Qed.

Lemma gk_add_node : forall n nd p, X n -> gk (add_node n nd p).
Proof.
  intros. unfold add_node.
  repeat first
    [ apply gk_build_pendings | apply gk_ret | apply gk_raise | apply gk_get | apply gk_is_circular | apply gk_create
    | apply gk_pend_append | apply gk_callback
    | apply gk_modify; intros; first [apply gd_nodes; reflexivity | idtac]
    | apply gk_bind; [|intros]
    | match goal with |- context [if ?b then _ else _] => destruct b end
    | match goal with |- context [match ?b with _ => _ end] => destruct b end ].
  intros x v Hx. unfold obs. simpl. rewrite dget_dset_other by congruence. auto.
Qed.

(** Deletions need unique keys, which the model only has for good trees. *)
Lemma gk_remove_node : forall fuel n r t, NoDup (dkeys (nodes t)) ->
  wp (remove_node fuel n r) (fun t' es _ => gd t t' /\ Forall (fun e => gd t (ev_tree e)) es /\ NoDup (dkeys (nodes t'))) t.
Proof.
  set (P := fun A (m : M A) => forall t, NoDup (dkeys (nodes t)) ->
    wp m (fun t' es _ => gd t t' /\ Forall (fun e => gd t (ev_tree e)) es /\ NoDup (dkeys (nodes t'))) t).
  assert (PB : forall A B (m : M A) (k : A -> M B), P _ m -> (forall a, P _ (k a)) -> P _ (bind m k)).
  { intros A B m k Hm Hk t N. apply wp_bind. pose proof (Hm t N) as H. unfold wp in *.
    destruct (m t) as [[t1 e1] r]. simpl in *. destruct H as (H1 & H2 & H5). destruct r as [a|e|]; auto.
    pose proof (Hk a t1 H5) as H. unfold wp in H. destruct (k a t1) as [[t2 e2] r2]. simpl in *. destruct H as (H3 & H4 & H6).
    split; [eapply gd_trans; eauto|]. split; auto. apply Forall_app. split; auto.
    eapply Forall_impl; [|exact H4]. simpl. intros e He. eapply gd_trans; eauto. }
  assert (PQ : forall A (m : M A), gk m -> quiet m -> P _ m).
  { intros A m H1 H2 t N. pose proof (H1 t) as A1. pose proof (H2 t) as A2. unfold wp in *.
    destruct (m t) as [[t1 e1] r]. simpl in *. destruct A1, A2 as [A2 _]. split; auto. split; auto. rewrite A2. auto. }
  assert (PF : forall Y (l : list Y) body, (forall x, P _ (body x)) -> P _ (for_each l body)).
  { induction l; simpl; intros; [apply PQ; [apply gk_ret|apply quiet_ret]|]. apply PB; auto. }
  intros fuel. change (forall n r, P _ (remove_node fuel n r)).
  induction fuel; intros n r; cbn [remove_node]; (apply PB; [apply PQ; [apply gk_get|apply quiet_get]|]); intros t0;
    (destruct (negb (has_node t0 n)); [apply PQ; [apply gk_ret|apply quiet_ret]|]);
    (apply PB; [apply PQ; [apply gk_modify; intros; apply gd_nodes; reflexivity|apply quiet_modify; auto]|]); intros _;
    (apply PB; [apply PQ; [apply gk_node_at|apply MainEvents.quiet_node_at]|]); intros nd;
    (apply PB; [apply PQ; [apply gk_remove_parents|apply MainEvents.quiet_remove_parents]|]); intros _;
    (apply PB; [apply PQ; [apply gk_node_at|apply MainEvents.quiet_node_at]|]); intros nd'.
  - intros t N. unfold wp. simpl. split; [apply gd_refl|auto].
  - apply PB.
    { apply PF. intros c. destruct r; [apply IHfuel|apply PQ; [apply gk_remove_child|apply MainEvents.quiet_remove_child]]. }
    intros _. apply PB; [apply PQ; [apply gk_modify; intros; apply gd_nodes; reflexivity|apply quiet_modify; auto]|]. intros _.
    apply PB; [apply PQ; [apply gk_node_at|apply MainEvents.quiet_node_at]|]. intros nd''.
    apply PB.
    + intros t N. unfold wp. simpl. split; [apply gd_ddel; auto|]. split; auto. apply ddel_NoDup; auto.
    + intros _ t N. unfold wp. simpl. split; [apply gd_refl|]. split; auto. constructor; auto. apply gd_refl.
Qed.

End Obs.

(** What each call may change in the objects of the nodes. *)
Lemma op_obs : forall V (g : node -> V) (X : id -> Prop) s o t,
  (forall l nd, g (set_par l nd) = g nd) -> (forall l nd, g (set_chi l nd) = g nd) ->
  (match o with
   | AddNode n _ _ => X n
   | SetData n v => (forall nd, g (set_data v nd) = g nd) \/ X n
   | SetParentsEnabled n b => (forall nd, g (set_pen b nd) = g nd) \/ X n
   | SetChildrenEnabled n b => (forall nd, g (set_cen b nd) = g nd) \/ X n
   | _ => True
   end) -> good s t -> gd g X t (after o t).
Proof.
  intros V g X s o t Hp Hc Ho G.
  assert (H0 : forall (m : M unit), gk g X m -> gd g X t (fst (fst (m t)))).
  { intros m H. specialize (H t). unfold wp in H. destruct (m t) as [[t' es] r]. apply H. }
  unfold after. destruct o; cbn [run_op]; try (apply H0; first
    [ apply gk_modify_node | apply gk_refresh_all | apply gk_new_relationship | apply gk_break | apply gk_add_parent
    | apply gk_set_parent | apply gk_remove_parent | apply gk_add_child | apply gk_set_parents_enabled
    | apply gk_set_children_enabled | apply gk_set_node_data | apply gk_add_node ]; auto; fail).
  - assert (W : wp (del_node n recursive) (fun t' _ _ => gd g X t t') t).
    { unfold del_node. apply wp_get. eapply wp_conseq; [|apply (gk_remove_node g Hp Hc X); apply (ok_keys _ (g_ok _ _ _ G))].
      intros t' es r H. apply H. }
    unfold wp in W. destruct (del_node n recursive t) as [[t' es] r]. exact W.
  - apply H0. apply gk_bind; [apply gk_get|]. intros t1. destruct (has_node t1 n); [apply gk_set_parent; auto|apply gk_ret].
  - apply H0. apply gk_bind; [apply gk_get|]. intros t1. destruct (has_node t1 n); [apply gk_add_parent; auto|apply gk_ret].
Qed.

Lemma pen_set : forall t n b, outcome (SetParentsEnabled n b) t = Ok tt -> has_node (after (SetParentsEnabled n b) t) n = true ->
  parents_enabled (after (SetParentsEnabled n b) t) n = b.
Proof.
  intros t n b. unfold outcome, after. cbn [run_op]. unfold set_parents_enabled, bind, live, get, modify.
  destruct (dget n (nodes t)) as [nd|] eqn:E; [|discriminate].
  destruct ((if b then ret tt else for_each (get_parents t n) (fun p => remove_parent n p)) t) as [[t1 e1] r1]. simpl.
  destruct r1; simpl; try discriminate. intros _. rewrite has_node_upd. intros H. unfold parents_enabled. rewrite dget_upd, eqb_refl.
  destruct (has_node_get _ _ H) as (nd1 & ->). reflexivity.
Qed.

Lemma cen_set : forall t n b, outcome (SetChildrenEnabled n b) t = Ok tt -> has_node (after (SetChildrenEnabled n b) t) n = true ->
  children_enabled (after (SetChildrenEnabled n b) t) n = b.
Proof.
  intros t n b. unfold outcome, after. cbn [run_op]. unfold set_children_enabled, bind, live, get, modify.
  destruct (dget n (nodes t)) as [nd|] eqn:E; [|discriminate].
  destruct ((if b then ret tt else for_each (get_children t n) (fun p => break_relationship n p)) t) as [[t1 e1] r1]. simpl.
  destruct r1; simpl; try discriminate. intros _. rewrite has_node_upd. intros H. unfold children_enabled. rewrite dget_upd, eqb_refl.
  destruct (has_node_get _ _ H) as (nd1 & ->). reflexivity.
Qed.

(** The announcements: exactly these events, and nothing else changes. *)
Lemma modify_exact : forall t n, n <> main_root -> has_node t n = true -> run_op (ModifyNode n) t = (t, [Ev EModified n t], Ok tt).
Proof.
  intros t n Hr Hn. cbn [run_op]. unfold modify_node. rewrite bind_get, Hn. rewrite (proj2 (String.eqb_neq n main_root) Hr). reflexivity.
Qed.

Lemma data_exact : forall t n v, n <> main_root -> has_node t n = true ->
  run_op (SetData n v) t = (upd_node n (set_data v) t, [Ev EModified n (upd_node n (set_data v) t)], Ok tt).
Proof.
  intros t n v Hr Hn. cbn [run_op]. unfold set_node_data. destruct (has_node_get _ _ Hn) as (nd & E).
  unfold bind at 1. unfold live. rewrite E. rewrite bind_modify.
  pose proof (modify_exact (upd_node n (set_data v) t) n Hr) as M. rewrite has_node_upd in M. specialize (M Hn). cbn [run_op] in M. rewrite M. reflexivity.
Qed.

Lemma refresh_exact : forall t, run_op RefreshAll t =
  (t, map (fun n => Ev EModified n t) (filter (fun n => negb (String.eqb n main_root)) (get_all_nodes t)), Ok tt).
Proof.
  intros t. cbn [run_op]. unfold refresh_all. rewrite bind_get. unfold get_all_nodes.
  assert (H : forall x, In x (dkeys (nodes t)) -> has_node t x = true) by (intros; apply has_node_In; auto).
  induction (dkeys (nodes t)) as [|x l IH]; [reflexivity|]. cbn [for_each].
  assert (E : modify_node x t = (t, if negb (String.eqb x main_root) then [Ev EModified x t] else [], Ok tt)).
  { unfold modify_node. rewrite bind_get, (H x (or_introl eq_refl)). destruct (String.eqb x main_root); reflexivity. }
  unfold bind. rewrite E. rewrite IH by (intros; apply H; right; auto). simpl. destruct (negb (String.eqb x main_root)); reflexivity.
Qed.

Lemma set_data_at : forall t n v, has_node t n = true -> data_at (after (SetData n v) t) n = Some v.
Proof.
  intros t n v Hn. unfold after. cbn [run_op]. unfold set_node_data. destruct (has_node_get _ _ Hn) as (nd & E).
  unfold bind at 1. unfold live. rewrite E. rewrite bind_modify. unfold modify_node. rewrite bind_get.
  assert (H : data_at (upd_node n (set_data v) t) n = Some v). { unfold data_at. rewrite dget_upd, eqb_refl, E. reflexivity. }
  destruct (_ && _); exact H.
Qed.

Lemma call_frame : forall t, reachx any_fresh t -> forall o, fresh_add o -> forall x,
  has_node t x = true -> has_node (after o t) x = true ->
  ((forall v, o <> SetData x v) -> data_at (after o t) x = data_at t x) /\
  (forall v, o = SetData x v -> data_at (after o t) x = Some v) /\
  ((forall b, o <> SetParentsEnabled x b) -> parents_enabled (after o t) x = parents_enabled t x) /\
  (forall b, o = SetParentsEnabled x b -> outcome o t = Ok tt -> parents_enabled (after o t) x = b) /\
  ((forall b, o <> SetChildrenEnabled x b) -> children_enabled (after o t) x = children_enabled t x) /\
  (forall b, o = SetChildrenEnabled x b -> outcome o t = Ok tt -> children_enabled (after o t) x = b).
Proof.
  intros t R o Hf x H H'. pose proof (reachx_good _ R) as G.
  destruct (has_node_get _ _ H) as (nd & E). destruct (has_node_get _ _ H') as (nd' & E').
  assert (AD : forall nd0 po, o = AddNode x nd0 po -> after o t = t).
  { intros nd0 po ->. unfold after. cbn [run_op]. unfold add_node. rewrite bind_get, H. reflexivity. }
  assert (K : forall V (g : node -> V) (Y : id -> Prop),
    (forall l nd, g (set_par l nd) = g nd) -> (forall l nd, g (set_chi l nd) = g nd) ->
    (match o with SetData n v => (forall nd, g (set_data v nd) = g nd) \/ Y n
     | SetParentsEnabled n b => (forall nd, g (set_pen b nd) = g nd) \/ Y n
     | SetChildrenEnabled n b => (forall nd, g (set_cen b nd) = g nd) \/ Y n | _ => True end) -> ~ Y x -> g nd = g nd').
  { intros V g Y H1 H2 H3 Hy.
    assert (D : (exists nd0 po, o = AddNode x nd0 po) \/ ~ (exists nd0 po, o = AddNode x nd0 po)).
    { destruct o; try (right; intros (? & ? & ?); discriminate). destruct (String.eqb_spec n x); [left; subst; eauto|right].
      intros (? & ? & Q). congruence. }
    destruct D as [(nd0 & po & D)|D]. { rewrite (AD _ _ D) in E'. congruence. }
    assert (O : obs g (after o t) x = Some (g nd')) by (unfold obs; rewrite E'; auto).
    assert (W : obs g t x = Some (g nd')).
    { eapply (op_obs V g (fun y => Y y \/ exists nd0 po, o = AddNode y nd0 po) false o t); eauto.
      - destruct o; eauto; destruct H3; auto.
      - tauto. }
    unfold obs in W. rewrite E in W. simpl in W. congruence. }
  unfold data_at, parents_enabled, children_enabled. rewrite E, E'. simpl.
  split; [|split; [|split; [|split; [|split]]]].
  - intros Hn. f_equal. symmetry. apply (K nat data (fun y => exists v, o = SetData y v)); auto.
    + destruct o; eauto.
    + intros (v & Q). congruence.
  - intros v ->. pose proof (set_data_at t x v H) as Q. unfold data_at in Q. rewrite E' in Q. exact Q.
  - intros Hn. symmetry. apply (K bool pen (fun y => exists v, o = SetParentsEnabled y v)); auto.
    + destruct o; eauto.
    + intros (v & Q). congruence.
  - intros b -> Ho. pose proof (pen_set t x b Ho H') as Q. unfold parents_enabled in Q. rewrite E' in Q. exact Q.
  - intros Hn. symmetry. apply (K bool cen (fun y => exists v, o = SetChildrenEnabled y v)); auto.
    + destruct o; eauto.
    + intros (v & Q). congruence.
  - intros b -> Ho. pose proof (cen_set t x b Ho H') as Q. unfold children_enabled in Q. rewrite E' in Q. exact Q.
Qed.
