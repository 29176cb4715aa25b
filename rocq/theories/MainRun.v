(** Whole calls: the invariant, termination, and which calls change the set of
    nodes. *)
From Verif Require Import Base BaseFacts MainTree Spec MainFacts MainInv MainOps MainDel.
Open Scope m_scope.

(** Calls that keep the set of nodes and only announce changes of existing nodes. *)
Definition quiet_post {A} (t t' : mtree) (es : list event) (r : res A) : Prop :=
  dkeys (nodes t') = dkeys (nodes t) /\
  Forall (fun e => ev_kind e = EModified /\ dkeys (nodes (ev_tree e)) = dkeys (nodes t) /\
                   has_node t (ev_id e) = true) es.

Definition quiet {A} (m : M A) : Prop := forall t, wp m (quiet_post t) t.

Lemma quiet_bind_wp : forall A B (m : M A) (k : A -> M B) t0 t,
  dkeys (nodes t) = dkeys (nodes t0) ->
  wp m (quiet_post t0) t ->
  (forall a t1 e1, m t = (t1, e1, Ok a) -> dkeys (nodes t1) = dkeys (nodes t0) -> wp (k a) (quiet_post t0) t1) ->
  wp (bind m k) (quiet_post t0) t.
Proof.
  intros A B m k t0 t E Hm Hk. apply wp_bind. unfold wp in *.
  destruct (m t) as [[t1 e1] r] eqn:Em. simpl in *. destruct Hm as [K F].
  destruct r as [a|e|]; simpl in *; try (split; auto; fail).
  destruct (Hk a t1 e1 eq_refl K) as [K2 F2]. split; auto. apply Forall_app; auto.
Qed.

Lemma quiet_shift : forall A (m : M A) t0 t, quiet m -> dkeys (nodes t) = dkeys (nodes t0) ->
  wp m (quiet_post t0) t.
Proof.
  intros A m t0 t H E. eapply wp_conseq; [|apply H]. intros t' es r [K F]. split; [congruence|].
  eapply Forall_impl; [|apply F]. simpl. intros a (A1 & A2 & A3). split; auto. split; [congruence|].
  rewrite (has_node_keys t0 t); auto.
Qed.

Lemma quiet_bind : forall A B (m : M A) (k : A -> M B), quiet m -> (forall a, quiet (k a)) -> quiet (bind m k).
Proof.
  intros A B m k Hm Hk t. apply quiet_bind_wp; auto. intros. apply quiet_shift; auto.
Qed.

Lemma quiet_const : forall A (m : M A), (forall t, exists r, m t = (t, [], r)) -> quiet m.
Proof. intros A m H t. destruct (H t) as (r & E). eapply wp_intro; eauto. split; auto. Qed.

Lemma quiet_ret : forall A (a : A), quiet (ret a).
Proof. intros. apply quiet_const. intros. eexists; reflexivity. Qed.
Lemma quiet_raise : forall A e, quiet (@raise A e).
Proof. intros. apply quiet_const. intros. eexists; reflexivity. Qed.
Lemma quiet_get : quiet get.
Proof. intros. apply quiet_const. intros. eexists; reflexivity. Qed.
Lemma quiet_live : forall n, quiet (live n).
Proof. intros. apply quiet_const. intros. unfold live. destruct (dget n (nodes t)); eexists; reflexivity. Qed.
Lemma quiet_is_circular : forall p c, quiet (is_circular p c).
Proof. intros. apply quiet_const. intros. apply is_circular_state. Qed.
Lemma quiet_modify : forall f, (forall t, dkeys (nodes (f t)) = dkeys (nodes t)) -> quiet (modify f).
Proof. intros f H t. eapply wp_intro; [reflexivity|]. split; auto. Qed.
Lemma quiet_destroy : forall p c, quiet (destroy_relationship p c).
Proof.
  intros p c t. destruct (has_node t p && has_node t c) eqn:E.
  - apply andb_true_iff in E. destruct E. eapply wp_intro; [apply destroy_eq; auto|].
    split; auto. apply dkeys_del_edge.
  - eapply wp_intro; [apply destroy_err; auto|]. split; auto.
Qed.
Lemma quiet_create : forall p c, quiet (create_relationship p c).
Proof.
  intros p c t. destruct (has_node t p && has_node t c) eqn:E.
  - apply andb_true_iff in E. destruct E. eapply wp_intro; [apply create_eq; auto|].
    split; auto. apply dkeys_add_edge.
  - unfold create_relationship. unfold has_node, dmem in E. destruct (dget p (nodes t)) eqn:Ep.
    + eapply wp_Ok_nil; [apply node_at_Some; eauto|]. destruct (dget c (nodes t)) eqn:Ec; [discriminate|].
      unfold wp. erewrite bind_Err by (apply node_at_None; auto). simpl. split; auto.
    + unfold wp. erewrite bind_Err by (apply node_at_None; auto). simpl. split; auto.
Qed.
Lemma quiet_for_each : forall X (l : list X) body, (forall x, quiet (body x)) -> quiet (for_each l body).
Proof. induction l; simpl; intros; [apply quiet_ret|]. apply quiet_bind; auto. Qed.
Lemma quiet_pend_remove : forall r, quiet (pend_remove r).
Proof. intros r t. unfold wp, pend_remove. destruct (rel_mem r (pend t)); simpl; split; auto. Qed.

Lemma quiet_callback : forall n t0 t, has_node t0 n = true -> dkeys (nodes t) = dkeys (nodes t0) ->
  wp (callback EModified n) (quiet_post t0) t.
Proof. intros. eapply wp_intro; [reflexivity|]. split; auto. Qed.

Ltac qt :=
  first
    [ apply quiet_ret | apply quiet_raise | apply quiet_get | apply quiet_live | apply quiet_is_circular
    | apply quiet_destroy | apply quiet_create | apply quiet_pend_remove
    | apply quiet_modify; intros; simpl; rewrite ?dkeys_upd; reflexivity ].

Ltac qs := first [ apply quiet_shift; [qt|simpl; rewrite ?dkeys_upd; auto] ].

Lemma quiet_new_relationship : forall p c, quiet (new_relationship p c).
Proof.
  intros p c. unfold new_relationship. apply quiet_bind; [qt|]. intros _.
  destruct (_ || _); [qt|]. intros t. apply wp_get.
  destruct (negb (has_node t p) || negb (has_node t c)) eqn:El; [apply quiet_modify; auto|].
  apply orb_false_iff in El. destruct El as [Hp Hc]. apply negb_false_iff in Hp, Hc.
  apply quiet_bind_wp; auto; [qt|]. intros circ t1 _ _ K1. destruct circ.
  - apply quiet_shift; auto. apply quiet_bind; [qt|]. intros; qt.
  - apply quiet_bind_wp; auto; [qs|]. intros _ t2 _ _ K2. apply quiet_bind_wp; auto; [qs|]. intros _ t3 _ _ K3.
    apply quiet_bind_wp; auto; [apply quiet_callback; auto|]. intros _ t4 _ _ K4. apply quiet_callback; auto.
Qed.

Lemma quiet_root_add_child : forall c, quiet (root_add_child c).
Proof.
  intros. unfold root_add_child. destruct (String.eqb _ _); [qt|]. apply quiet_bind; [qt|]. intros t.
  destruct (mem _ _); [qt|]. destruct (dget c (nodes t)) as [cn|]; [|apply quiet_modify; auto].
  destruct (pen cn); [|qt]. apply quiet_bind; [qt|]. intros; apply quiet_new_relationship.
Qed.

Lemma quiet_break_relationship : forall p c, quiet (break_relationship p c).
Proof.
  intros p c. unfold break_relationship. apply quiet_bind; [qt|]. intros _.
  destruct (_ || _); [qt|]. intros t. apply wp_get.
  destruct (negb (has_node t p) || negb (has_node t c)) eqn:El; [qt|].
  apply orb_false_iff in El. destruct El as [Hp Hc]. apply negb_false_iff in Hp, Hc.
  apply quiet_bind_wp; auto; [qt|]. intros _ t1 _ _ K1. apply wp_get.
  apply quiet_bind_wp; auto.
  - destruct (get_parents t1 c); apply quiet_shift; auto; [apply quiet_root_add_child|qt].
  - intros _ t2 _ _ K2. apply quiet_bind_wp; auto; [apply quiet_callback; auto|].
    intros _ t3 _ _ K3. apply quiet_callback; auto.
Qed.

Lemma quiet_add_parent : forall n p, quiet (add_parent n p).
Proof.
  intros. unfold add_parent. apply quiet_bind; [qt|]. intros nd. destruct (_ && _); [|qt].
  apply quiet_bind; [qt|]. intros t. destruct p as [x|]; [|apply quiet_modify; auto].
  destruct (dget x (nodes t)) as [pn|]; [|apply quiet_modify; auto].
  destruct (cen pn); [apply quiet_new_relationship|qt].
Qed.

Lemma quiet_remove_parent : forall n p, quiet (remove_parent n p).
Proof.
  intros. unfold remove_parent. apply quiet_bind; [qt|]. intros nd. destruct (_ && _); [|qt].
  apply quiet_bind; [qt|]. intros; apply quiet_break_relationship.
Qed.

Lemma quiet_drop_other_parents : forall fuel n p i flag, quiet (drop_other_parents fuel n p i flag).
Proof.
  induction fuel; intros; cbn [drop_other_parents]; (apply quiet_bind; [qt|]); intros nd;
  destruct (nth_error (par nd) i) as [q|]; try apply quiet_ret.
  - apply quiet_const. intros; eexists; reflexivity.
  - destruct (String.eqb q p); [apply IHfuel|].
    apply quiet_bind; [apply quiet_remove_parent|]. intros; apply IHfuel.
Qed.

Lemma quiet_set_parent : forall n p, quiet (set_parent n p).
Proof.
  intros. unfold set_parent. apply quiet_bind; [qt|]. intros nd. destruct (_ && _); [|qt].
  apply quiet_bind; [qt|]. intros t. destruct p as [x|].
  - destruct (dget x (nodes t)) as [pn|].
    + destruct (cen pn); [|qt]. apply quiet_bind; [apply quiet_drop_other_parents|]. intros fl.
      destruct (_ && _); [apply quiet_add_parent|qt].
    + apply quiet_bind; [apply quiet_for_each; intros; apply quiet_break_relationship|].
      intros; apply quiet_modify; auto.
  - apply quiet_bind; [apply quiet_for_each; intros; apply quiet_break_relationship|].
    intros; apply quiet_modify; auto.
Qed.

Lemma quiet_add_child : forall n c, quiet (add_child n c).
Proof.
  intros. unfold add_child. apply quiet_bind; [qt|]. intros nd. destruct (_ && _); [|qt].
  destruct (mem c (chi nd)); [qt|]. apply quiet_bind; [qt|]. intros t.
  destruct (dget c (nodes t)) as [cn|]; [|apply quiet_modify; auto]. destruct (pen cn); [|qt].
  apply quiet_bind; [qt|]. intros; apply quiet_new_relationship.
Qed.

Lemma quiet_set_parents_enabled : forall n b, quiet (set_parents_enabled n b).
Proof.
  intros. unfold set_parents_enabled. apply quiet_bind; [qt|]. intros nd. apply quiet_bind; [qt|]. intros t.
  apply quiet_bind; [destruct b; [qt|apply quiet_for_each; intros; apply quiet_remove_parent]|].
  intros. qt.
Qed.

Lemma quiet_set_children_enabled : forall n b, quiet (set_children_enabled n b).
Proof.
  intros. unfold set_children_enabled. apply quiet_bind; [qt|]. intros nd. apply quiet_bind; [qt|]. intros t.
  apply quiet_bind; [destruct b; [qt|apply quiet_for_each; intros; apply quiet_break_relationship]|].
  intros. qt.
Qed.

Lemma quiet_modify_node : forall n, quiet (modify_node n).
Proof.
  intros n t. unfold modify_node. apply wp_get. destruct (_ && _) eqn:E; [|qt].
  apply andb_true_iff in E. apply quiet_callback; tauto.
Qed.

Lemma quiet_set_node_data : forall n v, quiet (set_node_data n v).
Proof.
  intros. unfold set_node_data. apply quiet_bind; [qt|]. intros nd. apply quiet_bind; [qt|].
  intros; apply quiet_modify_node.
Qed.

Lemma quiet_refresh_all : quiet refresh_all.
Proof. apply quiet_bind; [qt|]. intros. apply quiet_for_each. apply quiet_modify_node. Qed.

(** Every call other than an addition or a deletion. *)
Definition add_or_del (o : mop) : bool :=
  match o with AddNode _ _ _ => true | DelNode _ _ => true | _ => false end.

Lemma quiet_run_op : forall o, add_or_del o = false -> quiet (run_op o).
Proof.
  destruct o; simpl; intros; try discriminate.
  - apply quiet_modify_node.
  - apply quiet_set_node_data.
  - apply quiet_refresh_all.
  - apply quiet_new_relationship.
  - apply quiet_break_relationship.
  - apply quiet_add_parent.
  - apply quiet_set_parent.
  - apply quiet_remove_parent.
  - apply quiet_add_child.
  - apply quiet_set_parents_enabled.
  - apply quiet_set_children_enabled.
  - unfold move_node. apply quiet_bind; [qt|]. intros t. destruct (has_node t n); [apply quiet_set_parent|qt].
  - unfold tree_add_parent. apply quiet_bind; [qt|]. intros t. destruct (has_node t n); [apply quiet_add_parent|qt].
Qed.

(** The invariant over whole calls. *)
Lemma run_op_keeps : forall s o t, good s t -> fresh_add o -> (s = true -> unlisted_add t o) ->
  (match o with DelNode _ true => has_node t "" = false | _ => True end) ->
  wp (run_op o) (keeps_post s) t.
Proof.
  intros s o t G Hf Hs He. destruct o; simpl in *.
  - apply add_node_keeps; auto.
  - eapply wp_conseq; [|apply (del_node_good s); auto]. simpl. intros t' es r (A & B & C & D).
    split; auto. split; auto. apply D. destruct recursive; auto.
  - apply modify_node_keeps; auto.
  - apply set_node_data_keeps; auto.
  - apply refresh_all_keeps; auto.
  - apply new_relationship_keeps; auto.
  - apply break_relationship_keeps; auto.
  - apply add_parent_keeps; auto.
  - apply set_parent_keeps; auto.
  - apply remove_parent_keeps; auto.
  - apply add_child_keeps; auto.
  - apply set_parents_enabled_keeps; auto.
  - apply set_children_enabled_keeps; auto.
  - unfold move_node. apply wp_get. destruct (has_node t n); [apply set_parent_keeps|apply keeps_ret]; auto.
  - unfold tree_add_parent. apply wp_get. destruct (has_node t n); [apply add_parent_keeps|apply keeps_ret]; auto.
Qed.

Lemma run_op_good : forall s o t, good s t -> fresh_add o -> (s = true -> unlisted_add t o) ->
  wp (run_op o) (fun t' es _ => good s t' /\ Forall (fun e => good s (ev_tree e)) es) t.
Proof.
  intros s o t G Hf Hs. destruct o as [| n [|] | | | | | | | | | | | | |];
  try (eapply wp_conseq; [|apply (run_op_keeps s); auto; exact I]; intros t' es r (A & B & C); auto; fail).
  eapply wp_conseq; [|apply (del_node_good s); auto]. simpl. intros t' es r (A & B & C & D). auto.
Qed.

Lemma good_empty : forall s, good s empty_tree.
Proof.
  constructor; [apply ok_empty|]. intros x c _ _ _ Hc. unfold childs in Hc. simpl in Hc. tauto.
Qed.
