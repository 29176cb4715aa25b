(** During a call of the tree, nodes have parents they had before, or have after it. *)
From Verif Require Import Base BaseFacts MainTree Spec MainFacts MainOps MainInv MainRun MainReg FtTree.
Open Scope m_scope.

Definition fewer (t' t : mtree) : Prop := forall x p, In p (parents t' x) -> In p (parents t x).
Lemma fewer_refl : forall t, fewer t t.
Proof. intros t x p H. auto. Qed.
Lemma fewer_trans : forall a b c, fewer a b -> fewer b c -> fewer a c.
Proof. intros a b c H1 H2 x p H. auto. Qed.
Lemma fewer_lone : forall t t', fewer t' t -> lone_tree t -> lone_tree t'.
Proof. intros t t' H L x p q Hp Hq. apply (L x); auto. Qed.
Lemma fewer_nodes : forall t t', nodes t' = nodes t -> fewer t' t.
Proof. intros t t' E x p. unfold parents. rewrite E. auto. Qed.
Lemma fewer_upd : forall n f t, (forall nd, incl (par (f nd)) (par nd)) -> fewer (upd_node n f t) t.
Proof.
  intros n f t H x p. unfold parents. rewrite dget_upd. deq x n; auto. subst. destruct (dget n (nodes t)); simpl; auto. apply H.
Qed.

(** No node is called like the root, and names are unique. *)
Definition plain (t : mtree) : Prop := has_node t main_root = false /\ NoDup (dkeys (nodes t)).
Lemma plain_nodes : forall t t', nodes t' = nodes t -> plain t -> plain t'.
Proof. intros t t' E [H N]. unfold plain, has_node in *. rewrite E. auto. Qed.
Lemma plain_upd : forall n f t, plain t -> plain (upd_node n f t).
Proof. intros n f t [H N]. split; [rewrite has_node_upd; auto|rewrite dkeys_upd; auto]. Qed.

(** [shrinks m]: parents are only removed. *)
Definition shrinks {A} (m : M A) : Prop := forall t, plain t ->
  wp m (fun t' es _ => plain t' /\ fewer t' t /\ Forall (fun e => fewer (ev_tree e) t) es) t.

Lemma sh_bind : forall A B (m : M A) (k : A -> M B), shrinks m -> (forall a, shrinks (k a)) -> shrinks (bind m k).
Proof.
  intros A B m k Hm Hk t P. apply wp_bind. pose proof (Hm t P) as H. unfold wp in *.
  destruct (m t) as [[t1 e1] r]. simpl in *. destruct H as (P1 & H1 & H2). destruct r as [a|e|]; auto.
  pose proof (Hk a t1 P1) as H. unfold wp in H. destruct (k a t1) as [[t2 e2] r2]. simpl in *. destruct H as (P2 & H3 & H4).
  split; auto. split; [eapply fewer_trans; eauto|]. apply Forall_app. split; auto.
  eapply Forall_impl; [|exact H4]. simpl. intros e He. eapply fewer_trans; eauto.
Qed.
Lemma sh_same : forall A (m : M A), (forall t, exists r, m t = (t, [], r)) -> shrinks m.
Proof. intros A m H t P. destruct (H t) as (r & E). unfold wp. rewrite E. simpl. split; auto. split; [apply fewer_refl|auto]. Qed.
Lemma sh_ret : forall A (a : A), shrinks (ret a).
Proof. intros. apply sh_same. intros. eexists; reflexivity. Qed.
Lemma sh_raise : forall A e, shrinks (@raise A e).
Proof. intros. apply sh_same. intros. eexists; reflexivity. Qed.
Lemma sh_diverge : forall A, shrinks (@diverge A).
Proof. intros. apply sh_same. intros. eexists; reflexivity. Qed.
Lemma sh_get : shrinks get.
Proof. intros. apply sh_same. intros. eexists; reflexivity. Qed.
Lemma sh_live : forall n, shrinks (live n).
Proof. intros. apply sh_same. intros. unfold live. destruct (dget n (nodes t)); eexists; reflexivity. Qed.
Lemma sh_node_at : forall n, shrinks (node_at n).
Proof. intros. apply sh_same. intros. unfold node_at. destruct (dget n (nodes t)); eexists; reflexivity. Qed.
Lemma sh_callback : forall k n, shrinks (callback k n).
Proof. intros k n t P. unfold wp. simpl. split; auto. split; [apply fewer_refl|]. constructor; auto. apply fewer_refl. Qed.
Lemma sh_modify : forall f, (forall t, plain t -> plain (f t) /\ fewer (f t) t) -> shrinks (modify f).
Proof. intros f H t P. unfold wp. simpl. destruct (H t P). auto. Qed.
Lemma sh_quiet : forall f, (forall t, nodes (f t) = nodes t) -> shrinks (modify f).
Proof. intros f H. apply sh_modify. intros t P. split; [apply (plain_nodes t); auto|apply fewer_nodes; auto]. Qed.
Lemma sh_upd : forall n f, (forall nd, incl (par (f nd)) (par nd)) -> shrinks (modify (upd_node n f)).
Proof. intros n f H. apply sh_modify. intros t P. split; [apply plain_upd; auto|apply fewer_upd; auto]. Qed.
Lemma sh_append : forall r, shrinks (pend_append r).
Proof. intros. apply sh_quiet. auto. Qed.
Lemma sh_for_each : forall Y (l : list Y) body, (forall x, shrinks (body x)) -> shrinks (for_each l body).
Proof. induction l; simpl; intros; [apply sh_ret|]. apply sh_bind; auto. Qed.
Lemma sh_destroy : forall p c, shrinks (destroy_relationship p c).
Proof.
  intros. unfold destroy_relationship. apply sh_bind; [apply sh_node_at|]. intros _. apply sh_bind; [apply sh_node_at|]. intros _.
  apply sh_modify. intros t P. cbv zeta. split; [do 2 apply plain_upd; auto|].
  eapply fewer_trans; apply fewer_upd; intros nd; simpl; [intros x Hx; eapply remove1_In; eauto|apply incl_refl].
Qed.

Ltac sh1 :=
  first
    [ apply sh_ret | apply sh_raise | apply sh_diverge | apply sh_get | apply sh_live | apply sh_node_at
    | apply sh_callback | apply sh_destroy | apply sh_append | apply sh_quiet; reflexivity
    | apply sh_for_each; intros
    | apply sh_bind; [|intros]
    | match goal with |- context [if ?b then _ else _] => destruct b end
    | match goal with |- context [match ?b with _ => _ end] => destruct b end ].

(** The root is no node, so nothing is put below it. *)
Lemma sh_new_root : forall c, shrinks (new_relationship main_root c).
Proof.
  intros c t P. unfold new_relationship. apply wp_bind. unfold wp at 1. cbn [modify fst snd].
  set (t1 := set_pend _ t). assert (P1 : plain t1) by (apply (plain_nodes t); auto).
  destruct (_ || String.eqb main_root c); [split; auto; split; [apply fewer_nodes; auto|constructor]|].
  cbn [bind get]. unfold bind, get. cbn. destruct P1 as [P1 N1]. fold (has_node t1 main_root).
  unfold wp. cbn. rewrite P1. cbn. split; [split; auto|]. split; [apply fewer_nodes; auto|constructor].
Qed.
Lemma sh_root_add : forall c, shrinks (root_add_child c).
Proof. intros. unfold root_add_child. repeat first [apply sh_new_root|sh1]. Qed.
Lemma sh_break : forall p c, shrinks (break_relationship p c).
Proof. intros. unfold break_relationship. repeat first [apply sh_root_add|sh1]. Qed.
Lemma sh_remove_parent : forall n p, shrinks (remove_parent n p).
Proof.
  intros. unfold remove_parent. repeat first [apply sh_break|sh1].
  apply sh_upd. intros nd x Hx. simpl in Hx. eapply remove1_In; eauto.
Qed.
Lemma sh_drop : forall fuel n p i flag, shrinks (drop_other_parents fuel n p i flag).
Proof. induction fuel; intros; cbn [drop_other_parents]; repeat first [apply sh_remove_parent|apply IHfuel|sh1]. Qed.
Lemma sh_parents_enabled : forall n b, shrinks (set_parents_enabled n b).
Proof. intros. unfold set_parents_enabled. repeat first [apply sh_remove_parent|apply sh_upd; intros nd; apply incl_refl|sh1]. Qed.
Lemma sh_children_enabled : forall n b, shrinks (set_children_enabled n b).
Proof. intros. unfold set_children_enabled. repeat first [apply sh_break|apply sh_upd; intros nd; apply incl_refl|sh1]. Qed.
Lemma sh_modify_node : forall n, shrinks (modify_node n).
Proof. intros. unfold modify_node. repeat sh1. Qed.
Lemma sh_refresh_all : shrinks refresh_all.
Proof. unfold refresh_all. repeat first [apply sh_modify_node|sh1]. Qed.
Lemma sh_set_data : forall n v, shrinks (set_node_data n v).
Proof. intros. unfold set_node_data. repeat first [apply sh_modify_node|apply sh_upd; intros nd; apply incl_refl|sh1]. Qed.
Lemma sh_remove_parents : forall fuel n i, shrinks (remove_parents fuel n i).
Proof. induction fuel; intros; cbn [remove_parents]; repeat first [apply IHfuel|sh1]. Qed.
Lemma sh_remove_child : forall n c, shrinks (remove_child n c).
Proof. intros. unfold remove_child. repeat sh1. Qed.
Lemma sh_remove_node : forall fuel n r, shrinks (remove_node fuel n r).
Proof.
  induction fuel; intros n r; cbn [remove_node]; repeat first [apply sh_remove_parents|apply sh_remove_child|apply IHfuel|sh1].
  all: apply sh_modify; intros t [P N]; split;
    [split; [unfold has_node, dmem in *; simpl; rewrite dget_ddel by auto; deq main_root n; auto|apply ddel_NoDup; auto]|
     intros x p; unfold parents; simpl; rewrite dget_ddel by auto; deq x n; auto; intros []].
Qed.

(** [late m]: the events come at the end. *)
Definition mute {A} (m : M A) : Prop := forall t, snd (fst (m t)) = [].
Definition late {A} (m : M A) : Prop := forall t, Forall (fun e => ev_tree e = fst (fst (m t))) (snd (fst (m t))).
Lemma mute_bind : forall A B (m : M A) (k : A -> M B), mute m -> (forall a, mute (k a)) -> mute (bind m k).
Proof.
  intros A B m k Hm Hk t. unfold bind. pose proof (Hm t) as H. destruct (m t) as [[t1 e1] [a|e|]]; simpl in *; auto.
  pose proof (Hk a t1) as H1. destruct (k a t1) as [[t2 e2] r]. simpl in *. subst. auto.
Qed.
Lemma late_bind : forall A B (m : M A) (k : A -> M B), mute m -> (forall a, late (k a)) -> late (bind m k).
Proof.
  intros A B m k Hm Hk t. unfold bind. pose proof (Hm t) as H. destruct (m t) as [[t1 e1] [a|e|]]; simpl in *; subst; try constructor.
  pose proof (Hk a t1) as H1. destruct (k a t1) as [[t2 e2] r]. simpl in *. auto.
Qed.
Lemma mute_late : forall A (m : M A), mute m -> late m.
Proof. intros A m H t. rewrite (H t). constructor. Qed.
Lemma mute_same : forall A (m : M A), (forall t, exists t' r, m t = (t', [], r)) -> mute m.
Proof. intros A m H t. destruct (H t) as (t' & r & ->). auto. Qed.
Lemma mute_circular : forall p c, mute (is_circular p c).
Proof. intros p c t. unfold is_circular. destruct (loop _ _ _); auto. Qed.
Lemma mute_modify : forall f, mute (modify f).
Proof. intros f t. auto. Qed.
Lemma mute_remove : forall r, mute (pend_remove r).
Proof. intros r t. unfold pend_remove. destruct (rel_mem r (pend t)); auto. Qed.
Lemma mute_node_at : forall n, mute (node_at n).
Proof. intros n t. unfold node_at. destruct (dget n (nodes t)); auto. Qed.
Lemma mute_live : forall n, mute (live n).
Proof. intros n t. unfold live. destruct (dget n (nodes t)); auto. Qed.
Lemma mute_get : mute get.
Proof. intros t. auto. Qed.
Lemma mute_ret : forall A (a : A), mute (ret a).
Proof. intros A a t. auto. Qed.
Lemma mute_raise : forall A e, mute (@raise A e).
Proof. intros A e t. auto. Qed.
Lemma late_callback : forall k n, late (callback k n).
Proof. intros k n t. simpl. auto. Qed.
Lemma late_callbacks : forall k n k' n', late (callback k n ;; callback k' n').
Proof. intros k n k' n' t. simpl. auto. Qed.
Ltac mu1 :=
  first [ apply mute_ret | apply mute_raise | apply mute_get | apply mute_live | apply mute_node_at | apply mute_circular | apply mute_remove
    | apply mute_modify | apply mute_bind; [|intros]
    | match goal with |- context [if ?b then _ else _] => destruct b end
    | match goal with |- context [match ?b with _ => _ end] => destruct b end ].
Lemma mute_create : forall p c, mute (create_relationship p c).
Proof. intros. unfold create_relationship. repeat mu1. Qed.
Lemma mute_destroy : forall p c, mute (destroy_relationship p c).
Proof. intros. unfold destroy_relationship. repeat mu1. Qed.
Lemma mute_append : forall r, mute (pend_append r).
Proof. intros r t. auto. Qed.
Lemma mute_pending : forall n r b, mute (build_pending n r b).
Proof. intros. unfold build_pending. repeat first [apply mute_create|mu1]. Qed.
Lemma mute_pendings : forall n l b, mute (build_pendings n l b).
Proof. induction l; intros b; cbn [build_pendings]; [apply mute_ret|]. apply mute_bind; auto. apply mute_pending. Qed.
Ltac la1 :=
  first [ apply late_callback | apply late_callbacks
    | apply mute_late; repeat first [apply mute_create|apply mute_destroy|apply mute_append|apply mute_pendings|mu1]; fail
    | apply late_bind; [repeat first [apply mute_create|apply mute_destroy|apply mute_append|apply mute_pendings|mu1]; fail|intros]
    | match goal with |- context [if ?b then _ else _] => destruct b end
    | match goal with |- context [match ?b with _ => _ end] => destruct b end ].
Lemma late_new : forall p c, late (new_relationship p c).
Proof. intros. unfold new_relationship. repeat la1. Qed.
Lemma late_add_parent : forall n p, late (add_parent n p).
Proof. intros. unfold add_parent. repeat first [apply late_new|la1]. Qed.
Lemma late_add_child : forall n c, late (add_child n c).
Proof. intros. unfold add_child. repeat first [apply late_new|la1]. Qed.
Lemma late_add_node : forall n nd p, late (add_node n nd p).
Proof. intros. unfold add_node. repeat la1. Qed.

(** In between, the parents are among those before, or those after. *)
Definition between {A} (m : M A) : Prop := forall t, plain t ->
  Forall (fun e => fewer (ev_tree e) t \/ fewer (ev_tree e) (fst (fst (m t)))) (snd (fst (m t))).
Lemma bt_shrinks : forall A (m : M A), shrinks m -> between m.
Proof. intros A m H t P. destruct (H t P) as (_ & _ & F). eapply Forall_impl; [|exact F]. auto. Qed.
Lemma bt_late : forall A (m : M A), late m -> between m.
Proof. intros A m H t P. eapply Forall_impl; [|exact (H t)]. simpl. intros e ->. right. apply fewer_refl. Qed.
Lemma bt_bind : forall A B (m : M A) (k : A -> M B), shrinks m -> (forall a, between (k a)) -> between (bind m k).
Proof.
  intros A B m k Hm Hk t P. pose proof (Hm t P) as H. unfold wp in H. unfold bind. destruct (m t) as [[t1 e1] r]. cbn [fst snd] in *.
  destruct H as (P1 & H1 & H2).
  destruct r as [a|e|]; [|cbn [fst snd]; eapply Forall_impl; [|exact H2]; auto ..].
  pose proof (Hk a t1 P1) as H3. destruct (k a t1) as [[t2 e2] r2]. cbn [fst snd] in *. apply Forall_app. split; [eapply Forall_impl; [|exact H2]; auto|].
  eapply Forall_impl; [|exact H3]. simpl. intros e [H|H]; [left; eapply fewer_trans; eauto|right; auto].
Qed.
Lemma bt_set_parent : forall n p, between (set_parent n p).
Proof.
  intros. unfold set_parent.
  repeat first
    [ apply bt_shrinks; repeat first [apply sh_break|sh1]; fail
    | apply bt_late; apply late_add_parent
    | apply bt_bind; [first [apply sh_drop|apply sh_break|sh1]|intros]
    | match goal with |- context [if ?b then _ else _] => destruct b end
    | match goal with |- context [match ?b with _ => _ end] => destruct b end ].
Qed.
Lemma bt_op : forall o, between (run_op o).
Proof.
  intros o. destruct o; cbn [run_op].
  - apply bt_late, late_add_node.
  - apply bt_shrinks. unfold del_node. apply sh_bind; [apply sh_get|intros; apply sh_remove_node].
  - apply bt_shrinks, sh_modify_node.
  - apply bt_shrinks, sh_set_data.
  - apply bt_shrinks, sh_refresh_all.
  - apply bt_late, late_new.
  - apply bt_shrinks, sh_break.
  - apply bt_late, late_add_parent.
  - apply bt_set_parent.
  - apply bt_shrinks, sh_remove_parent.
  - apply bt_late, late_add_child.
  - apply bt_shrinks, sh_parents_enabled.
  - apply bt_shrinks, sh_children_enabled.
  - unfold move_node. apply bt_bind; [apply sh_get|]. intros t. destruct (has_node t n); [apply bt_set_parent|apply bt_shrinks, sh_ret].
  - unfold tree_add_parent. apply bt_bind; [apply sh_get|]. intros t. destruct (has_node t n); [apply bt_late, late_add_parent|apply bt_shrinks, sh_ret].
Qed.

Lemma lone_between : forall o t, plain t -> lone_tree t -> lone_tree (after o t) -> Forall (fun e => lone_tree (ev_tree e)) (events o t).
Proof.
  intros o t P L L'. eapply Forall_impl; [|exact (bt_op o t P)]. intros e [H|H]; eapply fewer_lone; eauto.
Qed.
Lemma reg_plain : forall t, reg t -> plain t.
Proof. intros t R. split; [apply (r_main _ R)|apply (ok_keys _ (g_ok _ _ _ (r_good _ R)))]. Qed.
