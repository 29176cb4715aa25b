(** The signals sent before do not matter. *)
From Verif Require Import Base BaseFacts MainTree Filters FTree.
Open Scope f_scope.

Definition pre (l : list sig) (s : ft) : ft := mkFT (froot s) (fnodes s) (flat s) (filters s) (runonce s) (l ++ sent s) (tick s).

(** [m] runs in the same way whatever was sent before. *)
Definition blind {A} (m : FM A) : Prop := forall l s, m (pre l s) = (pre l (fst (m s)), snd (m s)).

Lemma pre_send : forall l x s, send x (pre l s) = pre l (send x s).
Proof. intros. unfold send, pre. simpl. rewrite app_assoc. auto. Qed.

Lemma blind_bind : forall A B (m : FM A) (k : A -> FM B), blind m -> (forall a, blind (k a)) -> blind (fbind m k).
Proof.
  intros A B m k Hm Hk l s. unfold fbind. rewrite Hm. destruct (m s) as [s1 [a|e|]]; simpl; auto. apply Hk.
Qed.
Lemma blind_ret : forall A (a : A), blind (fret a).
Proof. intros A a l s. auto. Qed.
Lemma blind_raise : forall A e, blind (@fraise A e).
Proof. intros A a l s. auto. Qed.
Lemma blind_diverge : forall A, blind (@fdiverge A).
Proof. intros A l s. auto. Qed.
Lemma blind_get : forall B (k : ft -> FM B), (forall s0, blind (k s0)) -> (forall s0 l, k (pre l s0) = k s0) -> blind (fbind fget k).
Proof. intros B k H1 H2 l s. unfold fbind, fget. rewrite H2. apply H1. Qed.
Lemma blind_modify : forall f, (forall l s, f (pre l s) = pre l (f s)) -> blind (fmodify f).
Proof. intros f H l s. unfold fmodify. rewrite H. auto. Qed.
Lemma blind_for : forall X (l : list X) body, (forall x, blind (body x)) -> blind (ffor l body).
Proof. induction l; simpl; intros; [apply blind_ret|]. apply blind_bind; auto. Qed.
Lemma blind_node_at : forall n, blind (fnode_at n).
Proof. intros n l s. unfold fnode_at. simpl. destruct (dget n (fnodes s)); auto. Qed.
Lemma blind_upd : forall n f, blind (upd_f n f).
Proof. intros n f l s. unfold upd_f. simpl. destruct (dget n (fnodes s)); auto. Qed.

Lemma blind_added : forall n p, blind (callback_added n p).
Proof.
  intros n p l s. unfold callback_added. destruct (mem n reserved); auto.
  change (runonce (pre l s)) with (runonce s). change (is_displayed (pre l s) n) with (is_displayed s n).
  destruct (dget n (runonce s)) as [[|a acts]|]; rewrite ?pre_send; auto.
  destruct (is_displayed s n); auto.
  assert (E : forall acts s, fold_left (fun s a => send (SRun n a) s) acts (pre l s) = pre l (fold_left (fun s a => send (SRun n a) s) acts s)).
  { clear. induction acts as [|a acts IH]; simpl; intros; auto. rewrite pre_send. auto. }
  rewrite E. cbn [fst snd]. rewrite <- pre_send. auto.
Qed.
Lemma blind_deleted : forall n p, blind (callback_deleted n p).
Proof. intros. apply blind_modify. intros. apply pre_send. Qed.
Lemma blind_modified : forall n p, blind (callback_modified n p).
Proof. intros. apply blind_modify. intros. apply pre_send. Qed.

Lemma fpaths_pre : forall l f s n, fpaths f (pre l s) n = fpaths f s n.
Proof.
  intros l f. induction f as [|f IH]; intros s n; cbn [fpaths]; auto. simpl.
  destruct (String.eqb n (froot s)); auto. destruct (dget n (fnodes s)) as [e|]; auto.
  generalize (fpar e) as ps. induction ps as [|p ps IHp]; auto.
  destruct (dget p (fnodes s)); auto. destruct (mem n (fchi f0)); auto. rewrite IH. rewrite IHp. auto.
Qed.
Lemma blind_paths : forall n, blind (paths_of n).
Proof. intros n l s. unfold paths_of, view_paths. rewrite fpaths_pre. auto. Qed.

Lemma loop_map : forall S R S' R' (f : S -> S') (g : R -> R') (step : S -> ctl S R) (step' : S' -> ctl S' R'),
  (forall s, step' (f s) = match step s with Go s1 => Go (f s1) | Stop r => Stop (g r) end) ->
  forall k s, loop k step' (f s) = match loop k step s with Go s1 => Go (f s1) | Stop r => Stop (g r) end.
Proof.
  intros S R S' R' f g step step' H. induction k as [|k IH]; intros s; simpl; auto.
  rewrite IH. destruct (loop k step s); auto.
Qed.

Lemma blind_loop : forall Q k (step : Q * ft -> ctl (Q * ft) (ft * res unit)) q,
  (forall l q s, step (q, pre l s) = match step (q, s) with Go (q1, s1) => Go (q1, pre l s1) | Stop (s1, r) => Stop (pre l s1, r) end) ->
  forall l s, match loop k step (q, pre l s) with Stop r => r | Go (_, s') => (s', Diverge) end =
    (pre l (fst (match loop k step (q, s) with Stop r => r | Go (_, s') => (s', Diverge) end)),
     snd (match loop k step (q, s) with Stop r => r | Go (_, s') => (s', Diverge) end)).
Proof.
  intros Q k step q H l s.
  assert (E : loop k step (q, pre l s) = match loop k step (q, s) with Go (q1, s1) => Go (q1, pre l s1) | Stop (s1, r) => Stop (pre l s1, r) end).
  { pose proof (loop_map _ _ _ _ (fun x : Q * ft => (fst x, pre l (snd x))) (fun x : ft * res unit => (pre l (fst x), snd x)) step step) as L.
    assert (HS : forall x, step (fst x, pre l (snd x)) = match step x with Go s1 => Go (fst s1, pre l (snd s1)) | Stop r => Stop (pre l (fst r), snd r) end).
    { intros [q0 s0]. simpl. rewrite H. destruct (step (q0, s0)) as [[? ?]|[? ?]]; auto. }
    specialize (L HS k (q, s)). simpl in L. rewrite L. destruct (loop k step (q, s)) as [[? ?]|[? ?]]; auto. }
  rewrite E. destruct (loop k step (q, s)) as [[? ?]|[? ?]]; auto.
Qed.

Lemma blind_add_tree : forall n p, blind (send_add_tree n p).
Proof.
  intros n p. unfold send_add_tree. apply blind_bind; [apply blind_paths|]. intros P l s.
  change (fnodes (pre l s)) with (fnodes s). apply blind_loop. clear. intros l q s. unfold add_step.
  destruct q as [|[n rel] rest]; auto.
  rewrite (blind_for _ P (fun start => callback_added n (start ++ rel))) by (intros; apply blind_added).
  destruct (ffor P (fun start => callback_added n (start ++ rel)) s) as [s1 [[]|e|]]; simpl; auto.
  destruct (dget n (fnodes s1)); auto.
Qed.

Lemma blind_remove_tree : forall n p, blind (send_remove_tree n p).
Proof.
  intros n p. unfold send_remove_tree. apply blind_bind; [apply blind_paths|]. intros P l s.
  change (fnodes (pre l s)) with (fnodes s). apply blind_loop. clear. intros l q s. unfold remove_step.
  destruct q as [|[[n rel] []] rest]; auto.
  - simpl. destruct (dget n (fnodes s)); auto.
  - rewrite (blind_for _ P (fun start => callback_deleted n (start ++ rel))) by (intros; apply blind_deleted).
    destruct (ffor P (fun start => callback_deleted n (start ++ rel)) s) as [s1 [[]|e|]]; simpl; auto.
Qed.

Ltac bl1 :=
  match goal with
  | |- blind (fbind fget _) => apply blind_get; [intros ?|reflexivity]
  | |- blind (fbind _ _) => apply blind_bind; [|intros ?]
  | |- blind (fret _) => apply blind_ret
  | |- blind (fraise _) => apply blind_raise
  | |- blind fdiverge => apply blind_diverge
  | |- blind (fnode_at _) => apply blind_node_at
  | |- blind (upd_f _ _) => apply blind_upd
  | |- blind (paths_of _) => apply blind_paths
  | |- blind (callback_deleted _ _) => apply blind_deleted
  | |- blind (callback_modified _ _) => apply blind_modified
  | |- blind (send_add_tree _ _) => apply blind_add_tree
  | |- blind (send_remove_tree _ _) => apply blind_remove_tree
  | |- blind (fmodify _) => apply blind_modify; intros; reflexivity
  | |- blind (ffor _ _) => apply blind_for; intros ?
  | |- blind (if ?b then _ else _) => destruct b
  | |- blind (let _ := _ in _) => cbv zeta
  | |- blind (children_remove _ _) => unfold children_remove
  | |- blind (parents_remove _ _) => unfold parents_remove
  end.

Section Blind.
  Variable ord : nat -> list id -> list id.
  Variable T : mtree.
  Variable D : id -> bool.

  Lemma blind_iterate : forall l body, (forall x, blind (body x)) -> blind (iterate_set ord l body).
  Proof.
    intros l body H p s. unfold iterate_set. change (bump (pre p s)) with (pre p (bump s)). change (tick (pre p s)) with (tick s).
    apply blind_for. auto.
  Qed.

  Lemma blind_shown : forall rec n dir a, (forall x d, blind (rec x d)) -> blind (update_shown ord T D rec n dir a).
  Proof. intros rec n dir a H. unfold update_shown. repeat first [apply H | apply blind_iterate; intros ? | bl1]. Qed.

  Lemma blind_hidden : forall rec n, (forall x d, blind (rec x d)) -> blind (update_hidden T rec n).
  Proof. intros rec n H. unfold update_hidden. repeat first [apply H | bl1]. Qed.

  Lemma blind_update_node : forall f n dir, blind (update_node ord T D f n dir).
  Proof.
    induction f as [|f IH]; intros n dir; cbn [update_node]; [apply blind_diverge|]. unfold update_body.
    apply blind_get; [intros s0|reflexivity]. destruct (String.eqb n (froot s0)); [apply blind_ret|]. cbv zeta.
    destruct (is_displayed s0 n); destruct (D n).
    - apply blind_shown. auto.
    - apply blind_hidden. auto.
    - apply blind_bind; [apply blind_modify; reflexivity|]. intros _. apply blind_shown. auto.
    - repeat first [apply IH | bl1].
  Qed.

  Lemma blind_update : forall n dir, blind (update ord T D n dir).
  Proof. intros n dir l s. unfold update. change (update_budget T (pre l s)) with (update_budget T s). apply blind_update_node. Qed.

  Lemma blind_rebuild : blind (rebuild ord T D).
  Proof.
    unfold rebuild. repeat bl1. intros l s. apply blind_loop. clear. intros l q s. unfold refilter_step.
    destruct q as [|n rest]; auto. rewrite blind_update. destruct (update ord T D n Both s) as [s1 [[]|e|]]; simpl; auto.
    destruct (dget n (nodes T)); auto. destruct (String.eqb n main_root); auto.
  Qed.
End Blind.

Lemma blind_external : forall ord b T n, blind (external_modify ord b T n).
Proof. intros ord b T n l s. unfold external_modify. apply blind_update. Qed.
Lemma blind_feed : forall ord b es, blind (feed ord b es).
Proof. intros. apply blind_for. intros. apply blind_external. Qed.
Lemma blind_refilter : forall ord b T, blind (refilter ord b T).
Proof. intros ord b T l s. unfold refilter.
  exact (blind_rebuild ord T (shown b T s) l (set_flat (any_flat b (filters s)) s)). Qed.
Lemma blind_state : blind get_current_state.
Proof. unfold get_current_state. repeat bl1. Qed.
Lemma blind_unapply : forall ord b T name r, blind (unapply_filter ord b T name r).
Proof. intros. unfold unapply_filter. repeat first [apply blind_refilter|bl1]. Qed.
Lemma blind_reset : forall ord b T r, blind (reset_filters ord b T r).
Proof. intros. unfold reset_filters. repeat first [apply blind_refilter|bl1]. Qed.
Lemma blind_queue : forall n a, blind (queue_action n a).
Proof.
  intros n a l s. unfold queue_action. destruct (negb (truthy n)); auto.
  change (is_displayed (pre l s) n) with (is_displayed s n). destruct (is_displayed s n); auto.
Qed.

(** So nothing is ever taken back. *)
Lemma pre_nil : forall s, s = pre (sent s) (mkFT (froot s) (fnodes s) (flat s) (filters s) (runonce s) [] (tick s)).
Proof. intros []. unfold pre. simpl. rewrite app_nil_r. auto. Qed.
Lemma blind_extends : forall A (m : FM A) s, blind m -> exists l, sent (fst (m s)) = sent s ++ l.
Proof. intros A m s H. pose proof (H (sent s) (mkFT (froot s) (fnodes s) (flat s) (filters s) (runonce s) [] (tick s))) as E.
  rewrite <- pre_nil in E. rewrite E. simpl. eauto.
Qed.
