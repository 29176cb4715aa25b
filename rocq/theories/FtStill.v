(** What hearing an event never changes in a view: its root, its filters and
    whether it is flat. *)
From Verif Require Import Base BaseFacts MainTree Filters FTree FtSent.
Open Scope f_scope.

Definition samef (s s' : ft) : Prop := froot s' = froot s /\ filters s' = filters s /\ flat s' = flat s.
Definition still {A} (m : FM A) : Prop := forall s, samef s (fst (m s)).

Lemma samef_refl : forall s, samef s s.
Proof. intros. unfold samef. auto. Qed.
Lemma samef_trans : forall a b c, samef a b -> samef b c -> samef a c.
Proof. unfold samef. intros. intuition congruence. Qed.

Lemma still_bind : forall A B (m : FM A) (k : A -> FM B), still m -> (forall a, still (k a)) -> still (fbind m k).
Proof.
  intros A B m k Hm Hk s. unfold fbind. specialize (Hm s). destruct (m s) as [s1 [a|e|]]; simpl in *; auto.
  eapply samef_trans; [apply Hm|apply Hk].
Qed.
Lemma still_ret : forall A (a : A), still (fret a).
Proof. intros A a s. (split; [|split]; reflexivity). Qed.
Lemma still_raise : forall A e, still (@fraise A e).
Proof. intros A a s. (split; [|split]; reflexivity). Qed.
Lemma still_diverge : forall A, still (@fdiverge A).
Proof. intros A s. (split; [|split]; reflexivity). Qed.
Lemma still_get : still fget.
Proof. intros s. (split; [|split]; reflexivity). Qed.
Lemma still_modify : forall f, (forall s, samef s (f s)) -> still (fmodify f).
Proof. intros f H s. apply H. Qed.
Lemma still_for : forall X (l : list X) body, (forall x, still (body x)) -> still (ffor l body).
Proof. induction l; simpl; intros; [apply still_ret|]. apply still_bind; auto. Qed.
Lemma still_node_at : forall n, still (fnode_at n).
Proof. intros n s. unfold fnode_at. destruct (dget n (fnodes s)); (split; [|split]; reflexivity). Qed.
Lemma still_upd : forall n f, still (upd_f n f).
Proof. intros n f s. unfold upd_f. destruct (dget n (fnodes s)); (split; [|split]; reflexivity). Qed.
Lemma still_paths : forall n, still (paths_of n).
Proof. intros n s. (split; [|split]; reflexivity). Qed.
Lemma still_added : forall n p, still (callback_added n p).
Proof.
  intros n p s. unfold callback_added. destruct (mem n reserved); [(split; [|split]; reflexivity)|].
  destruct (dget n (runonce s)) as [[|a acts]|]; try ((split; [|split]; reflexivity)).
  destruct (is_displayed s n); try ((split; [|split]; reflexivity)).
  assert (E : forall acts s, samef s (fold_left (fun s a => send (SRun n a) s) acts s)).
  { clear. induction acts as [|a acts IH]; simpl; intros; [(split; [|split]; reflexivity)|]. eapply samef_trans; [|apply IH]. unfold samef; auto. }
  specialize (E (a :: acts) s). destruct E as (E1 & E2 & E3). unfold samef. cbn [fst send froot filters flat set_runonce]. auto.
Qed.

Lemma still_loop : forall Q k (step : Q * ft -> ctl (Q * ft) (ft * res unit)) q,
  (forall q s, match step (q, s) with Go (_, s1) => samef s s1 | Stop (s1, _) => samef s s1 end) ->
  forall s, samef s (fst (match loop k step (q, s) with Stop r => r | Go (_, s') => (s', Diverge) end)).
Proof.
  intros Q k step q H s.
  assert (E : match loop k step (q, s) with Go (_, s1) => samef s s1 | Stop (s1, _) => samef s s1 end).
  { revert q s. induction k as [|k IH]; intros q s; simpl; [apply H|].
    pose proof (IH q s) as I1. destruct (loop k step (q, s)) as [[q1 s1]|[s1 r]]; auto.
    pose proof (IH q1 s1) as I2. destruct (loop k step (q1, s1)) as [[q2 s2]|[s2 r]]; eapply samef_trans; eauto. }
  destruct (loop k step (q, s)) as [[? ?]|[? ?]]; auto.
Qed.

Lemma still_add_tree : forall n p, still (send_add_tree n p).
Proof.
  intros n p. unfold send_add_tree. apply still_bind; [apply still_paths|]. intros P s.
  apply still_loop. clear. intros q s. unfold add_step. destruct q as [|[n rel] rest]; [(split; [|split]; reflexivity)|].
  pose proof (still_for _ P (fun start => callback_added n (start ++ rel)) (fun x => still_added _ _) s) as H.
  destruct (ffor P (fun start => callback_added n (start ++ rel)) s) as [s1 [[]|e|]]; simpl in *; auto.
  destruct (dget n (fnodes s1)); auto.
Qed.

Lemma still_remove_tree : forall n p, still (send_remove_tree n p).
Proof.
  intros n p. unfold send_remove_tree. apply still_bind; [apply still_paths|]. intros P s.
  apply still_loop. clear. intros q s. unfold remove_step. destruct q as [|[[n rel] []] rest]; [(split; [|split]; reflexivity)| |].
  - destruct (dget n (fnodes s)); (split; [|split]; reflexivity).
  - pose proof (still_for _ P (fun start => callback_deleted n (start ++ rel)) (fun x => still_modify _ (fun s => conj eq_refl (conj eq_refl eq_refl))) s) as H.
    destruct (ffor P (fun start => callback_deleted n (start ++ rel)) s) as [s1 [[]|e|]]; simpl in *; auto.
Qed.

Ltac st1 :=
  match goal with
  | |- still (fbind _ _) => apply still_bind; [|intros ?]
  | |- still fget => apply still_get
  | |- still (fret _) => apply still_ret
  | |- still (fraise _) => apply still_raise
  | |- still fdiverge => apply still_diverge
  | |- still (fnode_at _) => apply still_node_at
  | |- still (upd_f _ _) => apply still_upd
  | |- still (paths_of _) => apply still_paths
  | |- still (callback_deleted _ _) => apply still_modify; intros; (split; [|split]; reflexivity)
  | |- still (callback_modified _ _) => apply still_modify; intros; (split; [|split]; reflexivity)
  | |- still (send_add_tree _ _) => apply still_add_tree
  | |- still (send_remove_tree _ _) => apply still_remove_tree
  | |- still (fmodify _) => apply still_modify; intros; (split; [|split]; reflexivity)
  | |- still (ffor _ _) => apply still_for; intros ?
  | |- still (if ?b then _ else _) => destruct b
  | |- still (let _ := _ in _) => cbv zeta
  | |- still (children_remove _ _) => unfold children_remove
  | |- still (parents_remove _ _) => unfold parents_remove
  end.

Section Still.
  Variable ord : nat -> list id -> list id.
  Variable T : mtree.
  Variable D : id -> bool.

  Lemma still_iterate : forall l body, (forall x, still (body x)) -> still (iterate_set ord l body).
  Proof. intros l body H s. unfold iterate_set. apply (samef_trans s (bump s)); [(split; [|split]; reflexivity)|]. apply still_for. auto. Qed.

  Lemma still_update_node : forall f n dir, still (update_node ord T D f n dir).
  Proof.
    induction f as [|f IH]; intros n dir; cbn [update_node]; [apply still_diverge|]. unfold update_body.
    apply still_bind; [apply still_get|]. intros s0. destruct (String.eqb n (froot s0)); [apply still_ret|]. cbv zeta.
    destruct (is_displayed s0 n), (D n).
    - unfold update_shown. repeat first [apply IH | apply still_iterate; intros ? | st1].
    - unfold update_hidden. repeat first [apply IH | st1].
    - unfold update_shown. repeat first [apply IH | apply still_iterate; intros ? | st1].
    - repeat first [apply IH | st1].
  Qed.
End Still.

Lemma still_external : forall ord b T n, still (external_modify ord b T n).
Proof. intros ord b T n s. unfold external_modify, update. apply still_update_node. Qed.
