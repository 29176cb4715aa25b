(** What every step of a view respects, the view respects: for a reflexive and
    transitive relation between the state before and the state after. *)
From Verif Require Import Base BaseFacts MainTree Filters FTree.
Open Scope f_scope.

Section Keep.
  Variable R : ft -> ft -> Prop.
  Hypothesis Rrefl : forall s, R s s.
  Hypothesis Rtrans : forall a b c, R a b -> R b c -> R a c.

  Definition keeps {A} (m : FM A) : Prop := forall s, R s (fst (m s)).

  Lemma keeps_bind : forall A B (m : FM A) (k : A -> FM B), keeps m -> (forall a, keeps (k a)) -> keeps (fbind m k).
  Proof.
    intros A B m k Hm Hk s. unfold fbind. specialize (Hm s). destruct (m s) as [s1 [a|e|]]; cbn [fst] in *; auto.
    eapply Rtrans; [apply Hm|apply Hk].
  Qed.
  Lemma keeps_ret : forall A (a : A), keeps (fret a).
  Proof. intros A a s. apply Rrefl. Qed.
  Lemma keeps_raise : forall A e, keeps (@fraise A e).
  Proof. intros A e s. apply Rrefl. Qed.
  Lemma keeps_diverge : forall A, keeps (@fdiverge A).
  Proof. intros A s. apply Rrefl. Qed.
  Lemma keeps_get : forall B (k : ft -> FM B), (forall s0, keeps (k s0)) -> keeps (fbind fget k).
  Proof. intros B k H s. unfold fbind, fget. apply H. Qed.
  Lemma keeps_modify : forall f, (forall s, R s (f s)) -> keeps (fmodify f).
  Proof. intros f H s. apply H. Qed.
  Lemma keeps_for : forall X (l : list X) body, (forall x, keeps (body x)) -> keeps (ffor l body).
  Proof. induction l; simpl; intros; [apply keeps_ret|]. apply keeps_bind; auto. Qed.
  Lemma keeps_node_at : forall n, keeps (fnode_at n).
  Proof. intros n s. unfold fnode_at. destruct (dget n (fnodes s)); apply Rrefl. Qed.
  Lemma keeps_paths : forall n, keeps (paths_of n).
  Proof. intros n s. apply Rrefl. Qed.

  Lemma keeps_loop : forall Q k (step : Q * ft -> ctl (Q * ft) (ft * res unit)),
    (forall q s, match step (q, s) with Go (_, s1) => R s s1 | Stop (s1, _) => R s s1 end) ->
    forall q s, R s (fst (match loop k step (q, s) with Stop r => r | Go (_, s') => (s', Diverge) end)).
  Proof.
    intros Q k step H.
    assert (G : forall q s, match loop k step (q, s) with Go (_, s1) => R s s1 | Stop (s1, _) => R s s1 end).
    { induction k as [|k IH]; simpl; auto. intros q s. pose proof (IH q s) as H1. destruct (loop k step (q, s)) as [[q1 s1]|[s1 r]]; auto.
      specialize (IH q1 s1). destruct (loop k step (q1, s1)) as [[q2 s2]|[s2 r]]; eapply Rtrans; eauto. }
    intros q s. specialize (G q s). destruct (loop k step (q, s)) as [[q1 s1]|[s1 r]]; auto.
  Qed.

  Hypothesis Radded : forall n p, keeps (callback_added n p).

  Lemma keeps_add_tree : forall n p, keeps (send_add_tree n p).
  Proof.
    intros n p. unfold send_add_tree. apply keeps_bind; [apply keeps_paths|]. intros P s. apply keeps_loop.
    clear n p s. intros q s. unfold add_step. destruct q as [|[n rel] rest]; auto.
    pose proof (keeps_for _ P (fun start => callback_added n (start ++ rel)) (fun x => Radded n _) s) as H.
    destruct (ffor P (fun start => callback_added n (start ++ rel)) s) as [s1 [[]|e|]]; auto. destruct (dget n (fnodes s1)); auto.
  Qed.

  Lemma keeps_state : keeps get_current_state.
  Proof.
    unfold get_current_state. apply keeps_get. intros s. apply keeps_bind; [apply keeps_node_at|]. intros e. apply keeps_for.
    intros. apply keeps_add_tree.
  Qed.

  Hypothesis Rdeleted : forall n p s, R s (send (SDeleted n p) s).
  Hypothesis Rmodified : forall n p s, R s (send (SModified n p) s).
  Hypothesis Rnodes : forall d s, R s (set_fnodes d s).
  Hypothesis Rbump : forall s, R s (bump s).
  Hypothesis Rflat : forall x s, R s (set_flat x s).
  Hypothesis Rfilters : forall x s, R s (set_filters x s).

  Lemma keeps_remove_tree : forall n p, keeps (send_remove_tree n p).
  Proof.
    intros n p. unfold send_remove_tree. apply keeps_bind; [apply keeps_paths|]. intros P s. apply keeps_loop.
    clear n p s. intros q s. unfold remove_step. destruct q as [|[[n rel] []] rest]; auto.
    - destruct (dget n (fnodes s)); auto.
    - assert (HD : forall start, keeps (callback_deleted n (start ++ rel))) by (intros start; apply keeps_modify; auto).
      pose proof (keeps_for _ P _ HD s) as H.
      destruct (ffor P (fun start => callback_deleted n (start ++ rel)) s) as [s1 [[]|e|]]; auto.
  Qed.
  Lemma keeps_upd : forall n f, keeps (upd_f n f).
  Proof. intros n f s. unfold upd_f. destruct (dget n (fnodes s)); cbn [fst]; auto. Qed.

  Ltac kp1 :=
    match goal with
    | |- keeps (fbind fget _) => apply keeps_get; intros ?
    | |- keeps (fbind _ _) => apply keeps_bind; [|intros ?]
    | |- keeps (fret _) => apply keeps_ret
    | |- keeps (fraise _) => apply keeps_raise
    | |- keeps fdiverge => apply keeps_diverge
    | |- keeps (fnode_at _) => apply keeps_node_at
    | |- keeps (upd_f _ _) => apply keeps_upd
    | |- keeps (paths_of _) => apply keeps_paths
    | |- keeps (callback_deleted _ _) => apply keeps_modify; auto
    | |- keeps (callback_modified _ _) => apply keeps_modify; auto
    | |- keeps (send_add_tree _ _) => apply keeps_add_tree
    | |- keeps (send_remove_tree _ _) => apply keeps_remove_tree
    | |- keeps (fmodify _) => apply keeps_modify; auto
    | |- keeps (ffor _ _) => apply keeps_for; intros ?
    | |- keeps (if ?b then _ else _) => destruct b
    | |- keeps (let _ := _ in _) => cbv zeta
    | |- keeps (children_remove _ _) => unfold children_remove
    | |- keeps (parents_remove _ _) => unfold parents_remove
    end.

  Section Update.
    Variable ord : nat -> list id -> list id.
    Variable T : mtree.
    Variable D : id -> bool.

    Lemma keeps_iterate : forall l body, (forall x, keeps (body x)) -> keeps (iterate_set ord l body).
    Proof. intros l body H s. unfold iterate_set. eapply Rtrans; [apply Rbump|]. apply keeps_for. auto. Qed.

    Lemma keeps_update_node : forall f n dir, keeps (update_node ord T D f n dir).
    Proof.
      induction f as [|f IH]; intros n dir; cbn [update_node]; [apply keeps_diverge|]. unfold update_body.
      apply keeps_get; intros s0. destruct (String.eqb n (froot s0)); [apply keeps_ret|]. cbv zeta.
      destruct (is_displayed s0 n); destruct (D n); unfold update_shown, update_hidden;
        repeat first [apply IH | apply keeps_iterate; intros ? | kp1].
    Qed.
    Lemma keeps_update : forall n dir, keeps (update ord T D n dir).
    Proof. intros n dir s. apply keeps_update_node. Qed.
    Lemma keeps_rebuild : keeps (rebuild ord T D).
    Proof.
      unfold rebuild. repeat kp1. intros s. apply keeps_loop. clear s. intros q s. unfold refilter_step.
      destruct q as [|n rest]; auto. pose proof (keeps_update n Both s) as H.
      destruct (update ord T D n Both s) as [s1 [[]|e|]]; auto.
      destruct (dget n (nodes T)); auto. destruct (String.eqb n main_root); auto.
    Qed.
  End Update.

  Lemma keeps_feed : forall ord b es, keeps (feed ord b es).
  Proof. intros. apply keeps_for. intros e s. apply keeps_update. Qed.
  Lemma keeps_refilter : forall ord b T, keeps (refilter ord b T).
  Proof. intros ord b T s. unfold refilter. eapply Rtrans; [apply Rflat|]. apply keeps_rebuild. Qed.
  Lemma keeps_unapply : forall ord b T name rf, keeps (unapply_filter ord b T name rf).
  Proof. intros. unfold unapply_filter. repeat first [apply keeps_refilter|kp1]. Qed.
  Lemma keeps_reset : forall ord b T rf, keeps (reset_filters ord b T rf).
  Proof. intros. unfold reset_filters. repeat first [apply keeps_refilter|kp1]. Qed.
  Lemma keeps_apply : forall ord T name p rs rf b s, R s (snd (fst (apply_filter ord T name p rs rf b s))).
  Proof.
    intros ord T name p rs rf b s. unfold apply_filter.
    set (s1 := if rs then set_filters [] s else s). assert (R1 : R s s1) by (unfold s1; destruct rs; auto).
    assert (G : forall b' should, R s (snd (fst (let fresh := negb (mem name (filters s1)) in
      let s2 := if fresh then set_filters (filters s1 ++ [name]) s1 else s1 in
      if rf && (should || fresh) then match refilter ord b' T s2 with
        | (s3, Ok _) => (b', s3, Ok fresh) | (s3, Err e) => (b', s3, Err e) | (s3, Diverge) => (b', s3, Diverge) end
      else (b', s2, Ok fresh))))).
    { intros b' should. cbv zeta. set (s2 := if negb (mem name (filters s1)) then set_filters (filters s1 ++ [name]) s1 else s1).
      assert (R2 : R s s2) by (unfold s2; destruct (negb _); [eapply Rtrans; [apply R1|]; auto|auto]).
      destruct (rf && _); auto. pose proof (keeps_refilter ord b' T s2) as H. destruct (refilter ord b' T s2) as [s3 [[]|e|]]; cbn [fst snd] in *; eapply Rtrans; eauto. }
    cbv zeta in G. destruct p as [d|]; auto. destruct (get_filter b name); auto.
  Qed.
End Keep.
