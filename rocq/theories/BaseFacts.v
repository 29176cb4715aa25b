(** Facts about the Python values of [Base]. *)
From Coq Require Export Permutation.
From Verif Require Import Base.

#[global] Hint Resolve in_eq in_cons : core.

Ltac inv H := inversion H; subst; clear H.

Lemma eqb_eq : forall x y : id, String.eqb x y = true <-> x = y.
Proof. intros. apply String.eqb_eq. Qed.

Lemma eqb_refl : forall x : id, String.eqb x x = true.
Proof. intros. apply String.eqb_refl. Qed.

Lemma eqb_neq : forall x y : id, String.eqb x y = false <-> x <> y.
Proof. intros. apply String.eqb_neq. Qed.

Lemma eqb_sym : forall x y : id, String.eqb x y = String.eqb y x.
Proof. intros. apply String.eqb_sym. Qed.

Lemma id_dec : forall x y : id, {x = y} + {x <> y}.
Proof. apply string_dec. Qed.

(** Case analysis on the equality of two ids. *)
Ltac deq x y :=
  let E := fresh "E" in
  destruct (String.eqb x y) eqn:E;
  [ apply eqb_eq in E | apply eqb_neq in E ].

Lemma mem_In : forall x l, mem x l = true <-> In x l.
Proof.
  intros. unfold mem. rewrite existsb_exists. split.
  - intros [y [H1 H2]]. apply eqb_eq in H2. subst; auto.
  - intros H. exists x. split; auto. apply eqb_refl.
Qed.

Lemma mem_false : forall x l, mem x l = false <-> ~ In x l.
Proof.
  intros. rewrite <- mem_In. destruct (mem x l); split; intros; congruence.
Qed.

Lemma mem_spec : forall x l, reflect (In x l) (mem x l).
Proof.
  intros. destruct (mem x l) eqn:E; constructor.
  - apply mem_In; auto.
  - apply mem_false; auto.
Qed.

Lemma mem_app : forall x a b, mem x (a ++ b) = mem x a || mem x b.
Proof. intros. unfold mem. apply existsb_app. Qed.

Lemma In_dec_id : forall (x : id) l, In x l \/ ~ In x l.
Proof. intros. destruct (mem_spec x l); auto. Qed.

(** [remove1] *)
Lemma remove1_In : forall x y l, In y (remove1 x l) -> In y l.
Proof.
  induction l; simpl; auto. deq x a; simpl; intuition.
Qed.

Lemma remove1_In_neq : forall x y l, x <> y -> In y l -> In y (remove1 x l).
Proof.
  induction l; simpl; auto. deq x a; simpl; intuition; subst; congruence.
Qed.

Lemma remove1_iff : forall x y l, NoDup l -> (In y (remove1 x l) <-> In y l /\ y <> x).
Proof.
  intros x y l ND. induction ND; simpl.
  - tauto.
  - deq x x0.
    + subst. split; intros.
      * split; auto. intro; subst; contradiction.
      * destruct H0 as [[H0|H0] ?]; congruence || auto.
    + simpl. rewrite IHND. split; intros.
      * destruct H0 as [H0|[? ?]]; subst; auto.
      * destruct H0 as [[H0|H0] ?]; subst; auto.
Qed.

Lemma remove1_NoDup : forall x l, NoDup l -> NoDup (remove1 x l).
Proof.
  intros x l ND. induction ND; simpl; [constructor|].
  deq x x0; auto. constructor; auto. intro. apply remove1_In in H0. contradiction.
Qed.

Lemma remove1_notin : forall x l, ~ In x l -> remove1 x l = l.
Proof.
  induction l; simpl; auto. intros. deq x a.
  - subst. tauto.
  - f_equal. apply IHl. tauto.
Qed.

Lemma remove1_length : forall x l, In x l -> S (length (remove1 x l)) = length l.
Proof.
  induction l; simpl; [tauto|]. intros. deq x a; simpl; auto.
  f_equal. apply IHl. destruct H; congruence.
Qed.

Lemma remove1_app_l : forall x a b, In x a -> remove1 x (a ++ b) = remove1 x a ++ b.
Proof.
  induction a; simpl; [tauto|]. intros. deq x a; simpl; auto.
  f_equal. apply IHa. destruct H; congruence.
Qed.

Lemma remove1_app_r : forall x a b, ~ In x a -> remove1 x (a ++ b) = a ++ remove1 x b.
Proof.
  induction a; simpl; auto. intros. deq x a.
  - subst; tauto.
  - f_equal. apply IHa. tauto.
Qed.

Lemma filter_neq_notin : forall x l, ~ In x l -> filter (fun y => negb (String.eqb y x)) l = l.
Proof.
  induction l; simpl; auto. intros. deq a x; simpl.
  - subst; tauto.
  - f_equal. apply IHl. tauto.
Qed.

Lemma remove1_filter : forall x l, NoDup l -> remove1 x l = filter (fun y => negb (String.eqb y x)) l.
Proof.
  induction l; simpl; auto. intros ND. inv ND. rewrite (eqb_sym a x). deq x a; simpl.
  - subst. symmetry. apply filter_neq_notin; auto.
  - f_equal; auto.
Qed.

(** [dedup], [set_diff] *)
Lemma dedup_In : forall x l, In x (dedup l) <-> In x l.
Proof.
  induction l; simpl; [tauto|].
  destruct (mem_spec a l); simpl; rewrite IHl; split; intros; auto.
  destruct H; subst; auto.
Qed.

Lemma dedup_NoDup : forall l, NoDup (dedup l).
Proof.
  induction l; simpl; [constructor|].
  destruct (mem_spec a l); auto. constructor; auto. rewrite dedup_In. auto.
Qed.

Lemma dedup_id : forall l, NoDup l -> dedup l = l.
Proof.
  induction 1; simpl; auto. rewrite (proj2 (mem_false _ _)); auto. f_equal; auto.
Qed.

Lemma set_diff_In : forall x a b, In x (set_diff a b) <-> In x a /\ ~ In x b.
Proof.
  intros. unfold set_diff. rewrite filter_In, dedup_In, negb_true_iff, mem_false. tauto.
Qed.

Lemma set_diff_NoDup : forall a b, NoDup (set_diff a b).
Proof. intros. unfold set_diff. apply NoDup_filter. apply dedup_NoDup. Qed.

(** NoDup and lengths. *)
Lemma NoDup_incl_length_id : forall (a b : list id), NoDup a -> incl a b -> length a <= length b.
Proof. intros. apply NoDup_incl_length; auto. Qed.

Lemma NoDup_app_intro : forall {A} (a b : list A),
  NoDup a -> NoDup b -> (forall x, In x a -> ~ In x b) -> NoDup (a ++ b).
Proof.
  induction a; simpl; auto. intros. inv H. constructor.
  - rewrite in_app_iff. intros [?|?]; [tauto|]. eapply H1; eauto.
  - apply IHa; auto; intros; apply H1; auto.
Qed.

Lemma NoDup_snoc : forall {A} (l : list A) x, NoDup l -> ~ In x l -> NoDup (l ++ [x]).
Proof.
  intros. apply NoDup_app_intro; auto.
  - constructor; auto. constructor.
  - intros y Hy [E|[]]; subst; auto.
Qed.

Lemma NoDup_app_l : forall {A} (a b : list A), NoDup (a ++ b) -> NoDup a.
Proof. induction a; intros; constructor; inv H; eauto. rewrite in_app_iff in H2. tauto. Qed.

Lemma NoDup_app_r : forall {A} (a b : list A), NoDup (a ++ b) -> NoDup b.
Proof. induction a; simpl; intros; auto. inv H; auto. Qed.

Lemma NoDup_app_disj : forall {A} (a b : list A) x, NoDup (a ++ b) -> In x a -> ~ In x b.
Proof.
  induction a; simpl; [tauto|]. intros b x H [E|E] Hb; inv H.
  - apply H2. apply in_app_iff; auto.
  - eapply IHa; eauto.
Qed.

Lemma filter_NoDup : forall {A} (f : A -> bool) l, NoDup l -> NoDup (filter f l).
Proof. intros. apply NoDup_filter; auto. Qed.

Lemma filter_id : forall {A} (f : A -> bool) l, (forall x, In x l -> f x = true) -> filter f l = l.
Proof.
  induction l; simpl; auto. intros. rewrite H; auto. f_equal; auto.
Qed.

Lemma filter_none : forall {A} (f : A -> bool) l, (forall x, In x l -> f x = false) -> filter f l = [].
Proof.
  induction l; simpl; auto. intros. rewrite H; auto.
Qed.

Lemma filter_ext_in' : forall {A} (f g : A -> bool) l,
  (forall x, In x l -> f x = g x) -> filter f l = filter g l.
Proof. intros. apply filter_ext_in. auto. Qed.

(** Dicts. *)
Section Dict.
  Context {V : Type}.
  Implicit Types d : dict V.

  Lemma dget_dset : forall k k' (v : V) d,
    dget k (dset k' v d) = if String.eqb k k' then Some v else dget k d.
  Proof.
    induction d as [|[k0 v0] d]; simpl.
    - reflexivity.
    - deq k' k0; simpl.
      + subst. deq k k0; reflexivity.
      + rewrite IHd. deq k k0; auto. subst. deq k0 k'; auto. congruence.
  Qed.

  Lemma dget_dset_same : forall k (v : V) d, dget k (dset k v d) = Some v.
  Proof. intros. rewrite dget_dset, eqb_refl. auto. Qed.

  Lemma dget_dset_other : forall k k' (v : V) d, k <> k' -> dget k (dset k' v d) = dget k d.
  Proof. intros. rewrite dget_dset, (proj2 (eqb_neq _ _)); auto. Qed.

  Lemma dget_Some_In : forall k v d, dget k d = Some v -> In k (dkeys d).
  Proof.
    induction d as [|[k0 v0] d]; simpl; [discriminate|].
    deq k k0; auto.
  Qed.

  Lemma dget_In_pair : forall k v d, dget k d = Some v -> In (k, v) d.
  Proof.
    induction d as [|[k0 v0] d]; simpl; [discriminate|].
    deq k k0; intros; auto. inv H; auto.
  Qed.

  Lemma In_pair_dget : forall k v d, NoDup (dkeys d) -> In (k, v) d -> dget k d = Some v.
  Proof.
    induction d as [|[k0 v0] d]; simpl; [tauto|].
    intros ND H. inv ND. destruct H as [H|H].
    - inv H. rewrite eqb_refl; auto.
    - deq k k0; auto. subst. exfalso. apply H2. unfold dkeys. apply in_map_iff. exists (k0, v); auto.
  Qed.

  Lemma dget_None : forall k d, dget k d = None <-> ~ In k (dkeys d).
  Proof.
    induction d as [|[k0 v0] d]; simpl; [tauto|].
    deq k k0.
    - subst. split; [discriminate|tauto].
    - rewrite IHd. split; intros; intuition congruence.
  Qed.

  Lemma dget_In : forall k d, In k (dkeys d) -> exists v, dget k d = Some v.
  Proof.
    intros. destruct (dget k d) eqn:E; eauto. apply dget_None in E. contradiction.
  Qed.

  Lemma dmem_In : forall k d, dmem k d = true <-> In k (dkeys d).
  Proof.
    intros. unfold dmem. destruct (dget k d) eqn:E.
    - split; auto. intros _. eapply dget_Some_In; eauto.
    - split; [discriminate|]. intros. apply dget_None in E. contradiction.
  Qed.

  Lemma dmem_false : forall k d, dmem k d = false <-> ~ In k (dkeys d).
  Proof. intros. rewrite <- dmem_In. destruct (dmem k d); split; congruence. Qed.

  Lemma dmem_dset : forall k k' (v : V) d, dmem k (dset k' v d) = String.eqb k k' || dmem k d.
  Proof. intros. unfold dmem. rewrite dget_dset. deq k k'; auto. Qed.

  Lemma dkeys_dset_in : forall k (v : V) d, In k (dkeys d) -> dkeys (dset k v d) = dkeys d.
  Proof.
    induction d as [|[k0 v0] d]; simpl; [tauto|].
    intros. deq k k0; simpl; [subst; auto|]. f_equal. apply IHd. destruct H; congruence.
  Qed.

  Lemma dkeys_dset_notin : forall k (v : V) d, ~ In k (dkeys d) -> dkeys (dset k v d) = dkeys d ++ [k].
  Proof.
    induction d as [|[k0 v0] d]; simpl; auto.
    intros. deq k k0; simpl; [subst; tauto|]. f_equal. apply IHd. tauto.
  Qed.

  Lemma dset_notin : forall k (v : V) d, ~ In k (dkeys d) -> dset k v d = d ++ [(k, v)].
  Proof.
    induction d as [|[k0 v0] d]; simpl; auto.
    intros. deq k k0; simpl; [subst; tauto|]. f_equal. apply IHd. tauto.
  Qed.

  Lemma dkeys_dset_In : forall k k' (v : V) d, In k (dkeys (dset k' v d)) <-> k = k' \/ In k (dkeys d).
  Proof.
    intros. rewrite <- !dmem_In, dmem_dset. rewrite orb_true_iff, eqb_eq. tauto.
  Qed.

  Lemma dset_NoDup : forall k (v : V) d, NoDup (dkeys d) -> NoDup (dkeys (dset k v d)).
  Proof.
    intros. destruct (In_dec_id k (dkeys d)).
    - rewrite dkeys_dset_in; auto.
    - rewrite dkeys_dset_notin; auto.
      apply NoDup_snoc; auto.
  Qed.

  Lemma ddel_dkeys : forall k d, dkeys (ddel k d) = remove1 k (dkeys d).
  Proof.
    induction d as [|[k0 v0] d]; simpl; auto. deq k k0; simpl; auto. f_equal; auto.
  Qed.

  Lemma dget_ddel : forall k k' d, NoDup (dkeys d) ->
    dget k (ddel k' d) = if String.eqb k k' then None else dget k d.
  Proof.
    induction d as [|[k0 v0] d]; simpl; intros ND.
    - deq k k'; auto.
    - inv ND. deq k' k0.
      + subst. deq k k0; subst; auto. apply dget_None; auto.
      + simpl. rewrite IHd; auto. deq k k0; subst; auto. deq k0 k'; subst; auto. congruence.
  Qed.

  Lemma dmem_ddel : forall k k' d, NoDup (dkeys d) ->
    dmem k (ddel k' d) = negb (String.eqb k k') && dmem k d.
  Proof. intros. unfold dmem. rewrite dget_ddel; auto. deq k k'; auto. Qed.

  Lemma ddel_NoDup : forall k d, NoDup (dkeys d) -> NoDup (dkeys (ddel k d)).
  Proof. intros. rewrite ddel_dkeys. apply remove1_NoDup; auto. Qed.

  Lemma dget_ddel_other : forall k k' d, k <> k' -> dget k (ddel k' d) = dget k d.
  Proof.
    induction d as [|[k0 v0] d]; simpl; intros; auto.
    deq k' k0.
    - subst. deq k k0; [congruence|auto].
    - simpl. deq k k0; auto.
  Qed.

  Lemma dkeys_length : forall d, length (dkeys d) = length d.
  Proof. intros. apply map_length. Qed.
End Dict.

(** Loops. *)
Section Loop.
  Context {S R : Type}.
  Variable step : S -> ctl S R.
  Variable I : S -> Prop.
  Variable mu : S -> nat.
  Hypothesis dec : forall s s', I s -> step s = Go s' -> I s' /\ mu s' < mu s.

  Lemma loop_cases : forall k s, I s ->
    (exists s' r, loop k step s = Stop r /\ I s' /\ step s' = Stop r)
    \/ (exists s', loop k step s = Go s' /\ I s' /\ mu s' + 2 ^ k <= mu s).
  Proof.
    induction k; simpl; intros s Is.
    - destruct (step s) as [s'|r] eqn:E.
      + right. exists s'. destruct (dec _ _ Is E). repeat split; auto. lia.
      + left. eauto 6.
    - destruct (IHk s Is) as [(s' & r & E & Is' & E')|(s' & E & Is' & L)]; rewrite E.
      + left. eauto 6.
      + destruct (IHk s' Is') as [(s2 & r & E2 & Is2 & E2')|(s2 & E2 & Is2 & L2)]; rewrite E2.
        * left. eauto 6.
        * right. exists s2. repeat split; auto. lia.
  Qed.

  Lemma loop_total : forall k s, I s -> mu s < 2 ^ k ->
    exists s' r, loop k step s = Stop r /\ I s' /\ step s' = Stop r.
  Proof.
    intros. destruct (loop_cases k s H) as [?|(s' & E & Is' & L)]; auto. lia.
  Qed.
End Loop.

(** An invariant of the loop states, without termination. *)
Lemma loop_inv_cases : forall {S R} (step : S -> ctl S R) (I : S -> Prop),
  (forall s s', I s -> step s = Go s' -> I s') ->
  forall k s, I s ->
    match loop k step s with
    | Stop r => exists s', I s' /\ step s' = Stop r
    | Go s' => I s'
    end.
Proof.
  intros S R step I HI. induction k; simpl; intros s Is.
  - destruct (step s) eqn:E; eauto.
  - pose proof (IHk s Is) as H. destruct (loop k step s) as [s0|r] eqn:E; auto.
    apply IHk; auto.
Qed.

Lemma loop_invariant : forall {S R} (step : S -> ctl S R) (I : S -> Prop),
  (forall s s', I s -> step s = Go s' -> I s') ->
  forall k s r, I s -> loop k step s = Stop r -> exists s', I s' /\ step s' = Stop r.
Proof.
  intros. pose proof (loop_inv_cases step I H k s H0). rewrite H1 in H2. auto.
Qed.

(** Weighted sums over lists, for termination measures. *)
Definition sum (f : id -> nat) (l : list id) : nat := fold_right (fun x s => f x + s) 0 l.

Lemma sum_app : forall f a b, sum f (a ++ b) = sum f a + sum f b.
Proof. induction a; simpl; auto. intros. rewrite IHa. lia. Qed.

Lemma sum_le : forall f l b, (forall x, In x l -> f x <= b) -> sum f l <= length l * b.
Proof.
  induction l; simpl; auto. intros. pose proof (H a (or_introl eq_refl)).
  pose proof (IHl b (fun x Hx => H x (or_intror Hx))). lia.
Qed.

Lemma pow_pos : forall b n, 1 <= (S b) ^ n.
Proof. induction n; simpl; lia. Qed.

Lemma pow_le_mono : forall b n m, n <= m -> (S b) ^ n <= (S b) ^ m.
Proof. intros. apply Nat.pow_le_mono_r; lia. Qed.

(** In a graph whose edges decrease [r], with at most [b] edges from a node, the
    weights of the successors add up to less than the weight of the node. *)
Lemma weight_dec : forall b (r : id -> nat) (succ : list id) x,
  length succ <= b -> (forall y, In y succ -> r y < r x) ->
  sum (fun y => (S b) ^ (r y)) succ < (S b) ^ (r x).
Proof.
  intros. destruct (r x) as [|k] eqn:E.
  - destruct succ; simpl; auto. specialize (H0 i (or_introl eq_refl)). lia.
  - pose proof (sum_le (fun y => S b ^ r y) succ (S b ^ k)) as L.
    assert (forall y, In y succ -> S b ^ r y <= S b ^ k).
    { intros. apply pow_le_mono. specialize (H0 _ H1). lia. }
    specialize (L H1). pose proof (pow_pos b k). simpl.
    assert (length succ * S b ^ k <= b * S b ^ k) by (apply Nat.mul_le_mono_r; auto). lia.
Qed.

Lemma weight_bound : forall n k, k <= n -> (S n) ^ k < 2 ^ (walk_budget n).
Proof.
  intros. unfold walk_budget.
  assert (S n <= 2 ^ n) by (induction n; simpl in *; lia || (clear; induction n; simpl; lia)).
  assert (S n ^ k <= (2 ^ n) ^ k) by (apply Nat.pow_le_mono_l; auto).
  rewrite <- Nat.pow_mul_r in H1.
  eapply Nat.le_lt_trans; [apply H1|]. apply Nat.pow_lt_mono_r; nia.
Qed.

(** [index_of] *)
Lemma index_of_nth : forall x l i, index_of x l = Some i -> nth_error l i = Some x.
Proof.
  induction l; simpl; [discriminate|]. intros. deq x a.
  - inv H. auto.
  - destruct (index_of x l); simpl in H; inv H. simpl. auto.
Qed.

Lemma index_of_None : forall x l, index_of x l = None <-> ~ In x l.
Proof.
  induction l; simpl; [tauto|]. deq x a.
  - subst. split; [discriminate|tauto].
  - destruct (index_of x l); simpl; split; intros; try discriminate; auto.
    + exfalso. apply H. right. destruct IHl. destruct (In_dec_id x l); auto. specialize (H1 H2). discriminate.
    + intros [?|?]; [congruence|]. tauto.
Qed.

Lemma index_of_In : forall x l, In x l -> exists i, index_of x l = Some i.
Proof.
  intros. destruct (index_of x l) eqn:E; eauto. apply index_of_None in E. contradiction.
Qed.
