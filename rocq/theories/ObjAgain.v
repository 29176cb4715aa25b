(** Proofs about objects that are added again. *)
From Verif Require Import Base BaseFacts MainTree Objects SpecObjects ObjFacts.

(** *** Ranks of a finite graph *)
Section Rank.
  Variable up : id -> list id.
  Inductive reach2 (a : id) : id -> Prop :=
  | r2_here : reach2 a a
  | r2_step : forall p x, In p (up x) -> reach2 a p -> reach2 a x.
  Fixpoint reach2b (fuel : nat) (a x : id) : bool :=
    String.eqb x a || match fuel with 0 => false | S f => existsb (reach2b f a) (up x) end.
  Variable r : id -> nat.
  Hypothesis R : forall p x, In p (up x) -> r p < r x.
  Lemma reach2b_spec : forall a f x, r x <= f -> (reach2b f a x = true <-> reach2 a x).
  Proof.
    intros a f. induction f as [|f IH]; intros x Hx; cbn [reach2b]; rewrite orb_true_iff, eqb_eq.
    - split; [intros [->|E]; [constructor|discriminate]|]. intros H. inv H; auto. apply R in H0. lia.
    - rewrite existsb_exists. split.
      + intros [->|(p & Hp & E)]; [constructor|]. eapply r2_step; eauto. apply IH; auto. specialize (R _ _ Hp). lia.
      + intros H. inv H; auto. right. exists p. split; auto. apply IH; auto. specialize (R _ _ H0). lia.
  Qed.
  Lemma rank_more : forall p c, ~ reach2 c p -> exists r', forall q x, In q (up x) \/ (q = p /\ x = c) -> r' q < r' x.
  Proof.
    intros p c N. exists (fun x => r x + if reach2b (r x) c x then S (r p) else 0). intros q x [I|[-> ->]].
    - specialize (R _ _ I) as L. destruct (reach2b (r q) c q) eqn:Eq; [|destruct (reach2b (r x) c x); lia].
      rewrite reach2b_spec in Eq by auto. assert (Ex : reach2b (r x) c x = true) by (rewrite reach2b_spec; auto; eapply r2_step; eauto). rewrite Ex. lia.
    - assert (Ec : reach2b (r c) c c = true) by (rewrite reach2b_spec; auto; constructor). rewrite Ec.
      destruct (reach2b (r p) c p) eqn:Ep; [rewrite reach2b_spec in Ep by auto; contradiction|]. lia.
  Qed.
End Rank.

(** *** The invariant: parents of any object, in the tree or not, are in the tree and list it *)
Record inv2 (w : world) : Prop := {
  j_keys : NoDup (dkeys (names w));
  j_root : exists o, nth_error (heap w) 0 = Some o;
  j_name : forall x a, dget x (names w) = Some a -> a <> 0 /\ exists o, nth_error (heap w) a = Some o /\ o_id o = x;
  j_one : forall a b o q, nth_error (heap w) a = Some o -> nth_error (heap w) b = Some q -> o_id o = o_id q -> a = b;
  j_mir : forall a o p, nth_error (heap w) a = Some o -> In p (o_par o) ->
    exists b q, dget p (names w) = Some b /\ nth_error (heap w) b = Some q /\ In (o_id o) (o_chi q);
  j_nd : forall a o, nth_error (heap w) a = Some o -> NoDup (o_par o);
  j_rank : exists r : id -> nat, forall a o p, nth_error (heap w) a = Some o -> In p (o_par o) -> r p < r (o_id o)
}.
Notation keep2 := (gkeeps inv2).

(** A change of an object that adds no parent and removes no child. *)
Definition mild (f : obj -> obj) (root : bool) : Prop := forall o, o_id (f o) = o_id o /\ (forall p, In p (o_par (f o)) -> In p (o_par o)) /\
  (NoDup (o_par o) -> NoDup (o_par (f o))) /\ (root = false -> forall c, In c (o_chi o) -> In c (o_chi (f o))).
Lemma at_put : forall a f w b o, nth_error (heap (put a f w)) b = Some o -> exists o', nth_error (heap w) b = Some o' /\ o = if Nat.eqb b a then f o' else o'.
Proof.
  intros a f w b o E. rewrite put_at in E. destruct (Nat.eqb b a); [|exists o; auto]. destruct (nth_error (heap w) b) as [o'|]; [|discriminate].
  simpl in E. inv E. exists o'. auto.
Qed.
Lemma put_some : forall a f w b o, nth_error (heap w) b = Some o -> nth_error (heap (put a f w)) b = Some (if Nat.eqb b a then f o else o).
Proof. intros a f w b o E. rewrite put_at, E. destruct (Nat.eqb b a); auto. Qed.

Lemma inv2_put : forall a f w, mild f (Nat.eqb a 0) -> inv2 w -> inv2 (put a f w).
Proof.
  intros a f w F H.
  assert (G : forall b o', o_id (if Nat.eqb b a then f o' else o') = o_id o') by (intros b o'; destruct (Nat.eqb b a); auto; apply F).
  assert (P : forall b o' p, In p (o_par (if Nat.eqb b a then f o' else o')) -> In p (o_par o')) by (intros b o' p; destruct (Nat.eqb b a); auto; apply F).
  constructor.
  - apply (j_keys w H).
  - destruct (j_root w H) as (o & Ho). eexists. apply put_some. exact Ho.
  - intros x b E. destruct (j_name w H x b E) as (NZ & o & Ho & I). split; auto. eexists. split; [apply put_some; exact Ho|]. rewrite G. auto.
  - intros b b' o q E E' EI. apply at_put in E. apply at_put in E'. destruct E as (o1 & E & ->). destruct E' as (q1 & E' & ->). rewrite !G in EI. eapply (j_one w H); eauto.
  - intros b o p E I. apply at_put in E. destruct E as (o1 & E & ->). apply P in I. rewrite G.
    destruct (j_mir w H b o1 p E I) as (b' & q & Q1 & Q2 & Q3). exists b'. eexists. split; [exact Q1|]. split; [apply put_some; exact Q2|].
    destruct (Nat.eqb b' a) eqn:E1; auto. apply Nat.eqb_eq in E1. subst b'. apply F; auto. destruct (j_name w H p a Q1) as (NZ & _). apply Nat.eqb_neq. auto.
  - intros b o E. apply at_put in E. destruct E as (o1 & E & ->). pose proof (j_nd w H b o1 E). destruct (Nat.eqb b a); auto. apply F. auto.
  - destruct (j_rank w H) as (r & R). exists r. intros b o p E I. apply at_put in E. destruct E as (o1 & E & ->). apply P in I. rewrite G. eapply R; eauto.
Qed.
Lemma inv2_pend : forall l w, inv2 w -> inv2 (set_wpend l w).
Proof. intros l w [H1 H2 H3 H4 H5 H6 H7]. constructor; auto. Qed.

(** *** New relations *)
Definition ups (w : world) (x : id) : list id :=
  match find (fun o => String.eqb (o_id o) x) (heap w) with Some o => o_par o | None => [] end.
Lemma ups_obj : forall w a o, inv2 w -> nth_error (heap w) a = Some o -> ups w (o_id o) = o_par o.
Proof.
  intros w a o H E. unfold ups. destruct (find _ (heap w)) as [q|] eqn:F.
  - apply find_some in F. destruct F as [F1 F2]. apply eqb_eq in F2. apply In_nth_error in F1. destruct F1 as (b & F1).
    assert (b = a) by (eapply (j_one w H); eauto). subst b. congruence.
  - apply nth_error_In in E. pose proof (find_none _ _ F o E) as X. cbn beta in X. rewrite String.eqb_refl in X. discriminate.
Qed.
Lemma ups_rank : forall w r, (forall a o p, nth_error (heap w) a = Some o -> In p (o_par o) -> r p < r (o_id o)) -> forall p x, In p (ups w x) -> r p < r x.
Proof.
  intros w r R p x I. unfold ups in I. destruct (find _ (heap w)) as [q|] eqn:F; [|destruct I]. apply find_some in F. destruct F as [F1 F2]. apply eqb_eq in F2.
  apply In_nth_error in F1. destruct F1 as (b & F1). rewrite <- F2. eapply R; eauto.
Qed.
Lemma ups_named : forall w c p, inv2 w -> reach2 (ups w) c p -> named w p = true -> reach_up w c p.
Proof.
  intros w c p H Q. induction Q as [|q x I Q IH]; intros N; [left; auto|]. unfold named, dmem in N. destruct (dget x (names w)) as [a|] eqn:E; [|discriminate].
  destruct (j_name w H x a E) as (_ & o & Ho & <-). rewrite (ups_obj w a o H Ho) in I. destruct (j_mir w H a o q Ho I) as (b & q' & Q1 & _).
  apply (reach_step w c (o_id o) q); [exists o; split; [exists a|]; auto|]. apply IH. unfold named, dmem. rewrite Q1. auto.
Qed.

Lemma inv2_edge : forall w p c ca pa q, inv2 w -> dget p (names w) = Some pa -> nth_error (heap w) pa = Some q -> In c (o_chi q) -> dget c (names w) = Some ca ->
  ~ reach_up w c p -> inv2 (put ca (fun o => if mem p (o_par o) then o else w_par (o_par o ++ [p]) o) w).
Proof.
  intros w p c ca pa q H Np Hq Iq Nc NR. set (f := fun o => if mem p (o_par o) then o else w_par (o_par o ++ [p]) o).
  assert (F : forall o, o_id (f o) = o_id o /\ o_chi (f o) = o_chi o /\ (forall z, In z (o_par (f o)) -> In z (o_par o) \/ z = p) /\ (NoDup (o_par o) -> NoDup (o_par (f o)))).
  { intros o. unfold f. destruct (mem_spec p (o_par o)); simpl; repeat split; auto.
    - intros z I. apply in_app_iff in I. simpl in I. intuition.
    - intros N. apply NoDup_snoc; auto. }
  assert (G : forall b o', o_id (if Nat.eqb b ca then f o' else o') = o_id o') by (intros b o'; destruct (Nat.eqb b ca); auto; apply F).
  assert (GC : forall b o', o_chi (if Nat.eqb b ca then f o' else o') = o_chi o') by (intros b o'; destruct (Nat.eqb b ca); auto; apply F).
  assert (P : forall b o' z, nth_error (heap w) b = Some o' -> In z (o_par (if Nat.eqb b ca then f o' else o')) -> In z (o_par o') \/ (z = p /\ o_id o' = c)).
  { intros b o' z E I. destruct (Nat.eqb b ca) eqn:Eb; auto. apply Nat.eqb_eq in Eb. subst b. apply F in I. destruct I as [I| ->]; auto. right. split; auto.
    destruct (j_name w H c ca Nc) as (_ & o2 & O1 & O2). congruence. }
  constructor.
  - apply (j_keys w H).
  - destruct (j_root w H) as (o & Ho). eexists. apply put_some. exact Ho.
  - intros x b E. destruct (j_name w H x b E) as (NZ & o & Ho & I). split; auto. eexists. split; [apply put_some; exact Ho|]. rewrite G. auto.
  - intros b b' o q' E E' EI. apply at_put in E. apply at_put in E'. destruct E as (o1 & E & ->). destruct E' as (q1 & E' & ->). rewrite !G in EI. eapply (j_one w H); eauto.
  - intros b o z E I. apply at_put in E. destruct E as (o1 & E & ->). apply P in I; auto. rewrite G. destruct I as [I|[-> EI]].
    + destruct (j_mir w H b o1 z E I) as (b' & q' & Q1 & Q2 & Q3). exists b'. eexists. split; [exact Q1|]. split; [apply put_some; exact Q2|]. rewrite GC. auto.
    + exists pa. eexists. split; [exact Np|]. split; [apply put_some; exact Hq|]. rewrite GC, EI. auto.
  - intros b o E. apply at_put in E. destruct E as (o1 & E & ->). pose proof (j_nd w H b o1 E). destruct (Nat.eqb b ca); auto. apply F. auto.
  - destruct (j_rank w H) as (r & R). destruct (rank_more (ups w) r (ups_rank w r R) p c) as (r' & R').
    { intros Q. apply NR. apply ups_named; auto. unfold named, dmem. rewrite Np. auto. }
    exists r'. intros b o z E I. apply at_put in E. destruct E as (o1 & E & ->). apply P in I; auto. rewrite G. apply R'.
    destruct I as [I|I]; [left; rewrite (ups_obj w b o1 H E); auto|right; auto].
Qed.

Lemma inv2_destroy : forall w p c pa ca, inv2 w -> dget p (names w) = Some pa -> dget c (names w) = Some ca ->
  inv2 (put ca (fun o => w_par (remove1 p (o_par o)) o) (put pa (fun o => w_chi (remove1 c (o_chi o)) o) w)).
Proof.
  intros w p c pa ca H Np Nc. set (f := fun o => w_chi (remove1 c (o_chi o)) o). set (g := fun o => w_par (remove1 p (o_par o)) o).
  set (h := fun b o => if Nat.eqb b ca then g (if Nat.eqb b pa then f o else o) else if Nat.eqb b pa then f o else o).
  assert (AT : forall b o, nth_error (heap (put ca g (put pa f w))) b = Some o -> exists o', nth_error (heap w) b = Some o' /\ o = h b o').
  { intros b o E. apply at_put in E. destruct E as (o1 & E & ->). apply at_put in E. destruct E as (o2 & E & ->). exists o2. auto. }
  assert (SM : forall b o, nth_error (heap w) b = Some o -> nth_error (heap (put ca g (put pa f w))) b = Some (h b o)).
  { intros b o E. unfold h. apply (put_some ca g) with (w := put pa f w). apply put_some. auto. }
  assert (G : forall b o, o_id (h b o) = o_id o) by (intros b o; unfold h, f, g; destruct (Nat.eqb b ca), (Nat.eqb b pa); auto).
  assert (GP : forall b o, o_par (h b o) = if Nat.eqb b ca then remove1 p (o_par o) else o_par o) by (intros b o; unfold h, f, g; destruct (Nat.eqb b ca), (Nat.eqb b pa); auto).
  assert (GC : forall b o, o_chi (h b o) = if Nat.eqb b pa then remove1 c (o_chi o) else o_chi o) by (intros b o; unfold h, f, g; destruct (Nat.eqb b ca), (Nat.eqb b pa); auto).
  assert (P : forall b o z, In z (o_par (h b o)) -> In z (o_par o)) by (intros b o z; rewrite GP; destruct (Nat.eqb b ca); auto; apply remove1_In).
  constructor.
  - apply (j_keys w H).
  - destruct (j_root w H) as (o & Ho). eexists. apply SM. exact Ho.
  - intros x b E. destruct (j_name w H x b E) as (NZ & o & Ho & I). split; auto. eexists. split; [apply SM; exact Ho|]. rewrite G. auto.
  - intros b b' o q' E E' EI. apply AT in E. apply AT in E'. destruct E as (o1 & E & ->). destruct E' as (q1 & E' & ->). rewrite !G in EI. eapply (j_one w H); eauto.
  - intros b o z E I. apply AT in E. destruct E as (o1 & E & ->). rewrite G. pose proof (P _ _ _ I) as I0.
    destruct (j_mir w H b o1 z E I0) as (b' & q' & Q1 & Q2 & Q3). exists b'. eexists. split; [exact Q1|]. split; [apply SM; exact Q2|]. rewrite GC.
    destruct (Nat.eqb b' pa) eqn:Eb; auto. apply Nat.eqb_eq in Eb. subst b'. apply remove1_In_neq; auto. intros ->.
    destruct (j_name w H _ _ Nc) as (_ & o2 & O1 & O2). assert (ca = b) by (eapply (j_one w H); eauto). subst b. rewrite GP, Nat.eqb_refl in I.
    apply remove1_iff in I; [|apply (j_nd w H ca o1 E)]. destruct I as [_ NE]. apply NE.
    destruct (j_name w H _ _ Np) as (_ & o3 & O3 & O4). destruct (j_name w H _ _ Q1) as (_ & o4 & O5 & O6). congruence.
  - intros b o E. apply AT in E. destruct E as (o1 & E & ->). rewrite GP. pose proof (j_nd w H b o1 E). destruct (Nat.eqb b ca); auto. apply remove1_NoDup. auto.
  - destruct (j_rank w H) as (r & R). exists r. intros b o z E I. apply AT in E. destruct E as (o1 & E & ->). rewrite G. apply P in I. eapply R; eauto.
Qed.

Lemma inv2_pop : forall n w a o, inv2 w -> dget n (names w) = Some a -> nth_error (heap w) a = Some o -> o_chi o = [] -> inv2 (set_names (ddel n (names w)) w).
Proof.
  intros n w a o H N Ho EC. assert (G : forall x, dget x (ddel n (names w)) = if String.eqb x n then None else dget x (names w)).
  { intros x. rewrite dget_ddel by apply (j_keys w H). deq x n; auto. }
  constructor; cbn [set_names names heap].
  - apply ddel_NoDup. apply (j_keys w H).
  - apply (j_root w H).
  - intros x b E. rewrite G in E. deq x n; [discriminate|]. apply (j_name w H). auto.
  - apply (j_one w H).
  - intros b o1 p E I. destruct (j_mir w H b o1 p E I) as (b' & q & Q1 & Q2 & Q3). exists b', q. rewrite G. deq p n; auto.
    subst. assert (b' = a) by congruence. subst b'. assert (q = o) by congruence. subst q. rewrite EC in Q3. destruct Q3.
  - apply (j_nd w H).
  - apply (j_rank w H).
Qed.
Lemma inv2_name : forall w a o, inv2 w -> a <> 0 -> nth_error (heap w) a = Some o -> dget (o_id o) (names w) = None ->
  inv2 (set_names (dset (o_id o) a (names w)) w).
Proof.
  intros w a o H NZ Ho N. constructor; cbn [set_names names heap].
  - apply dset_NoDup. apply (j_keys w H).
  - apply (j_root w H).
  - intros x b E. rewrite dget_dset in E. deq x (o_id o); [inv E; split; auto; exists o; auto|]. apply (j_name w H). auto.
  - apply (j_one w H).
  - intros b o1 p E I. destruct (j_mir w H b o1 p E I) as (b' & q & Q1 & Q2 & Q3). exists b', q. split; auto. rewrite dget_dset. deq p (o_id o); congruence.
  - apply (j_nd w H).
  - apply (j_rank w H).
Qed.
Lemma inv2_new : forall n w, inv2 w -> (forall o, In o (heap w) -> o_id o <> n) -> inv2 (set_heap (heap w ++ [new_obj n]) w).
Proof.
  intros n w H F. assert (G : forall a o, nth_error (heap w) a = Some o -> nth_error (heap w ++ [new_obj n]) a = Some o).
  { intros a o E. rewrite nth_error_app1; auto. apply nth_error_Some. congruence. }
  assert (G2 : forall a o, nth_error (heap w ++ [new_obj n]) a = Some o -> nth_error (heap w) a = Some o \/ (a = length (heap w) /\ o = new_obj n)).
  { intros a o E. destruct (Nat.lt_ge_cases a (length (heap w))) as [L|L]; [left; rewrite nth_error_app1 in E; auto|]. rewrite nth_error_app2 in E by auto. right.
    destruct (a - length (heap w)) as [|k] eqn:D; [|destruct k; discriminate]. simpl in E. inv E. split; auto. lia. }
  constructor; cbn [set_heap names heap].
  - apply (j_keys w H).
  - destruct (j_root w H) as (o & Ho). eauto.
  - intros x b E. destruct (j_name w H x b E) as (NZ & o & Ho & I). split; auto. eauto.
  - intros a b o q E E' EI. apply G2 in E. apply G2 in E'. destruct E as [E|[-> ->]], E' as [E'|[-> ->]]; auto.
    + eapply (j_one w H); eauto.
    + exfalso. apply nth_error_In in E. apply (F _ E). auto.
    + exfalso. apply nth_error_In in E'. apply (F _ E'). auto.
  - intros b o p E I. apply G2 in E. destruct E as [E|[-> ->]]; [|destruct I]. destruct (j_mir w H b o p E I) as (b' & q & Q1 & Q2 & Q3). exists b', q. auto.
  - intros b o E. apply G2 in E. destruct E as [E|[-> ->]]; [apply (j_nd w H b o E)|constructor].
  - destruct (j_rank w H) as (r & R). exists r. intros b o p E I. apply G2 in E. destruct E as [E|[-> ->]]; [eapply R; eauto|destruct I].
Qed.

Lemma k2_put : forall a f, mild f (Nat.eqb a 0) -> keep2 (omod (put a f)).
Proof. intros a f F. apply k_mod. intros w. apply inv2_put. auto. Qed.
Lemma k2_pend : forall (f : world -> list (option id * id)), keep2 (omod (fun w => set_wpend (f w) w)).
Proof. intros f. apply k_mod. intros w. apply inv2_pend. Qed.
Ltac mildok := let o := fresh in intros o; cbn; split; [auto|split; [auto|split; [auto|auto]]].
Ltac mstep := match goal with
  | |- gkeeps _ (omod (put _ _)) => apply k2_put; mildok
  | |- gkeeps _ (omod (fun w => set_wpend _ w)) => apply (k2_pend (fun w => _))
  | _ => kcore end.

Lemma k2_destroy : forall p c, keep2 (destroy p c).
Proof.
  intros p c s I. unfold destroy, obind, at_name. destruct (dget p (names (fst s))) as [pa|] eqn:P; [|auto]. destruct (dget c (names (fst s))) as [ca|] eqn:C; [|auto].
  cbn. apply inv2_destroy; auto.
Qed.
Lemma k2_forget : forall r, keep2 (forget r).
Proof. intros r. unfold forget. repeat mstep. apply (k2_pend (fun _ => _)). Qed.
Lemma k2_remember : forall r, keep2 (remember r).
Proof. intros r. unfold remember. repeat mstep. Qed.
Lemma create2 : forall f p c s, inv2 (fst s) -> walk f (fst s) c [p] = Ok false -> inv2 (fst (fst (create p c s))).
Proof.
  intros f p c s I W. unfold create, obind at 1, at_name at 1. destruct (dget p (names (fst s))) as [pa|] eqn:P; [|auto].
  unfold obind at 1, at_name. destruct (dget c (names (fst s))) as [ca|] eqn:C; [|auto].
  set (f1 := fun o => if mem c (o_chi o) then o else w_chi (o_chi o ++ [c]) o).
  assert (F1 : mild f1 (Nat.eqb pa 0)).
  { intros o. unfold f1. destruct (mem c (o_chi o)); simpl; repeat split; auto. intros _ x Hx. apply in_app_iff. auto. }
  pose proof (inv2_put pa f1 (fst s) F1 I) as I1. destruct (j_name _ I p pa P) as (NZ & q & Hq & EI).
  assert (NR : ~ reach_up (put pa f1 (fst s)) c p).
  { intros R. apply (walk_no (fst s) c f [p] W p (or_introl eq_refl)). clear - R. destruct R as [->|R]; [left; auto|right].
    assert (E : forall x o, stored (put pa f1 (fst s)) x o -> exists o', stored (fst s) x o' /\ o_par o = o_par o').
    { intros x o (b & B1 & B2). rewrite put_names in B1. apply at_put in B2. destruct B2 as (o' & B2 & ->). exists o'. split; [exists b; auto|].
      destruct (Nat.eqb b pa); auto. unfold f1. destruct (mem c (o_chi o')); auto. }
    induction R as [x o S J|x o q S J R IH]; destruct (E x o S) as (o' & S' & EP); rewrite EP in J; [eapply above_one; eauto|eapply above_more; eauto]. }
  cbn. apply inv2_put; [mildok; discriminate|]. apply (inv2_edge (put pa f1 (fst s)) p c ca pa (f1 q)); auto.
  - rewrite (put_some pa f1 (fst s) pa q Hq), Nat.eqb_refl. auto.
  - unfold f1. destruct (mem_spec c (o_chi q)); auto. simpl. apply in_app_iff. simpl. auto.
Qed.

Section Again.
  Variable react : listener.
  Variable self : call -> O unit.
  Variable fuel : nat.
  Hypothesis SI : silent react.

  Lemma notify_eq : forall k n s, notify react self fuel k n s = ((fst s, snd s ++ [Heard k n]), Ok tt).
  Proof. intros k n s. unfold notify, obind, olog. destruct fuel; cbn [listen]; rewrite SI; auto. Qed.
  Lemma k2_notify : forall k n, keep2 (notify react self fuel k n).
  Proof. intros k n s I. rewrite notify_eq. auto. Qed.

  Lemma k2_build : forall n r b, keep2 (build fuel n r b).
  Proof.
    intros n r b. unfold build. apply k_bind; [apply k_get|]. intros w. apply k_bind.
    - destruct (String.eqb (snd r) n && onamed w (fst r)); [|apply k_ret]. destruct (fst r) as [p|]; [|apply k_ret]. apply k_circ.
      + repeat mstep. apply k2_forget.
      + intros s I W. apply bind_inv; [|repeat mstep; apply k2_forget]. apply bind_inv; [|repeat mstep]. apply (create2 fuel); auto.
    - intros a1. apply k_bind; [apply k_get|]. intros w'. destruct (_ && named w' (snd r)); [|apply k_ret]. apply k_circ.
      + repeat mstep. apply k2_forget.
      + intros s I W. apply bind_inv; [|repeat mstep; apply k2_forget]. apply (create2 fuel); auto.
  Qed.
  Lemma k2_builds : forall n l b, keep2 (builds fuel n l b).
  Proof. intros n l. induction l as [|r l IH]; intros b; cbn [builds]; repeat mstep; [apply k2_build|apply IH]. Qed.

  Lemma k2_add : forall a p s, inv2 (fst s) -> a <> 0 -> inv2 (fst (fst (add react self fuel a p s))).
  Proof.
    intros a p s I NZ. unfold add. unfold obind at 1, at_addr. destruct (nth_error (heap (fst s)) a) as [o|] eqn:Ho; [|auto].
    unfold obind at 1, oget. destruct (named (fst s) (o_id o)) eqn:N; [auto|].
    assert (N' : dget (o_id o) (names (fst s)) = None). { unfold named, dmem in N. destruct (dget (o_id o) (names (fst s))); congruence. }
    do 4 (unfold obind at 1, omod at 1). cbn [fst snd].
    set (w1 := put a (w_npend []) (set_wpend (merge_pending (o_npend o) (wpend (put a (w_tree true) (fst s)))) (put a (w_tree true) (fst s)))).
    assert (I1 : inv2 w1). { unfold w1. apply inv2_put; [mildok|]. apply inv2_pend. apply inv2_put; [mildok|]. auto. }
    assert (H1 : nth_error (heap w1) a = Some (w_npend [] (w_tree true o))).
    { unfold w1. erewrite put_some; [rewrite Nat.eqb_refl; reflexivity|]. unfold set_wpend. cbn [heap]. erewrite put_some; [rewrite Nat.eqb_refl; reflexivity|]. auto. }
    apply bind_inv; [apply (inv2_name w1 a _ I1 NZ H1); exact N'|]. intros w2.
    apply k_bind; [apply k2_builds|]. intros b. apply k_bind.
    - destruct p as [p|]; [|apply k_ret]. apply k_circ; [apply k_raise|]. intros s' I' W. unfold obind at 1, oget. destruct (named (fst s') p).
      + apply bind_inv; [apply (create2 fuel); auto|]. repeat mstep.
      + apply k_bind; auto; [apply k2_remember|repeat mstep].
    - intros b'. repeat mstep; [|apply k2_notify]. apply in_app_iff. auto.
  Qed.

  Lemma k2_cut_parents : forall k a n i, keep2 (cut_parents react self fuel k a n i).
  Proof. intros k. induction k as [|k IH]; intros a n i; cbn [cut_parents]; repeat mstep; [apply k2_destroy|apply k2_notify|apply IH]. Qed.
  Lemma k2_cut_child : forall n c, keep2 (cut_child react self fuel n c).
  Proof. intros n c. unfold cut_child. repeat mstep; [apply k2_destroy|apply k2_notify|]. apply in_app_iff. auto. Qed.

  Lemma destroy_names : forall p c s, names (fst (fst (destroy p c s))) = names (fst s).
  Proof. intros p c s. unfold destroy, obind, at_name. destruct (dget p (names (fst s))); auto. destruct (dget c (names (fst s))); auto. Qed.
  Lemma cut_parents_names : forall k a n i s, names (fst (fst (cut_parents react self fuel k a n i s))) = names (fst s).
  Proof.
    intros k. induction k as [|k IH]; intros a n i s; cbn [cut_parents]; unfold obind at 1, at_addr; (destruct (nth_error (heap (fst s)) a) as [o|]; [|auto]);
      (destruct (nth_error (o_par o) i) as [p|]; [|auto]); auto.
    unfold obind at 1. pose proof (destroy_names p n s) as D. destruct (destroy p n s) as [s1 [u|e|]]; auto. unfold obind. rewrite notify_eq. rewrite IH. auto.
  Qed.

  (** Cutting a child shortens the list of children. *)
  Lemma cut_child_chi : forall n c a s s' o, inv2 (fst s) -> dget n (names (fst s)) = Some a -> nth_error (heap (fst s)) a = Some o ->
    cut_child react self fuel n c s = (s', Ok tt) -> names (fst s') = names (fst s) /\ exists o', nth_error (heap (fst s')) a = Some o' /\ o_chi o' = remove1 c (o_chi o).
  Proof.
    intros n c a s s' o I N Ho E. destruct (j_name _ I n a N) as (NZ & _). unfold cut_child, destroy, obind in E. unfold at_name at 1 in E. rewrite N in E.
    unfold at_name at 1 in E. destruct (dget c (names (fst s))) as [ca|] eqn:C; [|discriminate]. cbn [omod fst snd] in E. rewrite notify_eq in E. cbn [fst snd] in E.
    set (w1 := put ca (fun o => w_par (remove1 n (o_par o)) o) (put a (fun o => w_chi (remove1 c (o_chi o)) o) (fst s))) in E.
    assert (H1 : exists o', nth_error (heap w1) a = Some o' /\ o_chi o' = remove1 c (o_chi o)).
    { unfold w1. eexists. split; [apply put_some; apply put_some; exact Ho|]. rewrite Nat.eqb_refl. destruct (Nat.eqb a ca); auto. }
    unfold at_name in E. cbn [fst] in E. change (names w1) with (names (fst s)) in E. rewrite C in E. unfold at_addr in E. cbn [fst] in E.
    destruct (nth_error (heap w1) ca) as [co|]; [|discriminate].
    assert (Z : fst s' = w1 \/ fst s' = put 0 (fun o => w_chi (o_chi o ++ [c]) o) w1) by (destruct (o_par co); inv E; auto).
    destruct Z as [->|Z]; [split; auto|]. rewrite Z. split; auto. destruct H1 as (o' & H1 & E1). exists o'. split; auto.
    rewrite (put_some _ _ _ _ _ H1). destruct (Nat.eqb a 0) eqn:E0; auto. apply Nat.eqb_eq in E0. congruence.
  Qed.
  Lemma each_chi : forall n a l s s' o, inv2 (fst s) -> dget n (names (fst s)) = Some a -> nth_error (heap (fst s)) a = Some o -> o_chi o = l ->
    oeach l (fun c => cut_child react self fuel n c) s = (s', Ok tt) -> names (fst s') = names (fst s) /\ exists o', nth_error (heap (fst s')) a = Some o' /\ o_chi o' = [].
  Proof.
    intros n a l. induction l as [|c l IH]; intros s s' o I N Ho EL E; cbn [oeach] in E.
    - inv E. split; auto. exists o. auto.
    - unfold obind in E. pose proof (k2_cut_child n c s I) as I1. destruct (cut_child react self fuel n c s) as [s1 [[]|e|]] eqn:E1; try discriminate.
      destruct (cut_child_chi n c a s s1 o I N Ho E1) as (N1 & o1 & H1 & L1). simpl in I1. rewrite EL in L1. simpl in L1. rewrite String.eqb_refl in L1.
      destruct (IH s1 s' o1 I1) as (N2 & X); auto; [congruence|]. split; [congruence|auto].
  Qed.

  Lemma remove_eq : forall k n b, remove react self fuel k n b =
    (w <- oget ;;
    if negb (named w n) then oret tt
    else
      omod (fun w => set_wpend (filter (fun r => negb (mentions n r)) (wpend w)) w) ;;
      a <- at_name n ;;
      cut_parents react self fuel fuel a n 0 ;;
      o <- at_addr a ;;
      (match k with
       | 0 => ohang
       | S k' => oeach (o_chi o) (fun c => if b then remove react self fuel k' c true else cut_child react self fuel n c)
       end) ;;
      omod (put 0 (fun o => w_chi (remove1 n (o_chi o)) o)) ;;
      _ <- at_name n ;;
      omod (fun w => set_names (ddel n (names w)) w) ;;
      notify react self fuel EDeleted n).
  Proof. intros k n b. destruct k; reflexivity. Qed.

  Lemma k2_remove : forall k n, keep2 (remove react self fuel k n false).
  Proof.
    intros k n s I. rewrite remove_eq.
    unfold obind at 1, oget. destruct (named (fst s) n) eqn:N; cbn [negb]; [|auto]. unfold obind at 1, omod at 1.
    set (s1 := (set_wpend _ (fst s), snd s)). assert (I1 : inv2 (fst s1)) by (apply inv2_pend; auto).
    unfold obind at 1, at_name at 1. unfold named, dmem in N. change (names (fst s1)) with (names (fst s)). destruct (dget n (names (fst s))) as [a|] eqn:D; [|discriminate].
    unfold obind at 1. pose proof (k2_cut_parents fuel a n 0 s1 I1) as I2. pose proof (cut_parents_names fuel a n 0 s1) as N2.
    destruct (cut_parents react self fuel fuel a n 0 s1) as [s2 [u|e|]]; auto. cbn [fst] in I2, N2.
    unfold obind at 1, at_addr. destruct (nth_error (heap (fst s2)) a) as [o|] eqn:Ho; [|auto].
    unfold obind at 1. destruct k as [|k]; [auto|]. pose proof (k_each inv2 _ (o_chi o) (fun c => cut_child react self fuel n c) (k2_cut_child n) s2 I2) as I3.
    assert (D2 : dget n (names (fst s2)) = Some a) by (rewrite N2; auto).
    pose proof (each_chi n a (o_chi o) s2) as EC. destruct (oeach (o_chi o) (fun c => cut_child react self fuel n c) s2) as [s3 [[]|e|]]; auto. cbn [fst] in I3.
    destruct (EC s3 o I2 D2 Ho eq_refl eq_refl) as (N3 & o' & Ho' & C'). destruct (j_name _ I2 n a D2) as (NZ & _).
    unfold obind at 1, omod at 1. unfold obind at 1, at_name. set (s4 := (put 0 (fun o => w_chi (remove1 n (o_chi o)) o) (fst s3), snd s3)).
    assert (I4 : inv2 (fst s4)) by (apply inv2_put; [mildok; discriminate|auto]). change (names (fst s4)) with (names (fst s3)). rewrite N3, D2.
    unfold obind, omod. rewrite notify_eq. cbn [fst snd]. apply (inv2_pop n (fst s4) a o'); auto.
    - change (names (fst s4)) with (names (fst s3)). congruence.
    - unfold s4. cbn [fst]. rewrite (put_some _ _ _ _ _ Ho'). destruct (Nat.eqb a 0) eqn:E0; auto. apply Nat.eqb_eq in E0. congruence.
  Qed.
  Lemma k2_announce : forall n, keep2 (announce react self fuel n).
  Proof. intros n. unfold announce. repeat mstep. apply k2_notify. Qed.
  Lemma k2_relate : forall p c, keep2 (relate react self fuel p c).
  Proof.
    intros p c. unfold relate. apply k_bind; [apply (k2_pend (fun w => _))|]. intros _. destruct (_ || _); [apply k_ret|]. apply k_bind; [apply k_get|]. intros w.
    destruct (_ || _); [apply k2_remember|]. apply k_circ.
    - repeat mstep. apply k2_destroy.
    - intros s I W. apply bind_inv; [apply (create2 fuel); auto|]. repeat mstep; try apply k2_notify. discriminate.
  Qed.
  Lemma k2_add_child : forall a c, keep2 (obj_add_child react self fuel a c).
  Proof. intros a c. unfold obj_add_child. repeat mstep; try apply k2_remember; try apply k2_relate. apply in_app_iff. auto. Qed.
  Lemma k2_break : forall p c, keep2 (break react self fuel p c).
  Proof. intros p c. unfold break. repeat mstep; try apply k2_destroy; try apply k2_notify; apply k2_add_child. Qed.
  Lemma k2_add_parent : forall a p, keep2 (obj_add_parent react self fuel a p).
  Proof. intros a p. unfold obj_add_parent. repeat mstep; try apply k2_remember; apply k2_relate. Qed.
  Lemma k2_remove_parent : forall a p, keep2 (obj_remove_parent react self fuel a p).
  Proof. intros a p. unfold obj_remove_parent. repeat mstep; [| |apply k2_break]; [eapply remove1_In; eauto|apply remove1_NoDup; auto]. Qed.
  Lemma k2_leave : forall k a p i fl, keep2 (leave_others react self fuel k a p i fl).
  Proof. intros k. induction k as [|k IH]; intros a p i fl; cbn [leave_others]; repeat mstep; try apply k2_remove_parent; apply IH. Qed.
  Lemma k2_set_parent : forall a p, keep2 (obj_set_parent react self fuel a p).
  Proof. intros a p. unfold obj_set_parent. repeat mstep; try apply k2_remember; try apply k2_break; try apply k2_leave; apply k2_add_parent. Qed.
  Lemma k2_parents_enabled : forall a b, keep2 (obj_parents_enabled react self fuel a b).
  Proof. intros a b. unfold obj_parents_enabled. repeat mstep; apply k2_remove_parent. Qed.
  Lemma k2_children_enabled : forall a b, keep2 (obj_children_enabled react self fuel a b).
  Proof. intros a b. unfold obj_children_enabled. repeat mstep; apply k2_break. Qed.

  Lemma k2_perform : forall c s, inv2 (fst s) -> one_object (fst s) c -> inv2 (fst (fst (perform react self fuel c s))).
  Proof.
    intros c s I F. destruct c; cbn [perform]; simpl in F; [|apply k2_add; auto|..].
    - simpl. apply inv2_new; auto.
    - subst. apply k2_remove. auto.
    - apply k2_announce. auto.
    - apply k2_relate. auto.
    - apply k2_break. auto.
    - apply k2_add_parent. auto.
    - apply k2_set_parent. auto.
    - apply k2_remove_parent. auto.
    - apply k2_add_child. auto.
    - apply k2_parents_enabled. auto.
    - apply k2_children_enabled. auto.
  Qed.
End Again.

Lemma inv2_start : inv2 new_world.
Proof.
  constructor; simpl.
  - constructor.
  - eexists. reflexivity.
  - discriminate.
  - intros [|[|a]] [|[|b]] o q E E'; try discriminate; auto.
  - intros [|[|a]] o p E I; inv E; destruct I.
  - intros [|[|a]] o E; inv E; constructor.
  - exists (fun _ => 0). intros [|[|a]] o p E I; inv E; destruct I.
Qed.
Lemma played_inv2 : forall react s, silent react -> played one_object react s -> inv2 (fst s).
Proof.
  intros react s SI H. induction H as [|s c fuel s' r H IH F E]; [exact inv2_start|]. simpl. destruct fuel as [|f]; cbn [exec] in E; [inv E; auto|].
  pose proof (k2_perform react (exec f react) f SI c s IH F) as X. rewrite E in X. exact X.
Qed.
Lemma inv2_objs : forall w, inv2 w -> forall x a, dget x (names w) = Some a -> exists o, nth_error (heap w) a = Some o.
Proof. intros w H x a E. destruct (j_name w H x a E) as (_ & o & Ho & _). eauto. Qed.
Lemma inv2_ranks : forall w, inv2 w -> exists r, ranks w r.
Proof.
  intros w H. destruct (j_rank w H) as (r & R). exists r. intros p x (o & (a & A1 & A2) & I). destruct (j_name w H x a A1) as (_ & o' & O1 & O2).
  assert (o' = o) by congruence. subst o'. rewrite <- O2. eapply R; eauto.
Qed.
Lemma again_acyclic : forall react s, silent react -> played one_object react s -> forall x, ~ above (fst s) x x.
Proof.
  intros react s SI H x A. destruct (inv2_ranks _ (played_inv2 react s SI H)) as (r & R). pose proof (rank_above _ r R x x A). lia.
Qed.
Lemma again_walk : forall react s, silent react -> played one_object react s -> forall p c,
  exists k v, (forall j, walk (k + j) (fst s) c [p] = Ok v) /\ (v = true <-> p = c \/ above (fst s) c p).
Proof. intros react s SI H p c. pose proof (played_inv2 react s SI H) as I. apply walk_decides; [apply inv2_objs; auto|apply inv2_ranks; auto]. Qed.
(** The parents that the object at any address has are in the tree and list it. *)
Lemma again_parents : forall react s, silent react -> played one_object react s -> forall a o p, nth_error (heap (fst s)) a = Some o -> In p (o_par o) ->
  exists q, stored (fst s) p q /\ In (o_id o) (o_chi q).
Proof.
  intros react s SI H a o p E I. destruct (j_mir _ (played_inv2 react s SI H) a o p E I) as (b & q & Q1 & Q2 & Q3). exists q. split; auto. exists b. auto.
Qed.
