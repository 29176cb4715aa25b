(** Proofs about node objects and callbacks that call the tree. *)
From Verif Require Import Base BaseFacts MainTree Objects SpecObjects.

(** *** Objects *)
Lemma nth_upd : forall h a f b, nth_error (upd_nth a f h) b = if Nat.eqb b a then option_map f (nth_error h b) else nth_error h b.
Proof.
  intros h. induction h as [|o h IH]; intros a f b; simpl.
  - destruct (Nat.eqb b a); destruct b; reflexivity.
  - destruct a as [|a], b as [|b]; simpl; auto.
Qed.
Lemma put_names : forall a f w, names (put a f w) = names w.
Proof. auto. Qed.
Lemma put_at : forall a f w b, nth_error (heap (put a f w)) b = if Nat.eqb b a then option_map f (nth_error (heap w) b) else nth_error (heap w) b.
Proof. intros. apply nth_upd. Qed.

Definition edge (w : world) (p x : id) : Prop := exists o, stored w x o /\ In p (o_par o).
Definition ranks (w : world) (r : id -> nat) : Prop := forall p x, edge w p x -> r p < r x.
Definition reach_up (w : world) (a x : id) : Prop := x = a \/ above w a x.

Record inv (w : world) : Prop := {
  i_keys : NoDup (dkeys (names w));
  i_root : exists o, nth_error (heap w) 0 = Some o /\ o_tree o = true;
  i_name : forall x a, dget x (names w) = Some a -> a <> 0 /\ exists o, nth_error (heap w) a = Some o /\ o_id o = x /\ o_tree o = true;
  i_new : forall a o, nth_error (heap w) a = Some o -> o_tree o = false -> o_par o = [];
  i_rank : exists r, ranks w r
}.

Lemma stored_fun : forall w x o o', stored w x o -> stored w x o' -> o = o'.
Proof. intros w x o o' (a & A1 & A2) (b & B1 & B2). rewrite A1 in B1. inv B1. rewrite A2 in B2. inv B2. auto. Qed.
Lemma stored_named : forall w x, inv w -> named w x = true -> exists o, stored w x o.
Proof.
  intros w x H N. unfold named, dmem in N. destruct (dget x (names w)) as [a|] eqn:E; [|discriminate].
  destruct (i_name w H x a E) as (_ & o & Ho & _). exists o, a. auto.
Qed.
Lemma reach_step : forall w a x p, edge w p x -> reach_up w a p -> reach_up w a x.
Proof. intros w a x p (o & S & I) [->|R]; right; [apply (above_one w a x o)|apply (above_more w a x o p)]; auto. Qed.
Lemma reach_inv : forall w a x, reach_up w a x -> x = a \/ exists p, edge w p x /\ reach_up w a p.
Proof.
  intros w a x [->|R]; auto. right. destruct R as [x o S I|x o p S I R].
  - exists a. split; [exists o; auto|left; auto].
  - exists p. split; [exists o; auto|right; auto].
Qed.

(** A change that keeps names and adds no parent. *)
Lemma inv_put : forall a f w, (forall o, o_id (f o) = o_id o /\ (o_tree o = true -> o_tree (f o) = true) /\ forall p, In p (o_par (f o)) -> In p (o_par o)) ->
  inv w -> inv (put a f w).
Proof.
  intros a f w F H. constructor; [apply (i_keys w H)|..].
  - destruct (i_root w H) as (o & Ho & T). destruct (Nat.eqb 0 a) eqn:E.
    + exists (f o). rewrite put_at, E, Ho. split; auto. apply F. auto.
    + exists o. rewrite put_at, E. auto.
  - intros x b E. rewrite put_names in E. destruct (i_name w H x b E) as (NZ & o & Ho & I & T). split; auto. rewrite put_at, Ho.
    destruct (Nat.eqb b a); simpl; [|exists o; auto]. exists (f o). destruct (F o) as (F1 & F2 & F3). split; auto. split; [congruence|auto].
  - intros b o Ho T. rewrite put_at in Ho. destruct (Nat.eqb b a); [|apply (i_new w H b o); auto].
    destruct (nth_error (heap w) b) as [o1|] eqn:E1; [|discriminate]. simpl in Ho. inv Ho. destruct (F o1) as (F1 & F2 & F3).
    destruct (o_tree o1) eqn:T1; [rewrite F2 in T; auto; discriminate|]. pose proof (i_new w H b o1 E1 T1) as P. rewrite P in F3.
    destruct (o_par (f o1)) as [|z l]; auto. destruct (F3 z). left; auto.
  - destruct (i_rank w H) as (r & R). exists r. intros p x (o & (b & B1 & B2) & I). apply R. rewrite put_names in B1. rewrite put_at in B2.
    destruct (Nat.eqb b a).
    + destruct (nth_error (heap w) b) as [o1|] eqn:E1; [|discriminate]. simpl in B2. inv B2. exists o1. split; [exists b; auto|]. apply F. auto.
    + exists o. split; [exists b; auto|auto].
Qed.

Lemma inv_pend : forall l w, inv w -> inv (set_wpend l w).
Proof. intros l w [H0 H1 H2 H3 H4]. constructor; auto. Qed.

(** *** The walk *)
Lemma par_bound : forall h : list obj, exists b, forall o, In o h -> length (o_par o) <= b.
Proof.
  intros h. induction h as [|o h (b & IH)]; [exists 0; intros o []|]. exists (length (o_par o) + b). intros x [<-|I]; [lia|]. specialize (IH x I). lia.
Qed.

Lemma walk_total : forall w c r b, (forall x a, dget x (names w) = Some a -> exists o, nth_error (heap w) a = Some o) -> ranks w r -> (forall o, In o (heap w) -> length (o_par o) <= b) ->
  forall k l, sum (fun y => (S b) ^ (r y)) l <= k -> exists v, walk k w c l = Ok v /\ (v = true <-> exists x, In x l /\ reach_up w c x).
Proof.
  intros w c r b H R B k. induction k as [|k IH]; intros l L.
  - destruct l as [|x l]; [exists false; split; auto; split; [discriminate|intros (x & [] & _)]|]. simpl in L. pose proof (pow_pos b (r x)). simpl in *. lia.
  - destruct l as [|x l]; [exists false; split; auto; split; [discriminate|intros (x & [] & _)]|]. cbn [walk]. deq x c.
    { exists true. split; auto. split; auto. intros _. exists c. split; [left; auto|left; auto]. }
    cbn [sum fold_right] in L. fold (sum (fun y => S b ^ r y) l) in L. pose proof (pow_pos b (r x)) as PP.
    destruct (dget x (names w)) as [a|] eqn:D.
    + destruct (H x a D) as (o & Ho). rewrite Ho. assert (S : stored w x o) by (exists a; auto).
      destruct (IH (l ++ o_par o)) as (v & V & W).
      { rewrite sum_app. pose proof (weight_dec b r (o_par o) x) as WD. specialize (WD (B o (nth_error_In _ _ Ho)) (fun y Hy => R y x (ex_intro _ o (conj S Hy)))). lia. }
      exists v. split; auto. rewrite W. split; intros (y & Hy & Ry).
      * apply in_app_iff in Hy. destruct Hy as [Hy|Hy]; [exists y; split; [right|]; auto|]. exists x. split; [left; auto|].
        apply (reach_step w c x y); auto. exists o. auto.
      * destruct Hy as [<-|Hy]; [|exists y; split; auto; apply in_app_iff; auto]. apply reach_inv in Ry. destruct Ry as [->|(p & (o' & S' & I) & Rp)]; [congruence|].
        rewrite (stored_fun w x o' o S' S) in I. exists p. split; auto. apply in_app_iff. auto.
    + destruct (IH l) as (v & V & W); [lia|]. exists v. split; auto. rewrite W. split; intros (y & Hy & Ry).
      * exists y. split; [right|]; auto.
      * destruct Hy as [<-|Hy]; [|exists y; auto]. apply reach_inv in Ry. destruct Ry as [->|(p & (o' & (a & A1 & _) & _) & _)]; congruence.
Qed.

Lemma inv_objs : forall w, inv w -> forall x a, dget x (names w) = Some a -> exists o, nth_error (heap w) a = Some o.
Proof. intros w H x a E. destruct (i_name w H x a E) as (_ & o & Ho & _). eauto. Qed.

Lemma walk_decides : forall w, (forall x a, dget x (names w) = Some a -> exists o, nth_error (heap w) a = Some o) -> (exists r, ranks w r) -> forall p c, exists k v, (forall j, walk (k + j) w c [p] = Ok v) /\ (v = true <-> reach_up w c p).
Proof.
  intros w H (r & R) p c. destruct (par_bound (heap w)) as (b & B).
  exists (sum (fun y => (S b) ^ (r y)) [p]). destruct (walk_total w c r b H R B (sum (fun y => (S b) ^ (r y)) [p] + 0) [p]) as (v & V & W); [lia|].
  exists v. split.
  - intros j. destruct (walk_total w c r b H R B (sum (fun y => (S b) ^ (r y)) [p] + j) [p]) as (v' & V' & W'); [lia|]. rewrite V'. f_equal.
    assert (v' = true <-> v = true) by tauto. destruct v, v'; intuition congruence.
  - rewrite W. split; [intros (x & [<-|[]] & Rx); auto|intros Rx; exists p; split; [left|]; auto].
Qed.

Lemma walk_no : forall w c k l, walk k w c l = Ok false -> forall x, In x l -> ~ reach_up w c x.
Proof.
  intros w c k. induction k as [|k IH]; intros l E x I R; [destruct l; [destruct I|discriminate]|].
  destruct l as [|y l]; [destruct I|]. cbn [walk] in E. deq y c; [discriminate|].
  destruct (dget y (names w)) as [a|] eqn:D.
  - destruct (nth_error (heap w) a) as [o|] eqn:Ho; [|discriminate]. destruct I as [->|I].
    + apply reach_inv in R. destruct R as [->|(p & (o' & S' & I) & Rp)]; [congruence|].
      assert (o' = o) by (apply (stored_fun w x); auto; exists a; auto). subst o'. apply (IH _ E p); auto. apply in_app_iff. auto.
    + apply (IH _ E x); auto. apply in_app_iff. auto.
  - destruct I as [->|I]; [|apply (IH _ E x); auto]. apply reach_inv in R. destruct R as [->|(p & (o' & (a & A1 & _) & _) & _)]; congruence.
Qed.

Lemma rank_above : forall w r, ranks w r -> forall a x, above w a x -> r a < r x.
Proof.
  intros w r R a x H. induction H as [x o S I|x o p S I H IH]; [apply R; exists o; auto|]. assert (r p < r x) by (apply R; exists o; auto). lia.
Qed.

(** *** A new relation *)
Lemma edge_put : forall w a f p x, edge (put a f w) p x -> exists b o, dget x (names w) = Some b /\ nth_error (heap w) b = Some o /\ In p (o_par (if Nat.eqb b a then f o else o)).
Proof.
  intros w a f p x (o & (b & B1 & B2) & I). rewrite put_names in B1. rewrite put_at in B2. exists b.
  destruct (Nat.eqb b a); [destruct (nth_error (heap w) b) as [o1|] eqn:E; [|discriminate]; simpl in B2; inv B2; exists o1; auto|exists o; auto].
Qed.

Lemma inv_new_edge : forall w p c ca, inv w -> named w p = true -> dget c (names w) = Some ca -> ~ reach_up w c p ->
  inv (put ca (fun o => if mem p (o_par o) then o else w_par (o_par o ++ [p]) o) w).
Proof.
  intros w p c ca H Np Nc NR. set (f := fun o => if mem p (o_par o) then o else w_par (o_par o ++ [p]) o).
  assert (F : forall o, o_id (f o) = o_id o /\ o_tree (f o) = o_tree o /\ forall q, In q (o_par (f o)) -> In q (o_par o) \/ q = p).
  { intros o. unfold f. destruct (mem p (o_par o)); simpl; split; auto; split; auto. intros q I. apply in_app_iff in I. simpl in I. intuition. }
  constructor; [apply (i_keys w H)|..].
  - destruct (i_root w H) as (o & Ho & T). destruct (Nat.eqb 0 ca) eqn:E.
    + exists (f o). rewrite put_at, E, Ho. split; auto. destruct (F o) as (_ & -> & _). auto.
    + exists o. rewrite put_at, E. auto.
  - intros x b E. rewrite put_names in E. destruct (i_name w H x b E) as (NZ & o & Ho & I & T). split; auto. rewrite put_at, Ho.
    destruct (Nat.eqb b ca); simpl; [|exists o; auto]. exists (f o). destruct (F o) as (F1 & F2 & F3). split; auto. split; congruence.
  - intros b o Ho T. rewrite put_at in Ho. destruct (Nat.eqb b ca) eqn:Eb; [|apply (i_new w H b o); auto]. apply Nat.eqb_eq in Eb. subst b.
    destruct (i_name w H c ca Nc) as (_ & o1 & Ho1 & _ & T1). rewrite Ho1 in Ho. simpl in Ho. inv Ho. destruct (F o1) as (_ & F2 & _). congruence.
  - destruct (i_rank w H) as (r & R). destruct (par_bound (heap w)) as (b & B).
    set (low := fun x => match walk (sum (fun y => (S b) ^ (r y)) [x]) w c [x] with Ok true => true | _ => false end).
    assert (LS : forall x, low x = true <-> reach_up w c x).
    { intros x. unfold low. destruct (walk_total w c r b (inv_objs w H) R B (sum (fun y => (S b) ^ (r y)) [x]) [x] (le_n _)) as (v & -> & W).
      assert (X : v = true <-> reach_up w c x). { rewrite W. split; [intros (y & [<-|[]] & Ry); auto|intros Rx; exists x; split; [left|]; auto]. }
      rewrite <- X. destruct v; intuition. }
    exists (fun x => r x + if low x then S (r p) else 0). intros q x E. apply edge_put in E. destruct E as (a & o & A1 & A2 & I).
    assert (S : stored w x o) by (exists a; auto).
    assert (Y : In q (o_par o) \/ (q = p /\ x = c)).
    { destruct (Nat.eqb a ca) eqn:Ea; auto. apply Nat.eqb_eq in Ea. subst a. apply F in I. destruct I as [I| ->]; auto. right. split; auto.
      destruct (i_name w H c ca Nc) as (_ & o1 & O1 & O2 & _). destruct (i_name w H x ca A1) as (_ & o2 & O3 & O4 & _). congruence. }
    destruct Y as [Y|[-> ->]].
    + assert (Eq : edge w q x) by (exists o; auto). pose proof (R _ _ Eq) as L. destruct (low q) eqn:Lq; [|destruct (low x); lia].
      apply LS in Lq. rewrite (proj2 (LS x) (reach_step w c x q Eq Lq)). lia.
    + rewrite (proj2 (LS c) (or_introl eq_refl)). destruct (low p) eqn:Lp; [apply LS in Lp; contradiction|]. lia.
Qed.

(** *** What every step keeps *)
Definition gkeeps (J : world -> Prop) {A} (m : O A) : Prop := forall s, J (fst s) -> J (fst (fst (m s))).

Section Generic.
  Variable J : world -> Prop.
  Lemma k_bind : forall A B (m : O A) (k : A -> O B), gkeeps J m -> (forall a, gkeeps J (k a)) -> gkeeps J (obind m k).
  Proof.
    intros A B m k Hm Hk s I. unfold obind. specialize (Hm s I). destruct (m s) as [s1 [a|e|]]; simpl in *; auto. apply Hk. auto.
  Qed.
  Lemma k_ret : forall A (a : A), gkeeps J (oret a).
  Proof. intros A a s I. auto. Qed.
  Lemma k_raise : forall A e, gkeeps J (@oraise A e).
  Proof. intros A e s I. auto. Qed.
  Lemma k_hang : forall A, gkeeps J (@ohang A).
  Proof. intros A s I. auto. Qed.
  Lemma k_get : gkeeps J oget.
  Proof. intros s I. auto. Qed.
  Lemma k_log : forall e, gkeeps J (olog e).
  Proof. intros e s I. auto. Qed.
  Lemma k_at_addr : forall a, gkeeps J (at_addr a).
  Proof. intros a s I. unfold at_addr. destruct (nth_error _ _); auto. Qed.
  Lemma k_at_name : forall a, gkeeps J (at_name a).
  Proof. intros a s I. unfold at_name. destruct (dget _ _); auto. Qed.
  Lemma k_circular : forall f p c, gkeeps J (circular f p c).
  Proof. intros f p c s I. auto. Qed.
  Lemma k_mod : forall f, (forall w, J w -> J (f w)) -> gkeeps J (omod f).
  Proof. intros f H s I. simpl. auto. Qed.
  Lemma k_each : forall X (l : list X) body, (forall x, gkeeps J (body x)) -> gkeeps J (oeach l body).
  Proof. intros X l body H. induction l as [|x l IH]; simpl; [apply k_ret|]. apply k_bind; auto. Qed.
  Lemma bind_inv : forall A B (m : O A) (k : A -> O B) s, J (fst (fst (m s))) -> (forall a, gkeeps J (k a)) -> J (fst (fst (obind m k s))).
  Proof. intros A B m k s I K. unfold obind. destruct (m s) as [s1 [a|e|]]; auto. apply K. auto. Qed.
  Lemma k_circ : forall fuel A p c (k : bool -> O A), gkeeps J (k true) -> (forall s, J (fst s) -> walk fuel (fst s) c [p] = Ok false -> J (fst (fst (k false s)))) ->
    gkeeps J (obind (circular fuel p c) k).
  Proof.
    intros fuel A p c k K1 K2 s I. unfold obind, circular. destruct (walk fuel (fst s) c [p]) as [[|]|e|] eqn:W; auto.
  Qed.
End Generic.

Ltac kcore :=
  match goal with
  | |- forall _, _ => intro
  | |- gkeeps _ (obind _ _) => apply k_bind
  | |- gkeeps _ (oret _) => apply k_ret
  | |- gkeeps _ (oraise _) => apply k_raise
  | |- gkeeps _ ohang => apply k_hang
  | |- gkeeps _ oget => apply k_get
  | |- gkeeps _ (olog _) => apply k_log
  | |- gkeeps _ (at_addr _) => apply k_at_addr
  | |- gkeeps _ (at_name _) => apply k_at_name
  | |- gkeeps _ (circular _ _ _) => apply k_circular
  | |- gkeeps _ (oeach _ _) => apply k_each
  | |- gkeeps _ (if ?b then _ else _) => destruct b
  | |- gkeeps _ (match ?x with _ => _ end) => destruct x
  end.

Notation keeps := (gkeeps inv).
Lemma k_put : forall a f, (forall o, o_id (f o) = o_id o /\ (o_tree o = true -> o_tree (f o) = true) /\ forall p, In p (o_par (f o)) -> In p (o_par o)) -> keeps (omod (put a f)).
Proof. intros a f F. apply k_mod. intros w. apply inv_put. auto. Qed.
Lemma k_pend : forall (f : world -> list (option id * id)), keeps (omod (fun w => set_wpend (f w) w)).
Proof. intros f. apply k_mod. intros w. apply inv_pend. Qed.

Ltac putok := let o := fresh in intros o; cbn; split; [auto|split; [auto|auto]].
Ltac kstep := match goal with |- gkeeps _ (omod (put _ _)) => apply k_put; putok | _ => kcore end.

Lemma k_destroy : forall p c, keeps (destroy p c).
Proof. intros p c. unfold destroy. repeat kstep. cbn in H. eapply remove1_In; eauto. Qed.
Lemma k_forget : forall r, keeps (forget r).
Proof. intros r. unfold forget. repeat kstep. apply (k_pend (fun _ => _)). Qed.
Lemma k_remember : forall r, keeps (remember r).
Proof. intros r. unfold remember. apply (k_pend (fun w => _)). Qed.
Lemma create_inv : forall f p c s, inv (fst s) -> walk f (fst s) c [p] = Ok false -> inv (fst (fst (create p c s))).
Proof.
  intros f p c s I W. unfold create, obind at 1, at_name at 1. destruct (dget p (names (fst s))) as [pa|] eqn:P; [|auto].
  unfold obind at 1, at_name. destruct (dget c (names (fst s))) as [ca|] eqn:C; [|auto].
  set (f1 := fun o => if mem c (o_chi o) then o else w_chi (o_chi o ++ [c]) o).
  assert (F1 : forall o, o_id (f1 o) = o_id o /\ (o_tree o = true -> o_tree (f1 o) = true) /\ forall q, In q (o_par (f1 o)) -> In q (o_par o)).
  { intros o. unfold f1. destruct (mem c (o_chi o)); simpl; auto. }
  pose proof (inv_put pa f1 (fst s) F1 I) as I1.
  assert (NR : ~ reach_up (put pa f1 (fst s)) c p).
  { intros R. apply (walk_no (fst s) c f [p] W p (or_introl eq_refl)). clear - R F1. destruct R as [->|R]; [left; auto|right].
    assert (E : forall x o, stored (put pa f1 (fst s)) x o -> exists o', stored (fst s) x o' /\ o_par o = o_par o').
    { intros x o (b & B1 & B2). rewrite put_names in B1. rewrite put_at in B2. destruct (Nat.eqb b pa).
      - destruct (nth_error (heap (fst s)) b) as [o1|] eqn:E1; [|discriminate]. simpl in B2. inv B2. exists o1. split; [exists b; auto|]. unfold f1. destruct (mem c (o_chi o1)); auto.
      - exists o. split; [exists b|]; auto. }
    induction R as [x o S J|x o q S J R IH]; destruct (E x o S) as (o' & S' & EP); rewrite EP in J; [eapply above_one; eauto|eapply above_more; eauto]. }
  pose proof (inv_new_edge (put pa f1 (fst s)) p c ca I1) as I2. rewrite put_names in I2. unfold named, dmem in I2. rewrite put_names, P in I2. specialize (I2 eq_refl C NR).
  cbn. apply inv_put; [putok|]. exact I2.
Qed.

Section Keep.
  Variable react : listener.
  Variable self : call -> O unit.
  Variable fuel : nat.
  Hypothesis OB : obeys first_add react.
  Hypothesis KS : forall c s, inv (fst s) -> first_add (fst s) c -> inv (fst (fst (self c s))).

  Lemma k_listen : forall ev n k, keeps (listen react self ev n k).
  Proof.
    intros ev n k. induction k as [|k IH]; intros s I; cbn [listen]; destruct (react ev n (snd s) (fst s)) as [|e|c] eqn:E; auto.
    pose proof (KS c s I (OB _ _ _ _ _ E)) as K. destruct (self c s) as [s1 [u|e|]]; simpl in *; auto; apply IH; auto.
  Qed.
  Lemma k_notify : forall k n, keeps (notify react self fuel k n).
  Proof. intros k n. unfold notify. repeat kstep. apply k_listen. Qed.

  Lemma k_build : forall n r b, keeps (build fuel n r b).
  Proof.
    intros n r b. unfold build. apply k_bind; [apply k_get|]. intros w. apply k_bind.
    - destruct (String.eqb (snd r) n && onamed w (fst r)); [|apply k_ret]. destruct (fst r) as [p|]; [|apply k_ret]. apply k_circ.
      + repeat kstep. apply k_forget.
      + intros s I W. apply bind_inv; [|repeat kstep; apply k_forget]. apply bind_inv; [|repeat kstep]. apply (create_inv fuel); auto.
    - intros a1. apply k_bind; [apply k_get|]. intros w'. destruct (_ && named w' (snd r)); [|apply k_ret]. apply k_circ.
      + repeat kstep. apply k_forget.
      + intros s I W. apply bind_inv; [|repeat kstep; apply k_forget]. apply (create_inv fuel); auto.
  Qed.
  Lemma k_builds : forall n l b, keeps (builds fuel n l b).
  Proof. intros n l. induction l as [|r l IH]; intros b; cbn [builds]; repeat kstep; [apply k_build|apply IH]. Qed.

  Lemma inv_add_name : forall w a o, inv w -> nth_error (heap w) a = Some o -> o_tree o = false -> dget (o_id o) (names w) = None ->
    inv (set_names (dset (o_id o) a (names w)) (put a (w_npend []) (set_wpend (merge_pending (o_npend o) (wpend w)) (put a (w_tree true) w)))).
  Proof.
    intros w a o I Ho T N. assert (NZ : a <> 0). { intros ->. destruct (i_root w I) as (o' & R1 & R2). congruence. }
    pose proof (i_new w I a o Ho T) as P. set (f := fun o => w_npend [] (w_tree true o)).
    assert (G : forall b, nth_error (heap (set_names (dset (o_id o) a (names w)) (put a (w_npend []) (set_wpend (merge_pending (o_npend o) (wpend w)) (put a (w_tree true) w))))) b = if Nat.eqb b a then Some (f o) else nth_error (heap w) b).
    { intros b. unfold set_names at 1. cbn [heap]. rewrite put_at. unfold set_wpend at 1 2. cbn [heap]. rewrite put_at. destruct (Nat.eqb b a) eqn:E; auto.
      apply Nat.eqb_eq in E. subst b. rewrite Ho. auto. }
    constructor; [cbn [set_names names]; apply dset_NoDup; apply (i_keys w I)|..].
    - rewrite G. destruct (Nat.eqb 0 a) eqn:E; [apply Nat.eqb_eq in E; congruence|]. apply (i_root w I).
    - cbn [set_names names]. intros x b E. rewrite dget_dset in E. rewrite G. deq x (o_id o).
      + inv E. split; auto. rewrite Nat.eqb_refl. exists (f o). auto.
      + destruct (i_name w I x b E) as (NZ' & o' & Ho' & J & T'). split; auto. destruct (Nat.eqb b a) eqn:Eb; [|exists o'; auto].
        apply Nat.eqb_eq in Eb. subst b. congruence.
    - intros b o' Ho' T'. rewrite G in Ho'. destruct (Nat.eqb b a); [inv Ho'; discriminate|]. apply (i_new w I b o'); auto.
    - destruct (i_rank w I) as (r & R). exists r. intros p x (o' & (b & B1 & B2) & J). rewrite G in B2. cbn [set_names names] in B1. rewrite dget_dset in B1.
      destruct (Nat.eqb b a) eqn:Eb; [inv B2; unfold f in J; simpl in J; rewrite P in J; destruct J|]. deq x (o_id o).
      + inv B1. rewrite Nat.eqb_refl in Eb. discriminate.
      + apply R. exists o'. split; auto. exists b. auto.
  Qed.

  Lemma k_add : forall a p s, inv (fst s) -> first_add (fst s) (CAdd a p) -> inv (fst (fst (add react self fuel a p s))).
  Proof.
    intros a p s I F. unfold add. unfold obind at 1, at_addr. simpl in F. destruct (nth_error (heap (fst s)) a) as [o|] eqn:Ho; [|auto].
    unfold obind at 1, oget. destruct (named (fst s) (o_id o)) eqn:N; [auto|]. destruct (F o eq_refl) as [T|T]; [|congruence].
    assert (N' : dget (o_id o) (names (fst s)) = None). { unfold named, dmem in N. destruct (dget (o_id o) (names (fst s))); congruence. }
    pose proof (inv_add_name (fst s) a o I Ho T N') as I1.
    do 4 (unfold obind at 1, omod at 1). cbn [fst snd]. apply bind_inv; [exact I1|]. intros w1.
    apply k_bind; [apply k_builds|]. intros b. apply k_bind.
    - destruct p as [p|]; [|apply k_ret]. apply k_circ; [apply k_raise|]. intros s' I' W. unfold obind at 1, oget. destruct (named (fst s') p).
      + apply bind_inv; [apply (create_inv fuel); auto|]. repeat kstep.
      + apply k_bind; auto; [apply k_remember|repeat kstep].
    - intros b'. repeat kstep. apply k_notify.
  Qed.

  Lemma k_cut_parents : forall k a n i, keeps (cut_parents react self fuel k a n i).
  Proof. intros k. induction k as [|k IH]; intros a n i; cbn [cut_parents]; repeat kstep; [apply k_destroy|apply k_notify|apply IH]. Qed.
  Lemma k_cut_child : forall n c, keeps (cut_child react self fuel n c).
  Proof. intros n c. unfold cut_child. repeat kstep; [apply k_destroy|apply k_notify]. Qed.

  Lemma inv_pop : forall n w, inv w -> inv (set_names (ddel n (names w)) w).
  Proof.
    intros n w I. assert (G : forall x a, dget x (ddel n (names w)) = Some a -> dget x (names w) = Some a).
    { intros x a E. rewrite dget_ddel in E by apply (i_keys w I). deq x n; congruence. }
    constructor; cbn [set_names names heap].
    - apply ddel_NoDup. apply (i_keys w I).
    - apply (i_root w I).
    - intros x a E. apply (i_name w I). auto.
    - apply (i_new w I).
    - destruct (i_rank w I) as (r & R). exists r. intros p x (o & (a & A1 & A2) & J). apply R. exists o. split; auto. exists a. auto.
  Qed.
  Lemma k_remove : forall k n b, keeps (remove react self fuel k n b).
  Proof.
    intros k. induction k as [|k IH]; intros n b; cbn [remove]; repeat kstep; try apply (k_pend (fun w => _)); try apply k_cut_parents; try apply k_notify; try apply IH;
      try apply k_cut_child; apply k_mod; intros w; apply inv_pop.
  Qed.
  Lemma k_announce : forall n, keeps (announce react self fuel n).
  Proof. intros n. unfold announce. repeat kstep. apply k_notify. Qed.
  Lemma k_relate : forall p c, keeps (relate react self fuel p c).
  Proof.
    intros p c. unfold relate. apply k_bind; [apply (k_pend (fun w => _))|]. intros _. destruct (_ || _); [apply k_ret|]. apply k_bind; [apply k_get|]. intros w.
    destruct (_ || _); [apply k_remember|]. apply k_circ.
    - repeat kstep. apply k_destroy.
    - intros s I W. apply bind_inv; [apply (create_inv fuel); auto|]. repeat kstep; apply k_notify.
  Qed.
  Lemma k_add_child : forall a c, keeps (obj_add_child react self fuel a c).
  Proof. intros a c. unfold obj_add_child. repeat kstep; try apply k_remember; apply k_relate. Qed.
  Lemma k_break : forall p c, keeps (break react self fuel p c).
  Proof.
    intros p c. unfold break. repeat kstep; try apply (k_pend (fun w => _)); try apply k_destroy; try apply k_notify; apply k_add_child.
  Qed.
  Lemma k_add_parent : forall a p, keeps (obj_add_parent react self fuel a p).
  Proof. intros a p. unfold obj_add_parent. repeat kstep; try apply k_remember; apply k_relate. Qed.
  Lemma k_remove_parent : forall a p, keeps (obj_remove_parent react self fuel a p).
  Proof. intros a p. unfold obj_remove_parent. repeat kstep; [|apply k_break]. eapply remove1_In; eauto. Qed.
  Lemma k_leave : forall k a p i fl, keeps (leave_others react self fuel k a p i fl).
  Proof. intros k. induction k as [|k IH]; intros a p i fl; cbn [leave_others]; repeat kstep; try apply k_remove_parent; apply IH. Qed.
  Lemma k_set_parent : forall a p, keeps (obj_set_parent react self fuel a p).
  Proof. intros a p. unfold obj_set_parent. repeat kstep; try apply k_remember; try apply k_break; try apply k_leave; apply k_add_parent. Qed.
  Lemma k_parents_enabled : forall a b, keeps (obj_parents_enabled react self fuel a b).
  Proof. intros a b. unfold obj_parents_enabled. repeat kstep; apply k_remove_parent. Qed.
  Lemma k_children_enabled : forall a b, keeps (obj_children_enabled react self fuel a b).
  Proof. intros a b. unfold obj_children_enabled. repeat kstep; apply k_break. Qed.

  Lemma inv_new : forall n w, inv w -> inv (set_heap (heap w ++ [new_obj n]) w).
  Proof.
    intros n w I. assert (G : forall a o, nth_error (heap w) a = Some o -> nth_error (heap w ++ [new_obj n]) a = Some o).
    { intros a o E. rewrite nth_error_app1; auto. apply nth_error_Some. congruence. }
    constructor; cbn [set_heap names heap].
    - apply (i_keys w I).
    - destruct (i_root w I) as (o & R1 & R2). exists o. auto.
    - intros x a E. destruct (i_name w I x a E) as (NZ & o & O1 & O2). split; auto. exists o. auto.
    - intros a o E T. destruct (nth_error (heap w) a) as [o'|] eqn:E'; [rewrite (G _ _ E') in E; inv E; apply (i_new w I a o); auto|].
      apply nth_error_In in E. apply in_app_iff in E. destruct E as [E|[<-|[]]]; auto. apply In_nth_error in E. destruct E as (b & E). apply (i_new w I b o); auto.
    - destruct (i_rank w I) as (r & R). exists r. intros p x (o & (a & A1 & A2) & J). apply R. cbn [set_heap names heap] in *. destruct (i_name w I x a A1) as (_ & o' & O1 & _).
      rewrite (G _ _ O1) in A2. inv A2. exists o. split; auto. exists a. auto.
  Qed.
  Lemma k_perform : forall c s, inv (fst s) -> first_add (fst s) c -> inv (fst (fst (perform react self fuel c s))).
  Proof.
    intros c s I F. destruct c; cbn [perform]; [|apply k_add; auto|..].
    - simpl. apply inv_new. auto.
    - apply k_remove. auto.
    - apply k_announce. auto.
    - apply k_relate. auto.
    - apply k_break. auto.
    - apply k_add_parent. auto.
    - apply k_set_parent. auto.
    - apply k_remove_parent. auto.
    - apply k_add_child. auto.
    - apply k_parents_enabled. auto.
    - apply k_children_enabled. auto.
  Qed.
End Keep.

Lemma exec_inv : forall react, obeys first_add react -> forall fuel c s, inv (fst s) -> first_add (fst s) c -> inv (fst (fst (exec fuel react c s))).
Proof.
  intros react OB fuel. induction fuel as [|f IH]; intros c s I F; cbn [exec]; [auto|]. apply k_perform; auto.
Qed.

Lemma inv_start : inv new_world.
Proof.
  constructor; simpl.
  - constructor.
  - eexists. split; [reflexivity|auto].
  - discriminate.
  - intros [|[|a]] o E; inv E; auto; discriminate.
  - exists (fun _ => 0). intros p x (o & (a & A1 & _) & _). discriminate.
Qed.

Lemma played_inv : forall react s, obeys first_add react -> played first_add react s -> inv (fst s).
Proof.
  intros react s OB H. induction H as [|s c fuel s' r H IH F E]; [exact inv_start|]. simpl. pose proof (exec_inv react OB fuel c s IH F) as X. rewrite E in X. exact X.
Qed.

Lemma never_above : forall react s, obeys first_add react -> played first_add react s -> forall x, ~ above (fst s) x x.
Proof.
  intros react s OB H x A. destruct (i_rank _ (played_inv react s OB H)) as (r & R). pose proof (rank_above _ r R x x A). lia.
Qed.
Lemma walk_stops : forall react s, obeys first_add react -> played first_add react s -> forall p c,
  exists k v, (forall j, walk (k + j) (fst s) c [p] = Ok v) /\ (v = true <-> p = c \/ above (fst s) c p).
Proof. intros react s OB H p c. pose proof (played_inv react s OB H) as I. apply walk_decides; [apply inv_objs; auto|apply i_rank; auto]. Qed.
