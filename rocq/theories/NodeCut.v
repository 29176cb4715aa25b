(** Proofs about methods of nodes called by other threads: changes of lists before
    and after the relation is broken. *)
From Coq Require Import Lia Permutation.
From Verif Require Import Base BaseFacts MainTree Spec MainFacts MainEff MainReg MainTight Queue SpecQueue QueueFacts SpecBatch BatchFacts NodeThreads SpecNodes NodeFacts.

Definition dupd {V} (k : id) (f : V -> V) (d : dict V) : dict V := match dget k d with Some v => dset k (f v) d | None => d end.
Lemma dupd_cons : forall V k f x (v : V) d, dupd k f ((x, v) :: d) = if String.eqb k x then (x, f v) :: d else (x, v) :: dupd k f d.
Proof.
  intros. unfold dupd. cbn [dget]. destruct (String.eqb k x) eqn:E.
  - apply String.eqb_eq in E. subst. cbn [dset]. rewrite String.eqb_refl. auto.
  - destruct (dget k d); auto. cbn [dset]. rewrite E. auto.
Qed.
Lemma dupd_comm : forall V a b (f g : V -> V) d, a <> b -> dupd a f (dupd b g d) = dupd b g (dupd a f d).
Proof.
  intros V a b f g d N. induction d as [|[x v] d IH]; auto. rewrite !dupd_cons.
  destruct (String.eqb a x) eqn:A, (String.eqb b x) eqn:B; rewrite ?dupd_cons, ?A, ?B; auto; [|congruence].
  apply String.eqb_eq in A, B. congruence.
Qed.
Lemma dupd_fuse : forall V a (f g : V -> V) d, dupd a f (dupd a g d) = dupd a (fun x => f (g x)) d.
Proof.
  intros V a f g d. induction d as [|[x v] d IH]; auto. rewrite !dupd_cons.
  destruct (String.eqb a x) eqn:A; rewrite ?dupd_cons, ?A; auto. congruence.
Qed.
Lemma dupd_ext : forall V a (f g : V -> V) d, (forall v, dget a d = Some v -> f v = g v) -> dupd a f d = dupd a g d.
Proof. intros V a f g d H. unfold dupd. destruct (dget a d); auto. rewrite (H v); auto. Qed.

Lemma upd_tree : forall a f t, upd_node a f t = mkTree (dupd a f (nodes t)) (pend t) (rootc t).
Proof. intros a f [n p r]. unfold upd_node, dupd. cbn [nodes]. destruct (dget a n); auto. Qed.
Lemma upd_comm : forall a b f g t, a <> b -> upd_node a f (upd_node b g t) = upd_node b g (upd_node a f t).
Proof. intros. rewrite !upd_tree. cbn [nodes pend rootc]. rewrite dupd_comm; auto. Qed.
Lemma upd_fuse : forall a f g t, upd_node a f (upd_node a g t) = upd_node a (fun x => f (g x)) t.
Proof. intros. rewrite !upd_tree. cbn [nodes pend rootc]. rewrite dupd_fuse. auto. Qed.
Lemma upd_ext : forall a f g t, (forall v, dget a (nodes t) = Some v -> f v = g v) -> upd_node a f t = upd_node a g t.
Proof. intros. rewrite !upd_tree. rewrite (dupd_ext _ a f g); auto. Qed.
Lemma upd_get : forall a f t, dget a (nodes (upd_node a f t)) = option_map f (dget a (nodes t)).
Proof. intros. rewrite dget_upd, String.eqb_refl. destruct (dget a (nodes t)); auto. Qed.
Lemma upd_has : forall a f t x, has_node (upd_node a f t) x = has_node t x.
Proof. intros. apply has_node_upd. Qed.
Lemma forget_upd : forall p c a f t, forget p c (upd_node a f t) = upd_node a f (forget p c t).
Proof. intros. unfold forget. rewrite !upd_tree. reflexivity. Qed.

Definition orphan (q : id) (nd : node) : node := set_par (remove1 q (par nd)) nd.
Definition childless (c : id) (nd : node) : node := set_chi (remove1 c (chi nd)) nd.
Lemma cut_one_upd : forall p c t, cut_one p c t = upd_node c (orphan p) (upd_node p (childless c) (forget p c t)).
Proof. reflexivity. Qed.

Lemma remove1_swap : forall a b l, remove1 a (remove1 b l) = remove1 b (remove1 a l).
Proof.
  intros a b l. induction l as [|x l IH]; auto. cbn [remove1].
  destruct (String.eqb b x) eqn:B, (String.eqb a x) eqn:A; cbn [remove1]; rewrite ?A, ?B; auto; [|congruence].
  apply String.eqb_eq in A, B. congruence.
Qed.

Lemma shown_parent : forall t n nd z, dget n (nodes t) = Some nd -> pen nd = true -> In z (par nd) -> has_node t z = true -> get_parents t n <> [].
Proof.
  intros t n nd z E P I L Q. unfold get_parents in Q. rewrite E, P in Q. assert (X : In z (filter (has_node t) (par nd))) by (apply filter_In; auto). rewrite Q in X. destruct X.
Qed.
Lemma to_root_none : forall c t, get_parents t c <> [] -> to_root c t = t.
Proof. intros c t H. unfold to_root. destruct (get_parents t c); auto. congruence. Qed.

(** Breaking a relation after another parent has been struck off. *)
Lemma parted_orphan : forall n p q z nd t, dget n (nodes t) = Some nd -> pen nd = true -> In z (par nd) -> z <> p -> z <> q -> has_node t z = true ->
  parted p n (upd_node n (orphan q) t) = upd_node n (orphan q) (parted p n t).
Proof.
  intros n p q z nd t E P I Np Nq L. unfold parted. rewrite !upd_has, forget_upd.
  destruct (negb (truthy p) || negb (truthy n) || String.eqb p n) eqn:G; auto.
  destruct (negb (has_node t p) || negb (has_node t n)); auto.
  assert (Npn : p <> n) by (apply orb_false_iff in G; destruct G as [_ G]; apply eqb_neq; auto).
  assert (C : cut_one p n (upd_node n (orphan q) t) = upd_node n (orphan q) (cut_one p n t)).
  { rewrite !cut_one_upd, forget_upd. rewrite (upd_comm p n) by auto. rewrite !upd_fuse. apply upd_ext.
    intros v _. unfold orphan, set_par. cbn [par chi pen cen npend data]. rewrite remove1_swap. auto. }
  assert (F : dget n (nodes (forget p n t)) = Some nd) by exact E.
  assert (D : dget n (nodes (cut_one p n t)) = Some (orphan p nd)).
  { rewrite cut_one_upd, upd_get, dget_upd, (proj2 (eqb_neq n p)) by congruence. rewrite F. auto. }
  assert (In1 : In z (par (orphan p nd))) by (cbn; apply remove1_In_neq; auto).
  assert (Hl : has_node (cut_one p n t) z = true) by (rewrite cut_one_upd, !upd_has; exact L).
  rewrite (to_root_none n (cut_one p n t)) by (eapply shown_parent; eauto).
  rewrite C. apply to_root_none. eapply (shown_parent _ n (orphan q (orphan p nd)) z).
  - rewrite upd_get, D. auto.
  - auto.
  - cbn. apply remove1_In_neq; auto.
  - rewrite upd_has. auto.
Qed.

(** And after this parent has been struck off. *)
Lemma parted_again : forall n q nd t, dget n (nodes t) = Some nd -> NoDup (par nd) -> q <> "" -> n <> "" -> q <> n -> has_node t q = true -> has_node t n = true ->
  parted q n (upd_node n (orphan q) t) = parted q n t.
Proof.
  intros n q nd t E ND Hq Hn N Lq Ln. unfold parted. rewrite !upd_has, Lq, Ln. rewrite guard_false by auto. cbn [negb orb]. f_equal.
  rewrite !cut_one_upd, forget_upd. rewrite (upd_comm q n) by auto. rewrite upd_fuse. apply upd_ext. intros v Hv.
  rewrite dget_upd, (proj2 (eqb_neq n q)) in Hv by congruence. change (nodes (forget q n t)) with (nodes t) in Hv. rewrite E in Hv. inv Hv.
  unfold orphan, set_par. cbn [par chi pen cen npend data]. f_equal. apply remove1_notin. intros X. apply remove1_iff in X; tauto.
Qed.

(** What parting does to the node itself. *)
Lemma parted_get : forall n q nd t, dget n (nodes t) = Some nd -> q <> "" -> n <> "" -> q <> n -> has_node t q = true -> has_node t n = true ->
  dget n (nodes (parted q n t)) = Some (orphan q nd).
Proof.
  intros n q nd t E Hq Hn N Lq Ln. unfold parted. rewrite Lq, Ln, guard_false by auto. cbn [negb orb].
  assert (D : dget n (nodes (cut_one q n t)) = Some (orphan q nd)).
  { rewrite cut_one_upd, upd_get, dget_upd, (proj2 (eqb_neq n q)) by congruence. change (nodes (forget q n t)) with (nodes t). rewrite E. auto. }
  unfold to_root. destruct (get_parents _ n); auto. destruct (_ || _); auto. rewrite D. destruct (pen _); auto.
Qed.
