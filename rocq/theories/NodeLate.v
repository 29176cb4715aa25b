(** Proofs about methods of nodes called by other threads: relations that wait, and
    children that are cut off. *)
From Coq Require Import Lia Permutation.
From Verif Require Import Base BaseFacts MainTree Spec MainFacts MainEff MainReg MainTight Queue SpecQueue QueueFacts SpecBatch BatchFacts MainDel NodeThreads SpecNodes NodeFacts NodeCut NodeMove NodeThm.

Lemma rel_eqb_eq : forall a b, rel_eqb a b = true <-> a = b.
Proof.
  intros [[a|] x] [[b|] y]; unfold rel_eqb; cbn [fst snd]; rewrite ?andb_true_iff, ?String.eqb_eq; split; intros H; try discriminate; try (destruct H; subst; auto; fail); try (inv H; auto).
Qed.
Lemma rel_remove1_perm : forall r a b, Permutation a b -> Permutation (rel_remove1 r a) (rel_remove1 r b).
Proof.
  intros r a b H. induction H; auto.
  - cbn [rel_remove1]. destruct (rel_eqb r x); auto.
  - cbn [rel_remove1]. destruct (rel_eqb r x) eqn:X, (rel_eqb r y) eqn:Y; auto; [|constructor].
    apply rel_eqb_eq in X, Y. subst. auto.
  - eapply Permutation_trans; eauto.
Qed.
Lemma rel_remove1_app : forall r l z, r <> z -> rel_remove1 r (l ++ [z]) = rel_remove1 r l ++ [z].
Proof.
  intros r l z N. induction l as [|x l IH]; cbn [List.app rel_remove1].
  - destruct (rel_eqb r z) eqn:E; auto. apply rel_eqb_eq in E. congruence.
  - destruct (rel_eqb r x); auto. rewrite IH. auto.
Qed.

(** The same tree with one more relation waiting. *)
Definition plus (z : option id * id) (t t' : mtree) : Prop := nodes t' = nodes t /\ rootc t' = rootc t /\ Permutation (pend t') (pend t ++ [z]).
Lemma plus_has : forall z t t' x, plus z t t' -> has_node t' x = has_node t x.
Proof. intros z t t' x [E _]. unfold has_node. rewrite E. auto. Qed.
Lemma plus_parents : forall z t t' x, plus z t t' -> get_parents t' x = get_parents t x.
Proof. intros z t t' x [E _]. unfold get_parents, has_node. rewrite E. auto. Qed.
Lemma filter_perm : forall A (f : A -> bool) a b, Permutation a b -> Permutation (filter f a) (filter f b).
Proof.
  intros A f a b H. induction H; cbn [filter]; auto.
  - destruct (f x); auto.
  - destruct (f x), (f y); auto. constructor.
  - eapply Permutation_trans; eauto.
Qed.
Lemma plus_forget : forall z t t' q n, z <> (Some q, n) -> plus z t t' -> plus z (forget q n t) (forget q n t').
Proof.
  intros z t t' q n N (A & B & C). split; [exact A|]. split; [exact B|]. cbn [forget set_pend pend].
  eapply Permutation_trans; [apply filter_perm; exact C|]. rewrite filter_app. cbn [filter].
  destruct (rel_eqb (Some q, n) z) eqn:E; [apply rel_eqb_eq in E; congruence|]. auto.
Qed.
Lemma plus_upd : forall z t t' a f, plus z t t' -> plus z (upd_node a f t) (upd_node a f t').
Proof. intros z t t' a f (A & B & C). rewrite !upd_tree. split; [cbn; rewrite A; auto|]. split; auto. Qed.
Lemma plus_to_root : forall z t t' c, z <> (Some main_root, c) -> plus z t t' -> plus z (to_root c t) (to_root c t').
Proof.
  intros z t t' c N P. pose proof P as (A & B & C). unfold to_root. rewrite (plus_parents _ _ _ c P), A, B.
  destruct (get_parents t c); auto. destruct (_ || _); auto.
  assert (S : forall l r : list (option id * id), Permutation l r -> forall u v, Permutation (l ++ [u]) (r ++ [u]) /\ Permutation ((l ++ [u]) ++ [v]) ((l ++ [v]) ++ [u])).
  { intros l r Hp u v. split; [apply Permutation_app_tail; auto|]. rewrite <- !app_assoc. apply Permutation_app_head. constructor. }
  destruct (dget c (nodes t)) as [cn|].
  - destruct (pen cn); auto. split; [auto|]. split; [reflexivity|]. cbn [set_pend set_rootc pend].
    eapply Permutation_trans; [apply Permutation_app_tail; apply rel_remove1_perm; exact C|]. rewrite rel_remove1_app by auto. apply (S _ _ (Permutation_refl _)).
  - split; [auto|]. split; [auto|]. cbn [set_pend pend]. eapply Permutation_trans; [apply Permutation_app_tail; exact C|]. apply (S _ _ (Permutation_refl _)).
Qed.
Lemma plus_parted : forall z t t' q c, z <> (Some q, c) -> z <> (Some main_root, c) -> plus z t t' -> plus z (parted q c t) (parted q c t').
Proof.
  intros z t t' q c N1 N2 P. unfold parted. rewrite !(plus_has _ _ _ _ P). destruct (_ || _ || _); [apply plus_forget; auto|].
  destruct (_ || _); [apply plus_forget; auto|]. apply plus_to_root; auto. rewrite !cut_one_upd. repeat apply plus_upd. apply plus_forget; auto.
Qed.
Lemma plus_cuts : forall z R t t' n, (forall q, In q R -> z <> (Some q, n)) -> z <> (Some main_root, n) -> plus z t t' -> plus z (cuts n R t) (cuts n R t').
Proof.
  intros z R. induction R as [|q R IH]; intros t t' n N1 N2 P; auto. unfold cuts in *. cbn [fold_left]. apply IH; [intros; apply N1; right; auto|auto|].
  apply plus_parted; auto; apply N1; left; auto.
Qed.

Lemma for_breaks : forall n R t, has_node t main_root = false -> exists es, for_each R (fun q => break_relationship q n) t = (cuts n R t, es, Ok tt).
Proof.
  intros n R. induction R as [|q R IH]; intros t Hr; [exists []; auto|]. cbn [for_each].
  destruct (break_parted q n t Hr) as [A B]. destruct (break_relationship q n t) as [[t1 e1] r1] eqn:EB. cbn [fst snd] in *. subst.
  destruct (IH (parted q n t)) as (es & E); [rewrite parted_has; auto|]. exists (e1 ++ es). erewrite bind_Ok by exact EB. rewrite E. auto.
Qed.

Lemma move_unknown : forall c n p nd k, at_rest c -> let t := tree_in c in reg t -> dget n (nodes t) = Some nd -> p <> Some n -> p <> Some main_root ->
  (forall x, p = Some x -> dget x (nodes t) = None) -> length (snd (t_set_parent n p t)) <= k ->
  alike (after (SetParent n p) t) (tree_in (steps_on (NOther (SetParent n p) :: repeat NTurn k) c)).
Proof.
  intros c n p nd k Hc t R En Np Nr Hu Hk. pose proof (reg_pre t n nd R En) as P.
  assert (Op : oid_eqb p n = false) by (destruct p as [x|]; auto; cbn; apply eqb_neq; congruence).
  set (ps := get_parents t n) in *. set (t1 := set_pend (pend t ++ [(p, n)]) t).
  assert (E : thread_op (SetParent n p) t = (t1, breaks n ps ++ [])).
  { rewrite app_nil_r. cbn [thread_op]. unfold t_set_parent. rewrite En, Op, (p_pen _ _ _ P). cbn [negb andb]. destruct p as [x|]; auto. rewrite (Hu x) by auto. auto. }
  assert (NDp : NoDup ps) by (unfold ps, get_parents; rewrite En, (p_pen _ _ _ P); apply NoDup_filter; apply P).
  assert (Ip : forall q, In q ps -> has_node t q = true) by (intros q; unfold ps, get_parents; rewrite En, (p_pen _ _ _ P); rewrite filter_In; tauto).
  assert (Nz : forall q, In q ps -> (p, n) <> (Some q, n)).
  { intros q Hq Q. inv Q. specialize (Hu q eq_refl). specialize (Ip q Hq). unfold has_node, dmem in Ip. rewrite Hu in Ip. discriminate. }
  assert (T : tree_in (steps_on (NOther (SetParent n p) :: repeat NTurn k) c) = cuts n ps t1).
  { rewrite (at_rest_through c (SetParent n p) k _ _ Hc E) by (change (thread_op (SetParent n p)) with (t_set_parent n p) in E; rewrite E in Hk; exact Hk).
    destruct (cutting_breaks n ps [] (or_introl eq_refl)) as [-> ->]. cbn [firsts]. rewrite app_nil_r. unfold breaks. rewrite breaks_once by auto. rewrite through_breaks by (apply P). auto. }
  rewrite T. destruct (for_breaks n ps t (p_root _ _ _ P)) as (es & FB).
  assert (A : after (SetParent n p) t = set_pend (pend (cuts n ps t) ++ [(p, n)]) (cuts n ps t)).
  { unfold after. cbn [run_op]. unfold set_parent. rewrite (bind_live _ n nd) by auto. rewrite Op, (p_pen _ _ _ P). cbn [negb andb]. rewrite bind_get. fold ps.
    destruct p as [x|]; [rewrite (Hu x) by auto|]; erewrite bind_Ok by exact FB; reflexivity. }
  rewrite A. apply (plus_cuts (p, n) ps t t1 n Nz); [congruence|]. split; [auto|]. split; [auto|]. apply Permutation_refl.
Qed.
