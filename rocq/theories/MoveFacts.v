(** Moving a node under a node of the tree, exactly. *)
From Verif Require Import Base BaseFacts MainTree Spec SpecMove MainFacts MainInv MainOps MainDel MainRun MainAdd MainEff MainReg MainRegDel MainTight MainEvents MainLaws MainPaths.
Open Scope m_scope.

Fixpoint visited (p : id) (l : list id) : bool :=
  match l with
  | [] => false
  | x :: r => if String.eqb x p then true else match r with [] => false | _ :: r' => visited p r' end
  end.

Lemma visited_survives : forall k p l, length l <= k -> visited p l = true -> In p (survivors p l).
Proof.
  induction k as [|k IH]; intros p l Hk H; destruct l as [|x r]; simpl in *; try discriminate; [lia|].
  destruct (String.eqb x p); [left; auto|]. destruct r as [|y r]; [discriminate|]. right. apply IH; auto. simpl in *. lia.
Qed.

Lemma survivors_incl : forall k p l, length l <= k -> incl (survivors p l) l.
Proof.
  induction k as [|k IH]; intros p l Hk x H; destruct l as [|y r]; simpl in *; try tauto; [lia|].
  destruct (String.eqb y p) eqn:E.
  - apply String.eqb_eq in E. subst y. destruct H as [<-|H]; auto. right. apply (IH p r); auto. lia.
  - destruct r as [|z r]; [destruct H|]. destruct H as [<-|H]; [right; left; auto|]. right. right. apply (IH p r); auto. simpl in *. lia.
Qed.

Lemma remove1_mid : forall (q : id) l r, ~ In q l -> remove1 q (l ++ q :: r) = l ++ r.
Proof.
  intros q l r H. induction l as [|x l IH]; simpl; [rewrite eqb_refl; auto|].
  deq q x; [subst; exfalso; apply H; left; auto|]. f_equal. apply IH. intros X. apply H. right. auto.
Qed.

Lemma drop_run : forall k l fuel pre n p flag t, length l <= k -> length l <= fuel -> reg t -> has_node t n = true -> parents t n = pre ++ l ->
  exists t' es, drop_other_parents fuel n p (length pre) flag t = (t', es, Ok (flag || visited p l)) /\ reg t' /\
    parents t' n = pre ++ survivors p l /\ (forall x, x <> n -> parents t' x = parents t x) /\ dkeys (nodes t') = dkeys (nodes t).
Proof.
  induction k as [|k IH]; intros l fuel pre n p flag t Hk Hf R Hn Ep; destruct l as [|q r].
  1,3: exists t, []; destruct (has_node_get _ _ Hn) as (nd & En); unfold parents in Ep; rewrite En in Ep; rewrite app_nil_r in Ep;
    split; [destruct fuel; cbn [drop_other_parents]; rewrite (bind_live _ n nd) by auto; rewrite Ep, (proj2 (nth_error_None pre (length pre))) by lia;
      simpl; rewrite orb_false_r; reflexivity|]; split; [auto|]; split; [simpl; rewrite app_nil_r; unfold parents; rewrite En; auto|auto].
  { simpl in Hk. lia. }
  destruct fuel as [|f]; [simpl in Hf; lia|]. destruct (has_node_get _ _ Hn) as (nd & En).
  assert (Epar : par nd = pre ++ q :: r) by (unfold parents in Ep; rewrite En in Ep; auto).
  cbn [drop_other_parents]. rewrite (bind_live _ n nd) by auto. rewrite Epar, nth_error_app2, Nat.sub_diag by lia. cbn [nth_error].
  cbn [survivors visited]. destruct (String.eqb q p) eqn:E.
  - apply String.eqb_eq in E. subst q.
    destruct (IH r f (pre ++ [p]) n p true t) as (t' & es & E1 & R1 & P1 & O1 & K1); auto; try (simpl in *; lia).
    { rewrite Ep, <- app_assoc. auto. }
    rewrite app_length in E1. simpl in E1. rewrite Nat.add_1_r in E1. exists t', es. rewrite orb_true_r. split; [exact E1|]. split; auto.
    split; [rewrite P1, <- app_assoc; auto|auto].
  - pose proof (reg_ok _ R) as O. assert (Hq : In q (parents t n)) by (rewrite Ep; apply in_app_iff; simpl; auto).
    assert (ND : NoDup (parents t n)) by apply O.
    assert (Hql : has_node t q = true) by apply (ok_sym _ O _ _ Hq). destruct (live_id _ _ R Hql) as [Q1 Q2]. destruct (live_id _ _ R Hn) as [N1 N2].
    assert (Nqn : q <> n) by (intros ->; eapply ok_not_own_parent; eauto).
    destruct (break_ok q n t Q1 N1 Nqn Hql Hn N2 (r_main _ R)) as (t1 & E1 & En1 & _ & _).
    assert (R1 : reg t1).
    { pose proof (steps_break_relationship q n t R) as HS. unfold wp in HS. rewrite E1 in HS. simpl in HS. eapply reg_atoms; eauto. }
    assert (HP : forall x, parents t1 x = if String.eqb x n then remove1 q (parents t x) else parents t x).
    { intros x. rewrite (parents_nodes (del_edge q n t) t1) by auto. apply parents_del_edge. }
    assert (K1 : dkeys (nodes t1) = dkeys (nodes t)) by (rewrite En1; apply dkeys_del_edge).
    assert (Ln : has_node t1 n = true) by (rewrite (has_node_keys t1 t); auto).
    assert (P1 : parents t1 n = pre ++ r).
    { rewrite HP, eqb_refl, Ep. apply remove1_mid. rewrite Ep in ND. apply NoDup_remove_2 in ND. intros X. apply ND. apply in_app_iff. auto. }
    erewrite bind_prefix by (rewrite remove_parent_break by auto; apply E1).
    destruct r as [|y r].
    + rewrite app_nil_r in P1. destruct (has_node_get _ _ Ln) as (nd1 & End1). assert (Eq1 : par nd1 = pre) by (unfold parents in P1; rewrite End1 in P1; auto).
      eexists t1, _. split.
      * destruct f; cbn [drop_other_parents]; rewrite (bind_live _ n nd1) by auto; rewrite Eq1, (proj2 (nth_error_None pre (S (length pre)))) by lia;
          cbn [ret fst snd]; rewrite orb_false_r; reflexivity.
      * split; auto. split; [rewrite app_nil_r; auto|]. split; auto. intros x Hx. rewrite HP, (proj2 (eqb_neq x n)) by auto. auto.
    + destruct (IH r f (pre ++ [y]) n p flag t1) as (t' & es & E2 & R2 & P2 & O2 & K2); auto; try (simpl in *; lia).
      { rewrite P1, <- app_assoc. auto. }
      rewrite app_length in E2. simpl in E2. rewrite Nat.add_1_r in E2. rewrite E2. eexists t', _. split; [reflexivity|]. split; auto.
      split; [rewrite P2, <- app_assoc; auto|]. split; [|congruence]. intros x Hx. rewrite O2, HP, (proj2 (eqb_neq x n)) by auto. auto.
Qed.

Lemma move_exact_reg : forall t, reg t -> forall n p, has_node t n = true -> has_node t p = true -> p <> n ->
  let t' := after (MoveNode n (Some p)) t in
  let kept := survivors p (get_parents t n) in
  (anc t n p -> outcome (MoveNode n (Some p)) t = Err Circular /\ get_parents t' n = kept) /\
  (~ anc t n p -> outcome (MoveNode n (Some p)) t = Ok tt /\ get_parents t' n = add_last p kept) /\
  get_all_nodes t' = get_all_nodes t /\ (forall x, x <> n -> get_parents t' x = get_parents t x).
Proof.
  intros t R n p Hn Hp Npn t' kept. pose proof (reg_ok _ R) as O.
  assert (HGP : forall t x, reg t -> get_parents t x = parents t x).
  { intros t0 x R0. apply get_parents_reg; [apply reg_ok; auto|apply R0]. }
  unfold kept. rewrite (HGP t n R). clear kept. set (kept := survivors p (parents t n)).
  destruct (has_node_get _ _ Hn) as (nd & En). destruct (has_node_get _ _ Hp) as (pn & Epn).
  destruct (r_flags _ R _ _ En) as [Fn _]. destruct (r_flags _ R _ _ Epn) as [_ Fp]. destruct (live_id _ _ R Hp) as [P1 _].
  assert (HM : run_op (MoveNode n (Some p)) t =
     (flag <- drop_other_parents (S (length (par nd))) n p 0 false ;; if truthy p && negb flag then add_parent n (Some p) else ret tt) t).
  { cbn [run_op]. unfold move_node. rewrite bind_get, Hn. unfold set_parent. rewrite (bind_live _ n nd) by auto.
    rewrite Fn. cbn [oid_eqb]. rewrite (proj2 (eqb_neq p n)) by auto. cbn [negb andb]. cbv iota. rewrite bind_get, Epn, Fp. reflexivity. }
  assert (Epar : parents t n = par nd) by (unfold parents; rewrite En; auto).
  destruct (drop_run (length (par nd)) (par nd) (S (length (par nd))) [] n p false t) as (t1 & es & E1 & R1 & Pn1 & O1 & K1); auto.
  cbn [app length] in *. rewrite <- Epar in Pn1, E1. fold kept in Pn1. cbn [orb] in E1.
  assert (Lp : has_node t1 p = true) by (rewrite (has_node_keys t1 t); auto).
  assert (Ln : has_node t1 n = true) by (rewrite (has_node_keys t1 t); auto).
  assert (KI : incl kept (parents t n)) by (apply (survivors_incl (length (parents t n))); auto).
  assert (PI : forall x y, In y (parents t1 x) -> In y (parents t x)).
  { intros x y. destruct (id_dec x n) as [->|N]; [rewrite Pn1; apply KI|rewrite O1; auto]. }
  assert (AN : anc t1 n p <-> anc t n p).
  { split; [apply anc_incl; exact PI|]. intros A.
    clear -A O1. induction A as [|q x Hq A IH]; [apply anc_refl|].
    destruct (id_dec x n) as [->|N]; [apply anc_refl|]. eapply anc_step; [rewrite O1 by auto; exact Hq|exact IH]. }
  rewrite Epar in E1.
  destruct (in_dec id_dec p kept) as [Ik|Nk].
  - (* p stays *)
    assert (NA : ~ anc t n p) by (intros A; eapply anc_not_parent; [exact O|exact A|apply KI; exact Ik]).
    assert (HX : exists es', run_op (MoveNode n (Some p)) t = (t1, es', Ok tt)).
    { rewrite HM. erewrite bind_prefix by exact E1. destruct (visited p (par nd)); rewrite ?andb_false_r; [eexists; reflexivity|].
      rewrite truthy_true by auto. cbn [negb andb]. cbv iota. unfold add_parent. destruct (has_node_get _ _ Ln) as (nd1 & End1).
      rewrite (bind_live _ n nd1) by auto. assert (Epar1 : par nd1 = kept) by (unfold parents in Pn1; rewrite End1 in Pn1; auto).
      rewrite Epar1. destruct (mem_spec p kept); [|contradiction]. rewrite andb_false_r. eexists. reflexivity. }
    destruct HX as (es' & EX). assert (Et : t' = t1) by (unfold t', after; rewrite EX; auto). rewrite Et.
    split; [tauto|]. split; [|split; [exact K1|intros x Hx; rewrite !HGP by auto; auto]]. intros _. split; [unfold outcome; rewrite EX; auto|].
    rewrite HGP, Pn1 by auto. unfold add_last. destruct (mem_spec p kept); [auto|contradiction].
  - assert (VF : visited p (par nd) = false).
    { destruct (visited p (par nd)) eqn:V; auto. exfalso. apply Nk. unfold kept. rewrite Epar. apply (visited_survives (length (par nd))); auto. }
    assert (HX : run_op (MoveNode n (Some p)) t = prefix es (add_parent n (Some p) t1)).
    { rewrite HM. erewrite bind_prefix by exact E1. rewrite VF, truthy_true by auto. cbn [negb andb]. cbv iota. reflexivity. }
    pose proof (ask_spec t1 p n (AddParent n (Some p)) R1 Lp Ln Npn (asks_parent _ _)) as AS.
    unfold outcome, after in AS. cbn [run_op] in AS.
    pose proof (steps_add_parent n (Some p) t1 R1) as HS. unfold wp in HS.
    unfold t', outcome, after. rewrite HX. unfold prefix. destruct (add_parent n (Some p) t1) as [[t2 e2] r2]. cbn [fst snd] in *.
    assert (R2 : reg t2) by (eapply reg_atoms; eauto). rewrite (HGP t2 n R2).
    destruct AS as [(B1 & B2 & B3 & _)|(B1 & B2 & B3 & _)].
    + assert (A : anc t n p) by tauto. split; [intros _; split; [auto|rewrite (parents_nodes t1 t2) by auto; exact Pn1]|]. split; [tauto|].
      split; [unfold get_all_nodes; rewrite B3; exact K1|]. intros x Hx. rewrite !HGP by auto. rewrite (parents_nodes t1 t2) by auto. auto.
    + assert (HP : forall x, parents t2 x = if String.eqb x n && negb (mem p (parents t1 x)) then parents t1 x ++ [p] else parents t1 x).
      { intros. rewrite (parents_nodes (add_edge p n t1) t2) by auto. apply parents_add_edge; auto. }
      split; [tauto|]. split; [intros _; split; [auto|]|split].
      * rewrite HP, eqb_refl, Pn1. unfold add_last. destruct (mem p kept); auto.
      * unfold get_all_nodes. rewrite B3, dkeys_add_edge. exact K1.
      * intros x Hx. rewrite !HGP by auto. rewrite HP, (proj2 (eqb_neq x n)) by auto. cbn [andb]. auto.
Qed.
Lemma move_exact : forall t, reach calm t -> forall n p, has_node t n = true -> has_node t p = true -> p <> n ->
  let t' := after (MoveNode n (Some p)) t in
  let kept := survivors p (get_parents t n) in
  (anc t n p -> outcome (MoveNode n (Some p)) t = Err Circular /\ get_parents t' n = kept) /\
  (~ anc t n p -> outcome (MoveNode n (Some p)) t = Ok tt /\ get_parents t' n = add_last p kept) /\
  get_all_nodes t' = get_all_nodes t /\ (forall x, x <> n -> get_parents t' x = get_parents t x).
Proof. intros t H. apply move_exact_reg. apply reach_reg. exact H. Qed.

Lemma move_self : forall t n, has_node t n = true -> run_op (MoveNode n (Some n)) t = (t, [], Ok tt).
Proof.
  intros t n Hn. destruct (has_node_get _ _ Hn) as (nd & En). cbn [run_op]. unfold move_node. rewrite bind_get, Hn. unfold set_parent.
  rewrite (bind_live _ n nd) by auto. cbn [oid_eqb]. rewrite eqb_refl. destruct (pen nd); reflexivity.
Qed.

Lemma move_unknown : forall t n p, has_node t n = false -> run_op (MoveNode n p) t = (t, [], Ok tt).
Proof. intros t n p Hn. cbn [run_op]. unfold move_node. rewrite bind_get, Hn. reflexivity. Qed.

Lemma move_idle : forall t n p, has_node t n = false \/ p = Some n ->
  after (MoveNode n p) t = t /\ outcome (MoveNode n p) t = Ok tt /\ events (MoveNode n p) t = [].
Proof.
  intros t n p H. unfold after, outcome, events. destruct (has_node t n) eqn:Hn.
  - destruct H as [H| ->]; [discriminate|]. rewrite move_self by auto. auto.
  - rewrite move_unknown by auto. auto.
Qed.

Lemma refused_top : forall t, reach calm t -> forall n p, has_node t n = true -> has_node t p = true ->
  get_parents t n = [] -> outcome (MoveNode n (Some p)) t <> Ok tt -> same_tree t (after (MoveNode n (Some p)) t).
Proof.
  intros t H n p Hn Hp E HO. pose proof (reach_reg _ H) as R. pose proof (reg_ok _ R) as O.
  destruct (id_dec p n) as [->|Npn]; [unfold outcome in HO; rewrite move_self in HO by auto; exfalso; auto|].
  assert (EP : parents t n = []) by (rewrite <- E; symmetry; apply get_parents_reg; auto; apply R).
  destruct (has_node_get _ _ Hn) as (nd & En). destruct (has_node_get _ _ Hp) as (pn & Epn).
  destruct (r_flags _ R _ _ En) as [Fn _]. destruct (r_flags _ R _ _ Epn) as [_ Fp]. destruct (live_id _ _ R Hp) as [P1 _].
  assert (Enp : par nd = []) by (unfold parents in EP; rewrite En in EP; auto).
  assert (HM : run_op (MoveNode n (Some p)) t = run_op (AddParent n (Some p)) t).
  { cbn [run_op]. unfold move_node. rewrite bind_get, Hn. unfold set_parent. rewrite (bind_live _ n nd) by auto.
    rewrite Fn. cbn [oid_eqb]. rewrite (proj2 (eqb_neq p n)) by auto. cbn [negb andb]. cbv iota. rewrite bind_get, Epn, Fp.
    erewrite bind_Ok_nil. 2:{ cbn [drop_other_parents]. rewrite (bind_live _ n nd) by auto. rewrite Enp. reflexivity. }
    rewrite truthy_true by auto. reflexivity. }
  unfold outcome, after in *. rewrite HM in *.
  destruct (ask_spec t p n (AddParent n (Some p)) R Hp Hn Npn (asks_parent _ _)) as [(_ & _ & E1 & E2)|(_ & E1 & _)].
  - apply same_tree_nodes; auto.
  - exfalso. apply HO. exact E1.
Qed.
