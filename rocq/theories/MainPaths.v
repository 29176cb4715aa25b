(** Proofs of the laws of the main tree: breaking, moving, paths, siblings. *)
From Verif Require Import Base BaseFacts MainTree Spec MainFacts MainInv MainOps MainDel MainRun MainAdd MainEff MainReg MainRegDel MainTight MainEvents MainLaws.
Open Scope m_scope.

Lemma reachx_plain : forall t, reachx fresh_plain t -> good false t /\ has_node t "" = false /\ has_node t main_root = false.
Proof.
  intros t H. split; [|split].
  - apply reachx_good. eapply reachx_mono; [|apply H]. intros t' o [A _]; auto.
  - apply reachx_named. eapply reachx_mono; [|apply H]. intros t' o [A B]. split; auto. destruct o; simpl in *; tauto.
  - assert (HG : forall t, reachx fresh_plain t -> good false t).
    { intros t0 H0. apply reachx_good. eapply reachx_mono; [|apply H0]. intros t' o [A _]; auto. }
    induction H as [|t o H IH [A B]|t o e H IH [A B] He]; auto;
      destruct (op_absent false o t main_root (HG _ H) A) as [C D]; auto; try (destruct o; auto; tauto).
    rewrite Forall_forall in D. apply D; auto.
Qed.

(** ** Breaking *)
Lemma del_edge_get_parents : forall t t' p c, ok t -> nodes t' = nodes (del_edge p c t) ->
  forall x, get_parents t' x = if String.eqb x c then drop p (get_parents t x) else get_parents t x.
Proof.
  intros t t' p c O E x. rewrite (get_parents_nodes (del_edge p c t) t') by auto.
  unfold get_parents. rewrite dget_del_edge. destruct (dget x (nodes t)) as [nd|] eqn:Ex; simpl; [|destruct (String.eqb x c); auto].
  destruct (pen nd); [|destruct (String.eqb x c); auto].
  rewrite (filter_ext (has_node (del_edge p c t)) (has_node t)) by (intros; apply has_node_del_edge).
  deq x c; auto. subst. rewrite remove1_drop; [apply filter_drop|].
  pose proof (ok_ndp _ O c) as N. unfold parents in N. rewrite Ex in N. auto.
Qed.

Lemma del_edge_get_children : forall t t' p c, ok t -> nodes t' = nodes (del_edge p c t) ->
  forall x, get_children t' x = if String.eqb x p then drop c (get_children t x) else get_children t x.
Proof.
  intros t t' p c O E x. rewrite (get_children_nodes (del_edge p c t) t') by auto.
  unfold get_children. rewrite dget_del_edge. destruct (dget x (nodes t)) as [nd|] eqn:Ex; simpl; [|destruct (String.eqb x p); auto].
  destruct (cen nd); [|destruct (String.eqb x p); auto].
  rewrite (filter_ext (has_node (del_edge p c t)) (has_node t)) by (intros; apply has_node_del_edge).
  deq x p; auto. subst. rewrite remove1_drop; [apply filter_drop|].
  pose proof (ok_ndc _ O p) as N. unfold childs in N. rewrite Ex in N. auto.
Qed.

Lemma break_laws : forall t, reachx fresh_plain t -> forall p c, p <> c -> has_node t p = true -> has_node t c = true ->
  let t' := after (BreakRelationship p c) t in
  outcome (BreakRelationship p c) t = Ok tt /\
  get_all_nodes t' = get_all_nodes t /\
  (forall x, get_parents t' x = if String.eqb x c then drop p (get_parents t x) else get_parents t x) /\
  (forall x, get_children t' x = if String.eqb x p then drop c (get_children t x) else get_children t x) /\
  (forall x, In x (root_children t') <-> In x (root_children t) \/ x = c /\ parents_enabled t c = true /\ get_parents t' c = []) /\
  ~ In (Some p, c) (pend t').
Proof.
  intros t H p c N Hp Hc t'. destruct (reachx_plain _ H) as (G & He & Hr). pose proof (g_ok _ _ _ G) as O.
  assert (P1 : p <> "") by (intros ->; congruence). assert (C1 : c <> "") by (intros ->; congruence).
  assert (P2 : p <> main_root) by (intros ->; congruence). assert (C2 : c <> main_root) by (intros ->; congruence).
  destruct (break_ok p c t P1 C1 N Hp Hc C2 Hr) as (t1 & E & En & Epd & Er).
  assert (Et : t' = t1) by (unfold t', after; cbn [run_op]; rewrite E; auto). clearbody t'. subst t1.
  split; [unfold outcome; cbn [run_op]; rewrite E; auto|].
  split; [unfold get_all_nodes; rewrite En; apply dkeys_del_edge|].
  split; [apply del_edge_get_parents; auto|]. split; [apply del_edge_get_children; auto|]. split.
  - intros x. unfold root_children. rewrite !filter_In.
    assert (HL : has_node t' x = has_node t x).
    { rewrite (has_node_nodes (del_edge p c t) t') by auto. apply has_node_del_edge. }
    rewrite HL, Er. unfold parents_enabled. destruct (has_node_get _ _ Hc) as (cn & Ecn). rewrite Ecn.
    destruct (get_parents t' c); [|intuition discriminate].
    destruct (pen cn); [|intuition discriminate].
    destruct (mem_spec c (rootc t)).
    + split; [tauto|]. intros [A|(-> & _)]; auto.
    + rewrite in_app_iff. simpl. split; [intros [[A|[A|[]]] B]; auto|].
      intros [[A B]|(-> & _)]; auto.
  - intros Hi. apply Epd in Hi. destruct Hi as [[_ X]|X]; [auto|]. inv X. auto.
Qed.

(** ** Moving *)
Lemma break_all : forall ps n t, reg t -> parents t n = ps ->
  exists t' es, for_each ps (fun q => break_relationship q n) t = (t', es, Ok tt) /\ reg t' /\
    parents t' n = [] /\ (forall x, x <> n -> parents t' x = parents t x) /\ dkeys (nodes t') = dkeys (nodes t).
Proof.
  induction ps as [|q ps IH]; intros n t R Ep.
  - exists t, []. simpl. auto.
  - assert (Hq : In q (parents t n)) by (rewrite Ep; left; auto).
    assert (Hn : has_node t n = true) by (eapply In_parents_live; eauto).
    assert (Hql : has_node t q = true) by apply (ok_sym _ (reg_ok _ R) _ _ Hq).
    destruct (live_id _ _ R Hn) as [N1 N2]. destruct (live_id _ _ R Hql) as [Q1 Q2].
    assert (Nq : q <> n) by (intros ->; eapply ok_not_own_parent; [apply (reg_ok _ R)|eauto]).
    destruct (break_ok q n t Q1 N1 Nq Hql Hn N2 (r_main _ R)) as (t1 & E & En & _ & _).
    assert (R1 : reg t1).
    { pose proof (steps_break_relationship q n t R) as HS. unfold wp in HS. rewrite E in HS. simpl in HS. eapply reg_atoms; eauto. }
    assert (HP : forall x, parents t1 x = if String.eqb x n then remove1 q (parents t x) else parents t x).
    { intros x. rewrite (parents_nodes (del_edge q n t) t1) by auto. apply parents_del_edge. }
    assert (E1 : parents t1 n = ps) by (rewrite HP, eqb_refl, Ep; simpl; rewrite eqb_refl; auto).
    destruct (IH n t1 R1 E1) as (t2 & es2 & E2 & R2 & P2 & O2 & K2).
    exists t2. eexists. split; [simpl; erewrite bind_prefix by apply E; rewrite E2; reflexivity|].
    split; auto. split; auto. split.
    + intros x Hx. rewrite O2, HP, (proj2 (eqb_neq x n)) by auto. auto.
    + rewrite K2, En. apply dkeys_del_edge.
Qed.

Lemma move_away_reg : forall t, reg t -> forall n p, has_node t n = true ->
  (match p with None => True | Some x => x <> n /\ has_node t x = false end) ->
  let t' := after (MoveNode n p) t in
  outcome (MoveNode n p) t = Ok tt /\ get_all_nodes t' = get_all_nodes t /\
  get_parents t' n = [] /\ (forall x, x <> n -> get_parents t' x = get_parents t x) /\ In n (root_children t').
Proof.
  intros t R n p Hn Hp t'. destruct (has_node_get _ _ Hn) as (nd & En).
  destruct (break_all (get_parents t n) n t R) as (t1 & es & E & R1 & P1 & O1 & K1).
  { symmetry. apply get_parents_reg; apply R || apply reg_ok; auto. }
  assert (HM : run_op (MoveNode n p) t = (set_pend (pend t1 ++ [(p, n)]) t1, es ++ [], Ok tt)).
  { cbn [run_op]. unfold move_node. rewrite bind_get, Hn. unfold set_parent. rewrite (bind_live _ n nd) by auto.
    destruct (r_flags _ R _ _ En) as [-> _].
    assert (Eo : oid_eqb p n = false) by (destruct p; simpl; auto; apply eqb_neq; tauto). rewrite Eo. cbn [negb andb]. cbv iota.
    rewrite bind_get. destruct p as [x|].
    - destruct Hp as [_ Hx]. rewrite (has_node_none _ _ Hx). erewrite bind_prefix by apply E. reflexivity.
    - erewrite bind_prefix by apply E. reflexivity. }
  assert (Et : t' = set_pend (pend t1 ++ [(p, n)]) t1) by (unfold t', after; rewrite HM; auto). clearbody t'. subst t'.
  set (t' := set_pend (pend t1 ++ [(p, n)]) t1).
  assert (HL : has_node t1 n = true) by (rewrite (has_node_keys t1 t); auto).
  split; [unfold outcome; rewrite HM; auto|]. split; [apply K1|].
  assert (HG : forall x, get_parents t' x = parents t1 x).
  { intros. rewrite (get_parents_nodes t1 t') by reflexivity. apply get_parents_reg; [apply reg_ok; auto|apply R1]. }
  split; [rewrite HG; auto|]. split.
  - intros x Hx. rewrite HG, O1 by auto. symmetry. apply get_parents_reg; [apply reg_ok; auto|apply R].
  - rewrite (root_children_same t1 t') by reflexivity. rewrite (reg_root_children _ R1). apply (r_root _ R1); auto.
Qed.
Lemma move_away : forall t, reach calm t -> forall n p, has_node t n = true ->
  (match p with None => True | Some x => x <> n /\ has_node t x = false end) ->
  let t' := after (MoveNode n p) t in
  outcome (MoveNode n p) t = Ok tt /\ get_all_nodes t' = get_all_nodes t /\
  get_parents t' n = [] /\ (forall x, x <> n -> get_parents t' x = get_parents t x) /\ In n (root_children t').
Proof. intros t H. apply move_away_reg. apply reach_reg. exact H. Qed.

Lemma move_single : forall t, reach calm t -> forall n p, has_node t n = true -> has_node t p = true -> ~ anc t n p ->
  length (get_parents t n) <= 1 ->
  let t' := after (MoveNode n (Some p)) t in
  outcome (MoveNode n (Some p)) t = Ok tt /\ get_all_nodes t' = get_all_nodes t /\
  get_parents t' n = [p] /\ (forall x, x <> n -> get_parents t' x = get_parents t x).
Proof.
  intros t H n p Hn Hp Ha Hlen t'. pose proof (reach_reg _ H) as R. pose proof (reg_ok _ R) as O.
  assert (Npn : p <> n) by (intros ->; apply Ha; apply anc_refl).
  assert (HGP : forall t x, reg t -> get_parents t x = parents t x).
  { intros t0 x R0. apply get_parents_reg; [apply reg_ok; auto|apply R0]. }
  rewrite (HGP t n R) in Hlen.
  destruct (has_node_get _ _ Hn) as (nd & En). destruct (has_node_get _ _ Hp) as (pn & Epn).
  destruct (r_flags _ R _ _ En) as [Fn _]. destruct (r_flags _ R _ _ Epn) as [_ Fp]. destruct (live_id _ _ R Hp) as [P1 _].
  assert (HM : run_op (MoveNode n (Some p)) t =
     (flag <- drop_other_parents (S (length (par nd))) n p 0 false ;; if truthy p && negb flag then add_parent n (Some p) else ret tt) t).
  { cbn [run_op]. unfold move_node. rewrite bind_get, Hn. unfold set_parent. rewrite (bind_live _ n nd) by auto.
    rewrite Fn. cbn [oid_eqb]. rewrite (proj2 (eqb_neq p n)) by auto. cbn [negb andb]. cbv iota. rewrite bind_get, Epn, Fp. reflexivity. }
  assert (HA : forall t1, reg t1 -> dkeys (nodes t1) = dkeys (nodes t) -> ~ anc t1 n p -> parents t1 n = [] ->
    exists t2 es, add_parent n (Some p) t1 = (t2, es, Ok tt) /\ reg t2 /\ parents t2 n = [p] /\ dkeys (nodes t2) = dkeys (nodes t) /\
      (forall x, x <> n -> parents t2 x = parents t1 x)).
  { intros t1 R1 K1 A1 E1.
    assert (Lp : has_node t1 p = true) by (rewrite (has_node_keys t1 t); auto).
    assert (Ln : has_node t1 n = true) by (rewrite (has_node_keys t1 t); auto).
    destruct (ask_spec t1 p n (AddParent n (Some p)) R1 Lp Ln Npn (asks_parent _ _)) as [(B & _)|(_ & B1 & B2 & B3)]; [tauto|].
    unfold outcome, after in *. cbn [run_op] in *.
    pose proof (steps_add_parent n (Some p) t1 R1) as HS. unfold wp in HS.
    destruct (add_parent n (Some p) t1) as [[t2 es] r]. cbn [fst snd] in *. subst r. exists t2, es. split; auto.
    split; [eapply reg_atoms; eauto|].
    assert (HP : forall x, parents t2 x = if String.eqb x n && negb (mem p (parents t1 x)) then parents t1 x ++ [p] else parents t1 x).
    { intros. rewrite (parents_nodes (add_edge p n t1) t2) by auto. apply parents_add_edge; auto. }
    split; [rewrite HP, eqb_refl, E1; auto|]. split; [rewrite B2, dkeys_add_edge; auto|].
    intros x Hx. rewrite HP, (proj2 (eqb_neq x n)) by auto. auto. }
  assert (HX : exists t2 es, run_op (MoveNode n (Some p)) t = (t2, es, Ok tt) /\ reg t2 /\ parents t2 n = [p] /\
     dkeys (nodes t2) = dkeys (nodes t) /\ (forall x, x <> n -> parents t2 x = parents t x)).
  { rewrite HM. assert (Epar : parents t n = par nd) by (unfold parents; rewrite En; auto).
    destruct (par nd) as [|q [|q2 l]] eqn:Eq; [| |rewrite Epar in Hlen; simpl in Hlen; lia].
    - destruct (HA t R eq_refl Ha Epar) as (t2 & es & E & X). exists t2, es. split; auto.
      cbn [drop_other_parents length]. erewrite bind_Ok_nil.
      2:{ rewrite (bind_live _ n nd) by auto. rewrite Eq. reflexivity. }
      rewrite truthy_true by auto. cbn [negb andb]. cbv iota. auto.
    - cbn [drop_other_parents length]. destruct (id_dec q p) as [->|Nq].
      + exists t, []. split.
        * erewrite bind_Ok_nil.
          2:{ rewrite (bind_live _ n nd) by auto. rewrite Eq. cbn [nth_error]. rewrite eqb_refl. rewrite (bind_live _ n nd) by auto. rewrite Eq. reflexivity. }
          cbn [negb]. rewrite andb_false_r. reflexivity.
        * auto.
      + assert (Hq : In q (parents t n)) by (rewrite Epar; left; auto).
        assert (Hql : has_node t q = true) by apply (ok_sym _ O _ _ Hq). destruct (live_id _ _ R Hql) as [Q1 Q2]. destruct (live_id _ _ R Hn) as [N1 N2].
        assert (Nqn : q <> n) by (intros ->; eapply ok_not_own_parent; eauto).
        destruct (break_ok q n t Q1 N1 Nqn Hql Hn N2 (r_main _ R)) as (t1 & E & En1 & _ & _).
        assert (R1 : reg t1).
        { pose proof (steps_break_relationship q n t R) as HS. unfold wp in HS. rewrite E in HS. simpl in HS. eapply reg_atoms; eauto. }
        assert (HP : forall x, parents t1 x = if String.eqb x n then remove1 q (parents t x) else parents t x).
        { intros x. rewrite (parents_nodes (del_edge q n t) t1) by auto. apply parents_del_edge. }
        assert (E1 : parents t1 n = []) by (rewrite HP, eqb_refl, Epar; simpl; rewrite eqb_refl; auto).
        assert (K1 : dkeys (nodes t1) = dkeys (nodes t)) by (rewrite En1; apply dkeys_del_edge).
        assert (A1 : ~ anc t1 n p).
        { intros B. apply Ha. eapply anc_incl; [|apply B]. intros x y. rewrite HP. deq x n; auto. apply remove1_In. }
        destruct (HA t1 R1 K1 A1 E1) as (t2 & es2 & E2 & R2 & X1 & X2 & X3).
        assert (Ln : has_node t1 n = true) by (rewrite (has_node_keys t1 t); auto). destruct (has_node_get _ _ Ln) as (nd1 & End1).
        assert (Eq1 : par nd1 = []) by (unfold parents in E1; rewrite End1 in E1; auto).
        exists t2. eexists. split.
        * erewrite bind_prefix.
          2:{ rewrite (bind_live _ n nd) by auto. rewrite Eq. cbn [nth_error]. rewrite (proj2 (eqb_neq q p)) by auto.
              erewrite bind_prefix by (rewrite remove_parent_break by auto; apply E).
              rewrite (bind_live _ n nd1) by auto. rewrite Eq1. reflexivity. }
          rewrite truthy_true by auto. cbn [negb andb]. cbv iota. unfold ret at 2. cbn [fst]. rewrite E2. reflexivity.
        * split; auto. split; auto. split; auto. intros x Hx. rewrite X3, HP, (proj2 (eqb_neq x n)) by auto. auto. }
  destruct HX as (t2 & es & E & R2 & X1 & X2 & X3).
  assert (Et : t' = t2) by (unfold t', after; rewrite E; auto). clearbody t'. subst t2.
  split; [unfold outcome; rewrite E; auto|]. split; [exact X2|]. split; [rewrite HGP; auto|].
  intros x Hx. rewrite !HGP by auto. auto.
Qed.

(** ** Paths *)
Lemma chain_last : forall t n q, chain_to t n q -> exists l, q = l ++ [n].
Proof. intros t n q H. inv H; [exists []; auto|eauto]. Qed.

Lemma snoc_inj : forall {A} (a b : list A) x y, a ++ [x] = b ++ [y] -> a = b /\ x = y.
Proof. intros. apply app_inj_tail; auto. Qed.

Section Paths.
Variable t : mtree.
Hypothesis O : ok t.
Hypothesis He : has_node t "" = false.
Hypothesis Hr : has_node t main_root = false.

Lemma has_parent_get : forall n, has_parent t n = negb (match get_parents t n with [] => true | _ => false end).
Proof.
  intros n. rewrite (get_parents_raw t n O). unfold has_parent, parents_enabled, parents.
  destruct (dget n (nodes t)); auto. destruct (pen n0); auto.
Qed.

Lemma paths_spec : forall r, (forall p c, In p (parents t c) -> r p < r c) ->
  forall f n, r n < f -> has_node t n = true ->
  exists ps, paths_for f t n = Ok ps /\ NoDup ps /\ forall q, In q ps <-> chain_to t n q.
Proof.
  intros r HR. induction f as [|f IH]; intros n Hf Hn; [lia|].
  assert (N1 : n <> "") by (intros ->; congruence). assert (N2 : n <> main_root) by (intros ->; congruence).
  cbn [paths_for]. rewrite truthy_true, (proj2 (eqb_neq n main_root)), Hn, has_parent_get by auto. cbn [negb orb].
  assert (HG : forall p, In p (get_parents t n) -> r p < r n /\ has_node t p = true).
  { intros p Hp. rewrite (get_parents_raw t n O) in Hp. destruct (parents_enabled t n); [|destruct Hp].
    split; auto. apply (ok_sym _ O _ _ Hp). }
  assert (ND : NoDup (get_parents t n)).
  { rewrite (get_parents_raw t n O). destruct (parents_enabled t n); [apply O|constructor]. }
  assert (HN : get_parents t n = [] \/ get_parents t n <> []) by (destruct (get_parents t n); [left|right]; congruence).
  destruct HN as [Eg|Eg].
  - rewrite Eg. cbn [negb]. exists [[n]]. split; auto. split; [repeat constructor; intros []|].
    intros q. simpl. split.
    + intros [<-|[]]. apply chain_top; auto.
    + intros C. inv C; auto. rewrite Eg in H; destruct H.
  - assert (Eb : match get_parents t n with [] => true | _ => false end = false) by (destruct (get_parents t n); congruence).
    rewrite Eb. cbn [negb].
    assert (HGo : forall l, (forall p, In p l -> In p (get_parents t n)) -> NoDup l ->
      exists ps, (fix go (ps : list id) : res (list (list id)) :=
             match ps with
             | [] => Ok []
             | p :: rest =>
                 if has_node t p then
                   match paths_for f t p with
                   | Ok paths =>
                       match go rest with
                       | Ok more => Ok (map (fun q => q ++ [n]) paths ++ more)
                       | Err e => Err e
                       | Diverge => Diverge
                       end
                   | Err e => Err e
                   | Diverge => Diverge
                   end
                 else go rest
             end) l = Ok ps /\ NoDup ps /\
        forall q, In q ps <-> exists p q0, In p l /\ chain_to t p q0 /\ q = q0 ++ [n]).
    { induction l as [|p l IHl]; intros Hl NDl.
      - exists []. split; auto. split; [constructor|]. intros q. split; [intros []|intros (p & q0 & [] & _)].
      - inv NDl. destruct (IHl (fun x Hx => Hl x (or_intror Hx)) H2) as (more & Em & Nm & Im). rewrite Em.
        destruct (HG p (Hl p (or_introl eq_refl))) as [Hrp Lp]. rewrite Lp.
        destruct (IH p) as (pp & Ep & Np & Ip); [lia|auto|]. rewrite Ep. eexists. split; [reflexivity|].
        split.
        + apply NoDup_app_intro; auto.
          * clear -Np. induction Np; simpl; constructor; auto. intros Hi. apply in_map_iff in Hi. destruct Hi as (y & Ey & Hy).
            apply snoc_inj in Ey. destruct Ey; subst. auto.
          * intros q Hq Hq2. apply in_map_iff in Hq. destruct Hq as (y & <- & Hy). apply Im in Hq2.
            destruct Hq2 as (p2 & q0 & Hp2 & Cq & E2). apply snoc_inj in E2. destruct E2 as [-> _]. apply Ip in Hy.
            destruct (chain_last _ _ _ Hy) as (l1 & ->). destruct (chain_last _ _ _ Cq) as (l2 & E3).
            apply snoc_inj in E3. destruct E3; subst. auto.
        + intros q. rewrite in_app_iff, in_map_iff, Im. split.
          * intros [(y & <- & Hy)|(p2 & q0 & A & B & C)]; [exists p, y|exists p2, q0]; simpl; auto. rewrite <- Ip. auto.
          * intros (p2 & q0 & [->|A] & B & ->); [left; exists q0; rewrite Ip; auto|right; exists p2, q0; auto]. }
    destruct (HGo (get_parents t n) (fun p Hp => Hp) ND) as (ps & E & Nps & Ips).
    rewrite E. exists ps. split; auto. split; auto. intros q. rewrite Ips. split.
    + intros (p & q0 & A & B & ->). eapply chain_down; eauto.
    + intros C. inv C; [congruence|eauto].
Qed.

Lemma paths_exact : forall n, has_node t n = true ->
  exists ps, get_paths_for_node t n = Ok ps /\ NoDup ps /\ forall q, In q ps <-> chain_to t n q.
Proof.
  intros n Hn. destruct (bounded_rank t O) as (r & HR & HB). apply (paths_spec r HR); auto. specialize (HB n). lia.
Qed.

Lemma path_eqb_eq : forall a b, path_eqb a b = true <-> a = b.
Proof.
  induction a as [|x a IH]; intros [|y b]; simpl; split; intros H; try discriminate; auto.
  - apply andb_true_iff in H. destruct H as [H1 H2]. apply eqb_eq in H1. apply IH in H2. congruence.
  - inv H. rewrite eqb_refl. simpl. apply IH; auto.
Qed.

Lemma node_for_path_exact : forall q, q <> [] ->
  if has_node t (last q "") then
    exists r, get_node_for_path t q = Ok r /\ (r = Some (last q "") /\ chain_to t (last q "") q \/ r = None /\ ~ chain_to t (last q "") q)
  else last q "" <> "" -> last q "" <> main_root -> get_node_for_path t q = Err ValueError.
Proof.
  intros q Hq. destruct q as [|x0 q0] eqn:Eq; [tauto|]. rewrite <- Eq in *. set (n := last q "").
  assert (EU : get_node_for_path t q = match get_paths_for_node t n with
      | Ok ps => Ok (if existsb (path_eqb q) ps then Some n else None)
      | Err e => Err e
      | Diverge => Diverge
      end) by (unfold get_node_for_path; rewrite Eq; unfold n; rewrite Eq; auto).
  destruct (has_node t n) eqn:Hn.
  - destruct (paths_exact n Hn) as (ps & E & _ & I). rewrite EU, E. eexists. split; [reflexivity|].
    destruct (existsb (path_eqb q) ps) eqn:Ex; [left|right]; split; auto.
    + apply existsb_exists in Ex. destruct Ex as (y & Hy & Ey). apply path_eqb_eq in Ey. subst y. apply I; auto.
    + intros C. apply I in C. assert (X : existsb (path_eqb q) ps = true); [|congruence].
      apply existsb_exists. exists q. split; auto. apply path_eqb_eq; auto.
  - intros N1 N2. rewrite EU. unfold get_paths_for_node. cbn [paths_for].
    rewrite truthy_true, (proj2 (eqb_neq n main_root)), Hn by auto. reflexivity.
Qed.
End Paths.

Lemma main_paths : forall t, reachx fresh_plain t -> forall n, has_node t n = true ->
  exists ps, get_paths_for_node t n = Ok ps /\ NoDup ps /\ forall q, In q ps <-> chain_to t n q.
Proof. intros t H n Hn. destruct (reachx_plain _ H) as (G & A & B). apply paths_exact; auto. apply (g_ok _ _ _ G). Qed.

Lemma main_node_for_path : forall t, reachx fresh_plain t -> forall q n, has_node t n = true ->
  (get_node_for_path t (q ++ [n]) = Ok (Some n) <-> chain_to t n (q ++ [n])) /\
  (~ chain_to t n (q ++ [n]) -> get_node_for_path t (q ++ [n]) = Ok None).
Proof.
  intros t H q n Hn. destruct (reachx_plain _ H) as (G & A & B).
  pose proof (node_for_path_exact t (g_ok _ _ _ G) A B (q ++ [n])) as HX. rewrite last_last, Hn in HX.
  destruct HX as (r & E & [[-> C]|[-> C]]); [destruct q; discriminate| |]; rewrite E; split; try tauto.
  split; [discriminate|tauto].
Qed.

(** ** Siblings *)
Lemma index_nth : forall l i x, NoDup l -> nth_error l i = Some x -> index_of x l = Some i.
Proof.
  induction l as [|y l IH]; intros [|i] x ND E; simpl in *; try discriminate.
  - inv E. rewrite eqb_refl. auto.
  - inv ND. rewrite (IH i x) by auto. deq x y; auto. subst. exfalso. apply H1. eapply nth_error_In; eauto.
Qed.

Lemma next_at : forall t n l i, NoDup l ->
  (forall x, In x l -> has_node t x = true) -> nth_error l i = Some n ->
  (match index_of n l with
   | None => Err IndexError
   | Some i => if Nat.ltb (S i) (length (filter (has_node t) l)) then
              match nth_error l (S i) with Some x => Ok (Some x) | None => Err ValueError end
            else Ok None
   end) = Ok (nth_error l (S i)).
Proof.
  intros t n l i ND HL E. rewrite (index_nth l i n ND E). rewrite filter_id by auto.
  destruct (Nat.ltb_spec (S i) (length l)).
  - destruct (nth_error l (S i)) eqn:E2; auto. apply nth_error_None in E2. lia.
  - assert (E2 : nth_error l (S i) = None) by (apply nth_error_None; lia). rewrite E2. auto.
Qed.

Lemma next_sibling : forall t, reach tidy t -> forall p i n, nth_error (get_children t p) i = Some n ->
  next_node t n (Some p) = Ok (nth_error (get_children t p) (S i)).
Proof.
  intros t H p i n E. destruct (reach_tidy t H) as [R T].
  assert (Hin : In n (get_children t p)) by (eapply nth_error_In; eauto).
  assert (Hp : In p (get_parents t n)) by (apply reg_agree; auto).
  assert (EC : get_children t p = childs t p).
  { rewrite (get_children_reg t p) by apply R. apply filter_id. intros c Hc. eapply T; eauto. }
  rewrite EC in *.
  assert (Hn : has_node t n = true) by (eapply T; eauto).
  unfold next_node. rewrite Hn. cbn [negb andb]. destruct (get_parents t n) as [|p0 l] eqn:Eg; [destruct Hp|].
  rewrite (proj2 (mem_In p (p0 :: l))) by auto.
  assert (Lp : has_node t p = true) by (eapply In_childs_live; eauto). destruct (has_node_get _ _ Lp) as (nd & En).
  assert (ER : raw_children t p = Some (true, childs t p)).
  { unfold raw_children, childs. rewrite En. destruct (r_flags _ R _ _ En) as [_ ->]. auto. }
  rewrite ER. apply next_at; auto.
  - apply (ok_ndc _ (reg_ok _ R)).
  - intros x Hx. eapply T; eauto.
Qed.

Lemma next_root : forall t, reach tidy t -> forall i n po, nth_error (root_children t) i = Some n ->
  next_node t n po = Ok (nth_error (root_children t) (S i)).
Proof.
  intros t H i n po E. destruct (reach_tidy t H) as [R T].
  assert (Hin : In n (root_children t)) by (eapply nth_error_In; eauto).
  destruct (root_exact t (reach_tidy_calm t H)) as [ND HX]. apply HX in Hin. destruct Hin as [Hn Hp].
  unfold next_node. rewrite Hn, Hp. cbn [negb andb].
  rewrite (reg_root_children _ R) in *.
  assert (ER : raw_children t main_root = Some (true, rootc t)).
  { unfold raw_children. rewrite (has_node_none _ _ (r_main _ R)). reflexivity. }
  rewrite ER. apply next_at; auto. intros x Hx. apply (r_root _ R); auto.
Qed.
