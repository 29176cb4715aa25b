(** What disabling the parents or the children of a node does. *)
From Verif Require Import Base BaseFacts MainTree Spec SpecFrame MainFacts MainOps MainRun MainInv MainAdd MainEff MainEvents MainDel MainReg MainLaws MainPaths FrameFacts.
Open Scope m_scope.

Lemma parents_upd : forall n f t x, parents (upd_node n f t) x =
  if String.eqb x n then match dget n (nodes t) with Some nd => par (f nd) | None => [] end else parents t x.
Proof. intros. unfold parents. rewrite dget_upd. deq x n; auto. destruct (dget n (nodes t)); auto. Qed.
Lemma childs_upd : forall n f t x, childs (upd_node n f t) x =
  if String.eqb x n then match dget n (nodes t) with Some nd => chi (f nd) | None => [] end else childs t x.
Proof. intros. unfold childs. rewrite dget_upd. deq x n; auto. destruct (dget n (nodes t)); auto. Qed.

Lemma attrs_pen : forall t t' x, attrs t' x = attrs t x -> parents_enabled t' x = parents_enabled t x.
Proof.
  intros t t' x. unfold attrs, parents_enabled. destruct (dget x (nodes t')), (dget x (nodes t)); simpl; intros H; try discriminate; auto.
  congruence.
Qed.
Lemma attrs_cen : forall t t' x, attrs t' x = attrs t x -> children_enabled t' x = children_enabled t x.
Proof.
  intros t t' x. unfold attrs, children_enabled. destruct (dget x (nodes t')), (dget x (nodes t)); simpl; intros H; try discriminate; auto.
  congruence.
Qed.
Lemma attrs_nodes : forall t t' x, nodes t' = nodes t -> attrs t' x = attrs t x.
Proof. intros. unfold attrs. rewrite H. auto. Qed.

Lemma get_parents_filter : forall t x, get_parents t x = if parents_enabled t x then filter (has_node t) (parents t x) else [].
Proof. intros. unfold get_parents, parents_enabled, parents. destruct (dget x (nodes t)); auto. Qed.
Lemma get_children_filter : forall t x, get_children t x = if children_enabled t x then filter (has_node t) (childs t x) else [].
Proof. intros. unfold get_children, children_enabled, childs. destruct (dget x (nodes t)); auto. Qed.

Lemma filter_filter : forall (f g : id -> bool) l, filter f (filter g l) = filter (fun x => g x && f x) l.
Proof. induction l as [|a l IH]; simpl; auto. destruct (g a); simpl; [destruct (f a)|]; rewrite IH; auto. Qed.

(** One relation cut, as break_ok says. *)
Lemma break_step : forall p c t, has_node t "" = false -> has_node t main_root = false -> p <> c ->
  has_node t p = true -> has_node t c = true ->
  exists t', break_relationship p c t = (t', [Ev EModified p t'; Ev EModified c t'], Ok tt) /\
    dkeys (nodes t') = dkeys (nodes t) /\ (forall x, attrs t' x = attrs t x) /\
    (forall x, parents t' x = if String.eqb x c then remove1 p (parents t x) else parents t x) /\
    (forall x, childs t' x = if String.eqb x p then remove1 c (childs t x) else childs t x) /\
    rootc t' = (match get_parents t' c with
                | [] => if parents_enabled t c then add_last c (rootc t) else rootc t
                | _ => rootc t end).
Proof.
  intros p c t He Hr N Hp Hc.
  assert (P1 : p <> "") by (intros ->; congruence). assert (C1 : c <> "") by (intros ->; congruence).
  assert (P2 : p <> main_root) by (intros ->; congruence). assert (C2 : c <> main_root) by (intros ->; congruence).
  destruct (break_ok p c t P1 C1 N Hp Hc C2 Hr) as (t1 & E & En & Epd & Er). exists t1. split; auto.
  split. { rewrite En. apply dkeys_del_edge. }
  split. { intros. rewrite (attrs_nodes (del_edge p c t)) by auto. apply attrs_del_edge. }
  split. { intros. rewrite (parents_nodes (del_edge p c t)) by auto. apply parents_del_edge. }
  split. { intros. rewrite (childs_nodes (del_edge p c t)) by auto. apply childs_del_edge. }
  rewrite Er. unfold parents_enabled. destruct (has_node_get _ _ Hc) as (cn & ->). reflexivity.
Qed.

Lemma remove_parent_step : forall p n t, has_node t "" = false -> has_node t main_root = false -> p <> n ->
  has_node t p = true -> has_node t n = true -> parents_enabled t n = true -> In p (parents t n) -> NoDup (parents t n) ->
  exists t' , remove_parent n p t = (t', [Ev EModified p t'; Ev EModified n t'], Ok tt) /\
    dkeys (nodes t') = dkeys (nodes t) /\ (forall x, attrs t' x = attrs t x) /\
    (forall x, parents t' x = if String.eqb x n then remove1 p (parents t x) else parents t x) /\
    (forall x, childs t' x = if String.eqb x p then remove1 n (childs t x) else childs t x) /\
    rootc t' = (match get_parents t' n with [] => add_last n (rootc t) | _ => rootc t end).
Proof.
  intros p n t He Hr N Hp Hn Hpen Hin ND. destruct (has_node_get _ _ Hn) as (nd & E).
  assert (Epen : pen nd = true) by (unfold parents_enabled in Hpen; rewrite E in Hpen; auto).
  assert (Ep : parents t n = par nd) by (unfold parents; rewrite E; auto).
  unfold remove_parent. rewrite (bind_live _ n nd) by auto. rewrite Epen, <- Ep, (proj2 (mem_In p (parents t n)) Hin). cbn [andb]. cbv iota.
  setoid_rewrite bind_modify. set (t0 := upd_node n (fun nd => set_par (remove1 p (par nd)) nd) t).
  assert (A0 : forall x, attrs t0 x = attrs t x) by (intros; apply attrs_upd; auto).
  destruct (break_step p n t0) as (t1 & E1 & K1 & A1 & P1 & C1 & R1); try (unfold t0; rewrite has_node_upd; auto); auto.
  exists t1. split. { rewrite E1. reflexivity. }
  split. { rewrite K1. unfold t0. apply dkeys_upd. }
  split. { intros. rewrite A1. auto. }
  split. { intros x. rewrite P1. unfold t0. rewrite parents_upd. deq x n; auto. subst. rewrite E. simpl. rewrite <- Ep.
    rewrite (remove1_notin p (remove1 p (parents t n))); auto. rewrite remove1_iff by auto. tauto. }
  split. { intros x. rewrite C1. unfold t0. rewrite childs_upd. deq x n; auto. subst. rewrite E. simpl. unfold childs. rewrite E. auto. }
  rewrite R1, (attrs_pen t t0) by auto. rewrite Hpen. unfold t0. rewrite rootc_upd. auto.
Qed.

Lemma remove_parents_loop : forall l n t, has_node t "" = false -> has_node t main_root = false -> has_node t n = true ->
  parents_enabled t n = true -> NoDup (parents t n) -> NoDup l -> incl l (parents t n) ->
  (forall p, In p (parents t n) -> has_node t p = true /\ p <> n) ->
  exists t' es, for_each l (fun p => remove_parent n p) t = (t', es, Ok tt) /\
    dkeys (nodes t') = dkeys (nodes t) /\ (forall x, attrs t' x = attrs t x) /\
    (forall x, parents t' x = if String.eqb x n then filter (fun p => negb (mem p l)) (parents t x) else parents t x) /\
    (forall x, childs t' x = if mem x l then remove1 n (childs t x) else childs t x) /\
    (forall x, In x (rootc t') <-> In x (rootc t) \/ x = n /\ l <> [] /\ parents t' n = []) /\
    map kind_id es = flat_map (fun p => [(EModified, p); (EModified, n)]) l.
Proof.
  induction l as [|p l IH]; intros n t He Hr Hn Hpen ND NDl Hin HL.
  - exists t, []. split; [reflexivity|]. split; auto. split; auto. split.
    { intros x. deq x n; auto. simpl. symmetry. apply filter_id. auto. }
    split; auto. split; [|reflexivity]. intros x. split; auto. intros [H|(_ & H & _)]; auto. congruence.
  - inversion NDl as [|? ? Np NDl']; subst.
    assert (Hp : In p (parents t n)) by (apply Hin; left; auto). destruct (HL p Hp) as [Lp Nn].
    destruct (remove_parent_step p n t) as (t1 & E1 & K1 & A1 & P1 & C1 & R1); auto.
    assert (H1 : forall x, has_node t1 x = has_node t x) by (intros; apply has_node_keys; auto).
    assert (Pn : parents t1 n = remove1 p (parents t n)) by (rewrite P1, eqb_refl; auto).
    destruct (IH n t1) as (t2 & es & E2 & K2 & A2 & P2 & C2 & R2 & Ev2).
    { rewrite H1; auto. } { rewrite H1; auto. } { rewrite H1; auto. } { rewrite (attrs_pen t t1); auto. }
    { rewrite Pn. apply remove1_NoDup; auto. } { auto. }
    { intros q Hq. rewrite Pn, remove1_iff by auto. split; [apply Hin; right; auto|]. intros ->. contradiction. }
    { intros q Hq. rewrite Pn, remove1_iff in Hq by auto. rewrite H1. apply HL. tauto. }
    exists t2. eexists. split. { cbn [for_each]. erewrite bind_prefix by apply E1. rewrite E2. reflexivity. }
    split; [congruence|]. split; [intros; rewrite A2; auto|]. split.
    { intros x. rewrite P2, P1. deq x n; auto. subst. rewrite BaseFacts.remove1_filter by auto. rewrite filter_filter.
      apply filter_ext. intros q. simpl. destruct (String.eqb q p); simpl; auto. }
    split.
    { intros x. rewrite C2, C1. simpl. deq x p; simpl; auto. subst. destruct (mem_spec p l); [contradiction|]. auto. }
    split.
    { intros x. rewrite R2, R1.
      assert (GP : get_parents t1 n = parents t1 n).
      { rewrite get_parents_filter, (attrs_pen t t1), Hpen by auto. apply filter_id. intros q Hq. rewrite H1.
        rewrite Pn, remove1_iff in Hq by auto. apply HL. tauto. }
      rewrite GP. destruct l as [|q l].
      - assert (E22 : t2 = t1) by (cbn [for_each] in E2; unfold ret in E2; injection E2; auto). rewrite E22. destruct (parents t1 n) eqn:Q.
        + unfold add_last. destruct (mem_spec n (rootc t)) as [M|M].
          * split; [tauto|]. intros [H|(-> & _)]; auto. 
          * rewrite in_app_iff. simpl. split; [intros [[H|[H|[]]]|(_ & H & _)]; auto; try congruence|].
            { right. split; auto. split; auto. discriminate. }
            intros [H|(-> & _ & _)]; auto.
        + split; [intros [H|(_ & H & _)]; auto; congruence|]. intros [H|(_ & _ & H)]; auto; congruence.
      - assert (Q : In q (parents t1 n)).
        { rewrite Pn, remove1_iff by auto. split; [apply Hin; right; left; auto|]. intros ->. apply Np. left; auto. }
        destruct (parents t1 n); [destruct Q|]. split.
        + intros [H|(-> & _ & H)]; auto. right. split; auto. split; auto. discriminate.
        + intros [H|(-> & _ & H)]; auto. right. split; auto. split; auto. discriminate. }
    rewrite map_app. simpl. rewrite Ev2. reflexivity.
Qed.

Lemma cut_children_loop : forall l n t, has_node t "" = false -> has_node t main_root = false -> has_node t n = true ->
  NoDup l -> (forall c, In c l -> has_node t c = true /\ c <> n) ->
  exists t' es, for_each l (fun c => break_relationship n c) t = (t', es, Ok tt) /\
    dkeys (nodes t') = dkeys (nodes t) /\ (forall x, attrs t' x = attrs t x) /\
    (forall x, parents t' x = if mem x l then remove1 n (parents t x) else parents t x) /\
    (forall x, x <> n -> childs t' x = childs t x) /\
    (forall x, In x (rootc t') <-> In x (rootc t) \/ In x l /\ parents_enabled t x = true /\ get_parents t' x = []) /\
    map kind_id es = flat_map (fun c => [(EModified, n); (EModified, c)]) l.
Proof.
  induction l as [|c l IH]; intros n t He Hr Hn NDl HL.
  - exists t, []. split; [reflexivity|]. split; auto. split; auto. split; auto. split; auto. split; [|reflexivity].
    intros x. simpl. tauto.
  - inversion NDl as [|? ? Np NDl']; subst.
    destruct (HL c (or_introl eq_refl)) as [Lc Nn].
    destruct (break_step n c t) as (t1 & E1 & K1 & A1 & P1 & C1 & R1); auto.
    assert (H1 : forall x, has_node t1 x = has_node t x) by (intros; apply has_node_keys; auto).
    destruct (IH n t1) as (t2 & es & E2 & K2 & A2 & P2 & C2 & R2 & Ev2).
    { rewrite H1; auto. } { rewrite H1; auto. } { rewrite H1; auto. } { auto. }
    { intros q Hq. rewrite H1. apply HL. right; auto. }
    exists t2. eexists. split. { cbn [for_each]. erewrite bind_prefix by apply E1. rewrite E2. reflexivity. }
    split; [congruence|]. split; [intros; rewrite A2; auto|]. split.
    { intros x. rewrite P2, P1. simpl. deq x c; simpl; auto. subst. destruct (mem_spec c l); [contradiction|]. auto. }
    split.
    { intros x Hx. rewrite C2, C1, (proj2 (eqb_neq x n)) by auto. auto. }
    split.
    { assert (H2 : forall x, has_node t2 x = has_node t1 x) by (intros; apply has_node_keys; auto).
      assert (GP : get_parents t2 c = get_parents t1 c).
      { rewrite !get_parents_filter, (attrs_pen t1 t2) by auto. destruct (parents_enabled t1 c); auto.
        rewrite P2. destruct (mem_spec c l); [contradiction|]. apply filter_ext. auto. }
      intros x. rewrite R2, R1, <- GP, (attrs_pen t t1 x) by auto. simpl.
      destruct (get_parents t2 c) eqn:Q.
      - destruct (parents_enabled t c) eqn:Qp.
        + unfold add_last. destruct (mem_spec c (rootc t)) as [M|M].
          * split; [tauto|]. intros [H|([->|H] & H' & H'')]; auto.
          * rewrite in_app_iff. simpl. split; [intros [[H|[H|[]]]|(H & H' & H'')]; subst; auto|].
            intros [H|([->|H] & H' & H'')]; auto.
        + split; [tauto|]. intros [H|([->|H] & H' & H'')]; auto. congruence.
      - split; [tauto|]. intros [H|([->|H] & H' & H'')]; auto. congruence. }
    rewrite map_app. simpl. rewrite Ev2. reflexivity.
Qed.

Lemma own_child : forall t n, good false t -> n <> "" -> has_node t n = true -> ~ In n (childs t n).
Proof.
  intros t n G N H Hi. destruct (g_imp _ _ _ G n n) as [_ B]; auto.
  - intros Hp. eapply ok_not_own_parent; [apply (g_ok _ _ _ G)|eauto].
  - apply before_pos in B; [lia|]. apply (ok_keys _ (g_ok _ _ _ G)).
Qed.

Lemma disable_parents : forall t, reachx fresh_plain t -> forall n, has_node t n = true ->
  let o := SetParentsEnabled n false in let t' := after o t in
  outcome o t = Ok tt /\ get_all_nodes t' = get_all_nodes t /\
  (forall x, get_parents t' x = if String.eqb x n then [] else get_parents t x) /\
  (forall x, get_children t' x = if mem x (get_parents t n) then drop n (get_children t x) else get_children t x) /\
  (forall x, In x (root_children t') <-> In x (root_children t) \/ x = n /\ get_parents t n <> []) /\
  map kind_id (events o t) = flat_map (fun p => [(EModified, p); (EModified, n)]) (get_parents t n).
Proof.
  intros t R n Hn o t'. destruct (reachx_plain _ R) as (G & He & Hr). pose proof (g_ok _ _ _ G) as O.
  destruct (has_node_get _ _ Hn) as (nd & E).
  assert (L : exists t1 es, for_each (get_parents t n) (fun p => remove_parent n p) t = (t1, es, Ok tt) /\
    dkeys (nodes t1) = dkeys (nodes t) /\ (forall x, attrs t1 x = attrs t x) /\
    (forall x, x <> n -> parents t1 x = parents t x) /\
    (forall x, childs t1 x = if mem x (get_parents t n) then remove1 n (childs t x) else childs t x) /\
    (forall x, In x (rootc t1) <-> In x (rootc t) \/ x = n /\ get_parents t n <> []) /\
    map kind_id es = flat_map (fun p => [(EModified, p); (EModified, n)]) (get_parents t n)).
  { rewrite (get_parents_raw t n O). destruct (parents_enabled t n) eqn:Ep.
    - destruct (remove_parents_loop (parents t n) n t) as (t1 & es & E1 & K1 & A1 & P1 & C1 & R1 & Ev1); auto.
      + apply (ok_ndp _ O).
      + apply (ok_ndp _ O).
      + apply incl_refl.
      + intros p Hp. split; [apply (ok_sym _ O _ _ Hp)|]. intros ->. eapply ok_not_own_parent; eauto.
      + exists t1, es. split; auto. split; auto. split; auto. split. { intros x Hx. rewrite P1, (proj2 (eqb_neq x n)); auto. }
        split; auto. split; auto. intros x. rewrite R1. split; [tauto|]. intros [H|(-> & H)]; auto. right. split; auto. split; auto.
        rewrite P1, eqb_refl. destruct (filter _ (parents t n)) as [|q l] eqn:Q; auto. exfalso.
        assert (In q (q :: l)) by (left; auto). rewrite <- Q in H0. apply filter_In in H0. destruct H0 as [H0 H2].
        apply negb_true_iff in H2. apply mem_In in H0. congruence.
    - exists t, []. split; [reflexivity|]. split; auto. split; auto. split; auto. split; auto. split; auto.
      intros x. split; [auto|]. intros [H|(_ & H)]; auto. congruence. }
  destruct L as (t1 & es & E1 & K1 & A1 & P1 & C1 & R1 & Ev1).
  assert (Hop : run_op o t = (upd_node n (set_pen false) t1, es, Ok tt)).
  { unfold o. cbn [run_op]. unfold set_parents_enabled. rewrite (bind_live _ n nd) by auto. rewrite bind_get. cbv iota.
    erewrite bind_prefix by apply E1. unfold modify, prefix. cbn [app]. rewrite app_nil_r. reflexivity. }
  assert (Et : t' = upd_node n (set_pen false) t1) by (unfold t', after; rewrite Hop; auto).
  assert (H1 : forall x, has_node t' x = has_node t x).
  { intros. rewrite Et, has_node_upd. apply has_node_keys; auto. }
  assert (En1 : exists nd1, dget n (nodes t1) = Some nd1).
  { apply has_node_get. rewrite (has_node_keys t1 t); auto. }
  destruct En1 as (nd1 & En1).
  split. { unfold outcome. rewrite Hop. auto. }
  split. { unfold get_all_nodes. rewrite Et, dkeys_upd. auto. }
  split. { intros x. rewrite !get_parents_filter. rewrite Et. unfold parents_enabled at 1. rewrite dget_upd.
    deq x n. { subst. rewrite En1. reflexivity. }
    fold (parents_enabled t1 x). rewrite (attrs_pen t t1) by auto. destruct (parents_enabled t x); auto.
    rewrite parents_upd, (proj2 (eqb_neq x n)), P1 by auto. apply filter_ext. intros. rewrite <- Et. auto. }
  split. { intros x. rewrite !get_children_filter.
    assert (Ce : children_enabled t' x = children_enabled t x).
    { rewrite <- (attrs_cen t t1 x) by auto. rewrite Et. unfold children_enabled. rewrite dget_upd. deq x n; auto. subst. rewrite En1. auto. }
    assert (Cc : childs t' x = childs t1 x).
    { rewrite Et, childs_upd. deq x n; auto. subst. unfold childs. rewrite En1. auto. }
    rewrite Ce, Cc, C1. destruct (children_enabled t x); [|destruct (mem x _); auto].
    destruct (mem x (get_parents t n)); [|apply filter_ext; auto]. rewrite remove1_drop by apply (ok_ndc _ O).
    rewrite <- filter_drop. apply filter_ext; auto. }
  split. { intros x. unfold root_children. rewrite !filter_In, H1. rewrite Et, rootc_upd, R1. split; [intuition|].
    intros [[A B]|(-> & B)]; auto. }
  unfold events. rewrite Hop. simpl. auto.
Qed.

Lemma disable_children : forall t, reachx fresh_plain t -> forall n, has_node t n = true ->
  let o := SetChildrenEnabled n false in let t' := after o t in
  outcome o t = Ok tt /\ get_all_nodes t' = get_all_nodes t /\
  (forall x, get_children t' x = if String.eqb x n then [] else get_children t x) /\
  (forall x, get_parents t' x = if mem x (get_children t n) then drop n (get_parents t x) else get_parents t x) /\
  (forall x, In x (root_children t') <->
     In x (root_children t) \/ In x (get_children t n) /\ parents_enabled t x = true /\ get_parents t' x = []) /\
  map kind_id (events o t) = flat_map (fun c => [(EModified, n); (EModified, c)]) (get_children t n).
Proof.
  intros t R n Hn o t'. destruct (reachx_plain _ R) as (G & He & Hr). pose proof (g_ok _ _ _ G) as O.
  destruct (has_node_get _ _ Hn) as (nd & E). assert (Nn : n <> "") by (intros ->; congruence).
  assert (ND : NoDup (get_children t n)).
  { rewrite get_children_filter. destruct (children_enabled t n); [apply NoDup_filter; apply (ok_ndc _ O)|constructor]. }
  destruct (cut_children_loop (get_children t n) n t) as (t1 & es & E1 & K1 & A1 & P1 & C1 & R1 & Ev1); auto.
  { intros c Hc. rewrite get_children_filter in Hc. destruct (children_enabled t n); [|destruct Hc]. apply filter_In in Hc. destruct Hc as [Hc Hl].
    split; auto. intros ->. eapply own_child; eauto. }
  assert (Hop : run_op o t = (upd_node n (set_cen false) t1, es, Ok tt)).
  { unfold o. cbn [run_op]. unfold set_children_enabled. rewrite (bind_live _ n nd) by auto. rewrite bind_get. cbv iota.
    erewrite bind_prefix by apply E1. unfold modify, prefix. cbn [app]. rewrite app_nil_r. reflexivity. }
  assert (Et : t' = upd_node n (set_cen false) t1) by (unfold t', after; rewrite Hop; auto).
  assert (H1 : forall x, has_node t' x = has_node t x).
  { intros. rewrite Et, has_node_upd. apply has_node_keys; auto. }
  assert (En1 : exists nd1, dget n (nodes t1) = Some nd1).
  { apply has_node_get. rewrite (has_node_keys t1 t); auto. }
  destruct En1 as (nd1 & En1).
  assert (Gp : forall x, get_parents t' x = get_parents t1 x).
  { intros x. rewrite !get_parents_filter.
    assert (Ce : parents_enabled t' x = parents_enabled t1 x).
    { rewrite Et. unfold parents_enabled. rewrite dget_upd. deq x n; auto. subst. rewrite En1. auto. }
    assert (Cc : parents t' x = parents t1 x).
    { rewrite Et, parents_upd. deq x n; auto. subst. unfold parents. rewrite En1. auto. }
    rewrite Ce, Cc. destruct (parents_enabled t1 x); auto. apply filter_ext. intros. rewrite H1. symmetry. apply has_node_keys; auto. }
  split. { unfold outcome. rewrite Hop. auto. }
  split. { unfold get_all_nodes. rewrite Et, dkeys_upd. auto. }
  split. { intros x. rewrite !get_children_filter. rewrite Et. unfold children_enabled at 1. rewrite dget_upd.
    deq x n. { subst. rewrite En1. reflexivity. }
    fold (children_enabled t1 x). rewrite (attrs_cen t t1) by auto. destruct (children_enabled t x); auto.
    rewrite childs_upd, (proj2 (eqb_neq x n)), C1 by auto. apply filter_ext. intros. rewrite <- Et. auto. }
  split. { intros x. rewrite Gp, !get_parents_filter, (attrs_pen t t1), P1 by auto.
    assert (Hx : forall l, filter (has_node t1) l = filter (has_node t) l) by (intros; apply filter_ext; intros; apply has_node_keys; auto).
    destruct (parents_enabled t x); [|destruct (mem x _); auto]. rewrite !Hx.
    destruct (mem x (get_children t n)); auto. rewrite remove1_drop by apply (ok_ndp _ O). apply filter_drop. }
  split. { intros x. unfold root_children. rewrite !filter_In, H1, Gp. rewrite Et, rootc_upd, R1.
    split; [intuition|]. intros [[A B]|(A & B)]; auto. split; [tauto|]. rewrite get_children_filter in A.
    destruct (children_enabled t n); [|destruct A]. apply filter_In in A. tauto. }
  unfold events. rewrite Hop. simpl. auto.
Qed.

(** Enabling only lets the relations be reported. *)
Lemma enable_parents : forall t n, has_node t n = true ->
  let o := SetParentsEnabled n true in let t' := after o t in
  outcome o t = Ok tt /\ events o t = [] /\ get_all_nodes t' = get_all_nodes t /\ root_children t' = root_children t /\
  (forall x, parents t' x = parents t x /\ childs t' x = childs t x).
Proof.
  intros t n Hn o t'. destruct (has_node_get _ _ Hn) as (nd & E).
  assert (Hop : run_op o t = (upd_node n (set_pen true) t, [], Ok tt)).
  { unfold o. cbn [run_op]. unfold set_parents_enabled. rewrite (bind_live _ n nd) by auto. rewrite bind_get. reflexivity. }
  assert (Et : t' = upd_node n (set_pen true) t) by (unfold t', after; rewrite Hop; auto).
  split. { unfold outcome. rewrite Hop. auto. } split. { unfold events. rewrite Hop. auto. }
  split. { unfold get_all_nodes. rewrite Et, dkeys_upd. auto. }
  split. { unfold root_children. rewrite Et, rootc_upd. apply filter_ext. intros. apply has_node_upd. }
  intros x. rewrite Et, parents_upd, childs_upd. deq x n; auto. subst. unfold parents, childs. rewrite E. auto.
Qed.
Lemma enable_children : forall t n, has_node t n = true ->
  let o := SetChildrenEnabled n true in let t' := after o t in
  outcome o t = Ok tt /\ events o t = [] /\ get_all_nodes t' = get_all_nodes t /\ root_children t' = root_children t /\
  (forall x, parents t' x = parents t x /\ childs t' x = childs t x).
Proof.
  intros t n Hn o t'. destruct (has_node_get _ _ Hn) as (nd & E).
  assert (Hop : run_op o t = (upd_node n (set_cen true) t, [], Ok tt)).
  { unfold o. cbn [run_op]. unfold set_children_enabled. rewrite (bind_live _ n nd) by auto. rewrite bind_get. reflexivity. }
  assert (Et : t' = upd_node n (set_cen true) t) by (unfold t', after; rewrite Hop; auto).
  split. { unfold outcome. rewrite Hop. auto. } split. { unfold events. rewrite Hop. auto. }
  split. { unfold get_all_nodes. rewrite Et, dkeys_upd. auto. }
  split. { unfold root_children. rewrite Et, rootc_upd. apply filter_ext. intros. apply has_node_upd. }
  intros x. rewrite Et, parents_upd, childs_upd. deq x n; auto. subst. unfold parents, childs. rewrite E. auto.
Qed.

Lemma data_law : forall t n v, n <> main_root -> has_node t n = true ->
  let o := SetData n v in let t' := after o t in
  outcome o t = Ok tt /\ events o t = [Ev EModified n t'] /\ same_tree t t' /\ pend t' = pend t /\
  data_at t' n = Some v /\ forall x, x <> n -> dget x (nodes t') = dget x (nodes t).
Proof.
  intros t n v Hr Hn o t'. pose proof (data_exact t n v Hr Hn) as E. fold o in E.
  assert (Et : t' = upd_node n (set_data v) t) by (unfold t', after; rewrite E; reflexivity).
  destruct (has_node_get _ _ Hn) as (nd & En).
  split. { unfold outcome. rewrite E. auto. } split. { unfold events. rewrite E, Et. auto. }
  assert (HH : forall l, filter (has_node t') l = filter (has_node t) l).
  { intros. apply filter_ext. intros. rewrite Et. apply has_node_upd. }
  split. { split; [unfold get_all_nodes; rewrite Et; apply dkeys_upd|]. split.
    - unfold root_children. rewrite HH, Et, rootc_upd. auto.
    - intros x. rewrite !get_parents_filter, !get_children_filter, !HH. rewrite Et, parents_upd, childs_upd.
      unfold parents_enabled, children_enabled. rewrite dget_upd. deq x n; auto. subst x. rewrite En. unfold parents, childs. rewrite En. auto. }
  split. { rewrite Et. apply pend_upd. }
  split. { unfold data_at. rewrite Et, dget_upd, eqb_refl, En. auto. }
  intros x Hx. rewrite Et, dget_upd, (proj2 (eqb_neq x n)) by auto. auto.
Qed.

(** What a node answers, with its flags. *)
Lemma flags_answers : forall t n,
  (parents_enabled t n = false -> get_parents t n = [] /\ has_parent t n = false) /\
  (parents_enabled t n = true -> (has_parent t n = true <-> parents t n <> [])) /\
  (children_enabled t n = false -> get_children t n = [] /\ has_child t n = false) /\
  (children_enabled t n = true -> (has_child t n = true <-> childs t n <> [])).
Proof.
  intros t n. unfold parents_enabled, children_enabled, get_parents, has_parent, get_children, has_child, parents, childs.
  destruct (dget n (nodes t)) as [nd|]; [|repeat split; try discriminate; auto; congruence].
  destruct (pen nd), (cen nd), (par nd), (chi nd); simpl; repeat split; try discriminate; auto; congruence.
Qed.
