(** Exact effect of making and breaking relations. *)
From Verif Require Import Base BaseFacts MainTree Spec MainFacts MainInv MainOps MainRun MainAdd.
Open Scope m_scope.

Lemma truthy_true : forall x, x <> "" -> truthy x = true.
Proof. intros. unfold truthy. rewrite (proj2 (eqb_neq _ _)); auto. Qed.

Lemma guard_false : forall p c, p <> "" -> c <> "" -> p <> c ->
  negb (truthy p) || negb (truthy c) || String.eqb p c = false.
Proof. intros. rewrite !truthy_true by auto. simpl. apply eqb_neq; auto. Qed.

Definition unpend (p c : id) (t : mtree) : mtree := set_pend (rel_remove1 (Some p, c) (pend t)) t.

Definition related (p c : id) (t : mtree) : mtree :=
  let a := add_edge p c (unpend p c t) in set_rootc (remove1 c (rootc a)) a.

Lemma new_relationship_dead : forall p c t, p <> "" -> c <> "" -> p <> c ->
  has_node t p && has_node t c = false ->
  new_relationship p c t = (set_pend (pend (unpend p c t) ++ [(Some p, c)]) t, [], Ok tt).
Proof.
  intros p c t Hp Hc Hpc Hl. unfold new_relationship. rewrite bind_modify. fold (unpend p c t).
  rewrite guard_false by auto. rewrite bind_get.
  change (has_node (unpend p c t)) with (has_node t). rewrite <- negb_andb, Hl. reflexivity.
Qed.

Lemma good_unpend : forall s p c t, good s t -> good s (unpend p c t).
Proof. intros. apply goodx_set_pend_sub; auto. intros r Hr. eapply rel_remove1_In; eauto. Qed.

Lemma anc_unpend : forall p c t a b, anc (unpend p c t) a b <-> anc t a b.
Proof. intros. split; apply anc_incl; intros x q H; exact H. Qed.

Lemma new_relationship_circ : forall s p c t, good s t -> p <> "" -> c <> "" -> p <> c ->
  has_node t p = true -> has_node t c = true -> anc t c p ->
  new_relationship p c t = (del_edge p c (unpend p c t), [], Err Circular).
Proof.
  intros s p c t G Hp Hc Hpc Lp Lc Ha. unfold new_relationship. rewrite bind_modify. fold (unpend p c t).
  rewrite guard_false by auto. rewrite bind_get.
  change (has_node (unpend p c t)) with (has_node t). rewrite Lp, Lc. cbn [negb orb].
  destruct (circ_cases s (unpend p c t) p c (good_unpend _ _ _ _ G)) as [[E _]|[_ N]].
  - erewrite bind_Ok_nil by apply E. cbv iota. erewrite bind_Ok_nil by (apply destroy_eq; auto). reflexivity.
  - exfalso. apply N. apply anc_unpend. auto.
Qed.

Lemma new_relationship_ok : forall s p c t, good s t -> p <> "" -> c <> "" -> p <> c ->
  has_node t p = true -> has_node t c = true -> ~ anc t c p ->
  new_relationship p c t =
  (related p c t, [Ev EModified p (related p c t); Ev EModified c (related p c t)], Ok tt).
Proof.
  intros s p c t G Hp Hc Hpc Lp Lc Ha. unfold new_relationship. rewrite bind_modify. fold (unpend p c t).
  rewrite guard_false by auto. rewrite bind_get.
  change (has_node (unpend p c t)) with (has_node t). rewrite Lp, Lc. cbn [negb orb].
  destruct (circ_cases s (unpend p c t) p c (good_unpend _ _ _ _ G)) as [[_ N]|[E _]].
  - exfalso. apply Ha. apply anc_unpend in N. auto.
  - erewrite bind_Ok_nil by apply E. cbv iota. erewrite bind_Ok_nil by (apply create_eq; auto).
    rewrite bind_modify. reflexivity.
Qed.

Lemma nodes_add_edge_same : forall p c t t', nodes t' = nodes t -> nodes (add_edge p c t') = nodes (add_edge p c t).
Proof.
  intros p c t t' E. unfold add_edge. simpl.
  unfold upd_node. rewrite E. destruct (dget p (nodes t)); simpl; rewrite ?E; destruct (dget c _); simpl; rewrite ?E; auto.
Qed.

Lemma nodes_upd_same : forall n f t t', nodes t' = nodes t -> nodes (upd_node n f t') = nodes (upd_node n f t).
Proof. intros n f t t' E. unfold upd_node. rewrite E. destruct (dget n (nodes t)); simpl; auto. Qed.

Lemma nodes_del_edge_same : forall p c t t', nodes t' = nodes t -> nodes (del_edge p c t') = nodes (del_edge p c t).
Proof. intros. unfold del_edge. apply nodes_upd_same, nodes_upd_same. auto. Qed.

Lemma nodes_related : forall p c t, nodes (related p c t) = nodes (add_edge p c t).
Proof. intros. unfold related. cbv zeta. apply (nodes_add_edge_same p c t (unpend p c t)). reflexivity. Qed.

Lemma rootc_related : forall p c t, rootc (related p c t) = remove1 c (remove1 c (rootc t)).
Proof. intros. unfold related. cbv zeta. simpl. rewrite !rootc_upd. reflexivity. Qed.

Lemma pend_related : forall p c t, pend (related p c t) = rel_remove1 (Some p, c) (pend t).
Proof. intros. unfold related. cbv zeta. simpl. rewrite !pend_upd. reflexivity. Qed.

Lemma parents_nodes : forall t t' x, nodes t' = nodes t -> parents t' x = parents t x.
Proof. intros. unfold parents. rewrite H. auto. Qed.
Lemma childs_nodes : forall t t' x, nodes t' = nodes t -> childs t' x = childs t x.
Proof. intros. unfold childs. rewrite H. auto. Qed.
Lemma has_node_nodes : forall t t' x, nodes t' = nodes t -> has_node t' x = has_node t x.
Proof. intros. unfold has_node. rewrite H. auto. Qed.

(** Two dicts with the same keys and the same values are equal. *)
Lemma dict_ext : forall V (d d' : dict V), dkeys d' = dkeys d -> NoDup (dkeys d) ->
  (forall k, In k (dkeys d) -> dget k d' = dget k d) -> d' = d.
Proof.
  induction d as [|[k v] d IH]; intros [|[k' v'] d'] E ND H; simpl in *; try discriminate; auto.
  inv E. inv ND. pose proof (H k (or_introl eq_refl)) as Hk. rewrite eqb_refl in Hk. inv Hk. f_equal.
  apply IH; auto. intros x Hx. specialize (H x (or_intror Hx)). deq x k; auto. subst. contradiction.
Qed.

(** Removing a relation that does not exist. *)
Lemma del_edge_noop : forall p c t, ok t -> ~ In p (parents t c) -> ~ In c (childs t p) -> nodes (del_edge p c t) = nodes t.
Proof.
  intros p c t O Hp Hc. apply dict_ext.
  - apply dkeys_del_edge.
  - apply (ok_keys _ O).
  - intros k Hk. rewrite dget_del_edge. destruct (dget k (nodes t)) as [nd|] eqn:E; auto. simpl. f_equal.
    assert (E1 : (if String.eqb k c then remove1 p (par nd) else par nd) = par nd).
    { deq k c; auto. subst. apply remove1_notin. unfold parents in Hp. rewrite E in Hp. auto. }
    assert (E2 : (if String.eqb k p then remove1 c (chi nd) else chi nd) = chi nd).
    { deq k p; auto. subst. apply remove1_notin. unfold childs in Hc. rewrite E in Hc. auto. }
    rewrite E1, E2. destruct nd; auto.
Qed.

(** Breaking a relation. *)
Definition forget (p c : id) (t : mtree) : mtree :=
  set_pend (filter (fun r => negb (rel_eqb (Some p, c) r)) (pend t)) t.

Lemma break_dead : forall p c t, p = "" \/ c = "" \/ p = c \/ has_node t p && has_node t c = false ->
  break_relationship p c t = (forget p c t, [], Ok tt).
Proof.
  intros p c t H. unfold break_relationship. rewrite bind_modify. fold (forget p c t).
  destruct (negb (truthy p) || negb (truthy c) || String.eqb p c) eqn:Eg; [reflexivity|].
  apply orb_false_iff in Eg. destruct Eg as [Eg E3]. apply orb_false_iff in Eg. destruct Eg as [E1 E2].
  unfold truthy in *. rewrite negb_false_iff, negb_true_iff, eqb_neq in E1, E2. rewrite eqb_neq in E3.
  destruct H as [H|[H|[H|H]]]; try congruence.
  rewrite bind_get. change (has_node (forget p c t)) with (has_node t). rewrite <- negb_andb, H. reflexivity.
Qed.

Definition cut_one (p c : id) (t : mtree) : mtree := del_edge p c (forget p c t).

Lemma break_ok : forall p c t, p <> "" -> c <> "" -> p <> c ->
  has_node t p = true -> has_node t c = true -> c <> main_root -> has_node t main_root = false ->
  exists t', break_relationship p c t = (t', [Ev EModified p t'; Ev EModified c t'], Ok tt) /\
    nodes t' = nodes (del_edge p c t) /\
    (forall q d, In (Some q, d) (pend t') -> In (Some q, d) (pend t) /\ (q, d) <> (p, c) \/ (q, d) = (main_root, c)) /\
    rootc t' = (match get_parents t' c with
                | [] => if pen (match dget c (nodes t) with Some nd => nd | None => new_node 0 end)
                        then if mem c (rootc t) then rootc t else rootc t ++ [c] else rootc t
                | _ => rootc t end).
Proof.
  intros p c t Hp Hc Hpc Lp Lc Hcr Hr. unfold break_relationship. rewrite bind_modify. fold (forget p c t).
  rewrite guard_false by auto. rewrite bind_get. change (has_node (forget p c t)) with (has_node t).
  rewrite Lp, Lc. cbn [negb orb]. erewrite bind_Ok_nil by (apply destroy_eq; auto). rewrite bind_get.
  fold (cut_one p c t).
  assert (En : nodes (cut_one p c t) = nodes (del_edge p c t)).
  { unfold cut_one. apply nodes_del_edge_same. reflexivity. }
  assert (Epd : pend (cut_one p c t) = pend (forget p c t)) by (unfold cut_one; rewrite pend_del_edge; auto).
  assert (Er : rootc (cut_one p c t) = rootc t) by (unfold cut_one; rewrite rootc_del_edge; auto).
  assert (HF : forall q d, In (Some q, d) (pend (forget p c t)) -> In (Some q, d) (pend t) /\ (q, d) <> (p, c)).
  { intros q d Hq. unfold forget in Hq. cbn [pend set_pend] in Hq. apply filter_In in Hq. destruct Hq as [H1 H2]. split; auto.
    intro E. inv E. apply negb_true_iff in H2. rewrite (proj2 (rel_eqb_eq _ _)) in H2 by reflexivity. discriminate. }
  destruct (has_node_get _ _ Lc) as (cn & Ecn).
  assert (Ecn' : exists cn', dget c (nodes (cut_one p c t)) = Some cn' /\ pen cn' = pen cn).
  { rewrite En, dget_del_edge, Ecn. simpl. eexists; split; [reflexivity|reflexivity]. }
  destruct Ecn' as (cn' & Ecn' & Epen). rewrite Ecn.
  assert (HG : forall t', nodes t' = nodes (cut_one p c t) -> get_parents t' c = get_parents (cut_one p c t) c).
  { intros t' E. unfold get_parents. rewrite E. destruct (dget c (nodes (cut_one p c t))); auto. destruct (pen n); auto.
    unfold has_node. rewrite E. auto. }
  assert (Hsame : forall m : M unit, m (cut_one p c t) = (cut_one p c t, [], Ok tt) ->
     rootc t = (match get_parents (cut_one p c t) c with
                | [] => if pen cn then if mem c (rootc t) then rootc t else rootc t ++ [c] else rootc t
                | _ => rootc t end) ->
     exists t', (m ;; callback EModified p ;; callback EModified c) (cut_one p c t) =
        (t', [Ev EModified p t'; Ev EModified c t'], Ok tt) /\ nodes t' = nodes (del_edge p c t) /\
    (forall q d, In (Some q, d) (pend t') -> In (Some q, d) (pend t) /\ (q, d) <> (p, c) \/ (q, d) = (main_root, c)) /\
    rootc t' = (match get_parents t' c with
                | [] => if pen cn then if mem c (rootc t) then rootc t else rootc t ++ [c] else rootc t
                | _ => rootc t end)).
  { intros m Em Hroot. exists (cut_one p c t). split; [erewrite bind_Ok_nil by apply Em; reflexivity|].
    split; auto. split; [intros q d Hq; left; apply HF; rewrite <- Epd; auto|]. rewrite Er. auto. }
  destruct (get_parents (cut_one p c t) c) eqn:Egp; [|apply (Hsame (ret tt)); auto].
  unfold root_add_child. rewrite (proj2 (eqb_neq c main_root)) by auto.
  destruct (mem c (rootc t)) eqn:Em.
  { apply (Hsame (t0 <- get ;; _)); [rewrite bind_get, Er, Em; reflexivity|destruct (pen cn); auto]. }
  destruct (pen cn) eqn:Ep.
  2:{ apply (Hsame (t0 <- get ;; _)); [rewrite bind_get, Er, Em, Ecn', Epen; reflexivity|auto]. }
  set (t2 := set_rootc (rootc (cut_one p c t) ++ [c]) (cut_one p c t)).
  assert (Hd : has_node t2 main_root && has_node t2 c = false).
  { change (has_node t2 main_root) with (has_node (cut_one p c t) main_root).
    unfold cut_one. rewrite has_node_del_edge. change (has_node (forget p c t)) with (has_node t). rewrite Hr. auto. }
  assert (E2 : new_relationship main_root c t2 =
    (set_pend (pend (unpend main_root c t2) ++ [(Some main_root, c)]) t2, [], Ok tt)).
  { apply new_relationship_dead; auto; discriminate. }
  exists (set_pend (pend (unpend main_root c t2) ++ [(Some main_root, c)]) t2).
  split.
  { erewrite bind_Ok_nil.
    2:{ rewrite bind_get, Er, Em, Ecn', Epen, bind_modify. fold t2. exact E2. }
    reflexivity. }
  split; [exact En|]. split.
  { intros q d Hq. change (pend (set_pend ?l _)) with l in Hq. apply in_app_iff in Hq.
    destruct Hq as [Hq|[Hq|[]]]; [left|inv Hq; right; auto].
    change (pend (unpend main_root c t2)) with (rel_remove1 (Some main_root, c) (pend (cut_one p c t))) in Hq.
    apply rel_remove1_In in Hq. rewrite Epd in Hq. auto. }
  match goal with |- context [get_parents ?t' c] =>
    assert (EX : get_parents t' c = []); [apply HG; reflexivity|rewrite EX] end.
  simpl. rewrite Er. auto.
Qed.
