(** Deleting nodes: what the loop over the parents does, preservation of the
    invariant, and termination of the recursive deletion. *)
From Verif Require Import Base BaseFacts MainTree Spec MainFacts MainInv MainOps.
Open Scope m_scope.

Section Strict.
Variable strict : bool.
Local Notation good := (good strict).
Local Notation keeps := (keeps strict).
Local Notation keeps_post := (keeps_post strict).

(** Elements at even and odd positions: the loop over a list that shrinks under
    the iterator visits the first ones and misses the others. *)
Fixpoint evens (l : list id) : list id :=
  match l with [] => [] | [x] => [x] | x :: _ :: r => x :: evens r end.
Fixpoint odds (l : list id) : list id :=
  match l with [] => [] | [_] => [] | _ :: y :: r => y :: odds r end.

Lemma pair_ind : forall (P : list id -> Prop), P [] -> (forall x, P [x]) ->
  (forall x y r, P r -> P (x :: y :: r)) -> forall l, P l.
Proof.
  intros P H0 H1 H2 l. assert (P l /\ forall x, P (x :: l)); [|tauto].
  induction l as [|a l [IH1 IH2]]; split; auto.
Qed.

Lemma evens_odds_In : forall l x, In x l <-> In x (evens l) \/ In x (odds l).
Proof. induction l using pair_ind; simpl; intros; [tauto|tauto|]. rewrite IHl. tauto. Qed.

Lemma evens_incl : forall l x, In x (evens l) -> In x l.
Proof. intros. apply evens_odds_In; auto. Qed.

Lemma odds_incl : forall l x, In x (odds l) -> In x l.
Proof. intros. apply evens_odds_In; auto. Qed.

Lemma evens_NoDup : forall l, NoDup l -> NoDup (evens l).
Proof.
  induction l using pair_ind; simpl; intros; auto. inv H. inv H3.
  constructor; auto. intro. apply evens_incl in H. apply H2. right; auto.
Qed.

Lemma odds_length : forall l, length (odds l) <= Nat.div2 (length l).
Proof. induction l using pair_ind; simpl; auto. lia. Qed.

(** Destroying the relations of [n] with the parents [ps]. *)
Fixpoint cut (ps : list id) (n : id) (t : mtree) : mtree :=
  match ps with [] => t | p :: r => cut r n (del_edge p n t) end.
Fixpoint cut_events (ps : list id) (n : id) (t : mtree) : list event :=
  match ps with
  | [] => []
  | p :: r => Ev EModified p (del_edge p n t) :: cut_events r n (del_edge p n t)
  end.

Lemma dkeys_cut : forall ps n t, dkeys (nodes (cut ps n t)) = dkeys (nodes t).
Proof. induction ps; simpl; intros; auto. rewrite IHps. apply dkeys_del_edge. Qed.

Lemma has_node_cut : forall ps n t x, has_node (cut ps n t) x = has_node t x.
Proof. intros. apply has_node_keys. apply dkeys_cut. Qed.

Lemma rootc_cut : forall ps n t, rootc (cut ps n t) = rootc t.
Proof. induction ps; simpl; intros; auto. rewrite IHps. apply rootc_del_edge. Qed.

Lemma pend_cut : forall ps n t, pend (cut ps n t) = pend t.
Proof. induction ps; simpl; intros; auto. rewrite IHps. apply pend_del_edge. Qed.

Lemma parents_cut_other : forall ps n t x, x <> n -> parents (cut ps n t) x = parents t x.
Proof.
  induction ps; simpl; intros; auto. rewrite IHps by auto. rewrite parents_del_edge.
  rewrite (proj2 (eqb_neq _ _)); auto.
Qed.

Lemma childs_cut : forall ps n t x, NoDup ps ->
  childs (cut ps n t) x = if mem x ps then remove1 n (childs t x) else childs t x.
Proof.
  induction ps; simpl; intros; auto. inv H. rewrite IHps by auto. rewrite childs_del_edge.
  deq x a; simpl; auto. subst. destruct (mem_spec a ps); [tauto|auto].
Qed.

Lemma parents_cut_app : forall l o n t, NoDup (o ++ l) -> parents t n = o ++ l ->
  parents (cut (evens l) n t) n = o ++ odds l.
Proof.
  induction l using pair_ind; simpl; intros o n t ND E.
  - auto.
  - rewrite parents_del_edge, eqb_refl, E. rewrite remove1_app_r.
    + simpl. rewrite eqb_refl. auto.
    + intro. apply (NoDup_app_disj _ _ x ND H). left; auto.
  - change (o ++ y :: odds l) with (o ++ [y] ++ odds l). rewrite app_assoc. apply IHl.
    + rewrite <- app_assoc. simpl. eapply NoDup_remove_1; eauto.
    + rewrite parents_del_edge, eqb_refl, E. rewrite remove1_app_r.
      * simpl. rewrite eqb_refl. rewrite <- app_assoc. auto.
      * intro. apply (NoDup_app_disj _ _ x ND H). left; auto.
Qed.

Lemma good_cut : forall ps n t, good t -> good (cut ps n t).
Proof.
  induction ps; simpl; intros; auto. apply IHps. apply good_del_edge. apply goodx_weaken. auto.
Qed.

Lemma good_cut_events : forall ps n t, good t -> Forall (fun e => good (ev_tree e)) (cut_events ps n t).
Proof.
  induction ps; simpl; intros; auto.
  assert (good (del_edge a n t)) by (apply good_del_edge; apply goodx_weaken; auto).
  constructor; auto.
Qed.

Lemma parents_cut_len : forall ps n t x, length (parents (cut ps n t) x) <= length (parents t x).
Proof.
  induction ps; simpl; intros; auto. eapply Nat.le_trans; [apply IHps|]. rewrite parents_del_edge.
  destruct (String.eqb x n); auto. apply remove1_length_le.
Qed.

(** The loop over the parents: every second relation is destroyed. *)
Lemma remove_parents_eq : forall l o n t fuel, good t -> has_node t n = true ->
  parents t n = o ++ l -> length l <= fuel ->
  remove_parents fuel n (length o) t = (cut (evens l) n t, cut_events (evens l) n t, Ok tt).
Proof.
  induction l as [|x|x y l IHl] using pair_ind; intros o n t fuel G Hn E Hf;
  destruct (has_node_get _ _ Hn) as [nd En];
  assert (Ep : par nd = parents t n) by (unfold parents; rewrite En; auto);
  pose proof (node_at_Some _ _ _ En) as En'.
  - rewrite app_nil_r in E. assert (Hnone : nth_error (par nd) (length o) = None).
    { apply nth_error_None. rewrite Ep, E. auto. }
    destruct fuel; cbn [remove_parents]; erewrite bind_Ok_nil by eauto; rewrite Hnone; reflexivity.
  - destruct fuel; [simpl in Hf; lia|]. cbn [remove_parents]. erewrite bind_Ok_nil by eauto.
    rewrite Ep, E, nth_error_app2, Nat.sub_diag by auto. cbn [nth_error].
    assert (Hx : In x (parents t n)) by (rewrite E; apply in_app_iff; simpl; auto).
    destruct (ok_sym _ (g_ok _ _ _ G) _ _ Hx) as [Hp _].
    erewrite bind_Ok_nil by (apply destroy_eq; auto). rewrite bind_callback.
    assert (E2 : parents (del_edge x n t) n = o).
    { rewrite parents_del_edge, eqb_refl, E. rewrite remove1_app_r.
      - simpl. rewrite eqb_refl. apply app_nil_r.
      - intro. pose proof (ok_ndp _ (g_ok _ _ _ G) n) as ND. rewrite E in ND.
        apply (NoDup_app_disj _ _ x ND H). left; auto. }
    assert (Hn2 : has_node (del_edge x n t) n = true) by (rewrite has_node_del_edge; auto).
    destruct (has_node_get _ _ Hn2) as [nd2 En2].
    assert (Ep2 : par nd2 = o) by (rewrite <- E2; unfold parents; rewrite En2; auto).
    assert (Hnone : nth_error (par nd2) (S (length o)) = None) by (apply nth_error_None; rewrite Ep2; lia).
    destruct fuel; cbn [remove_parents]; erewrite bind_Ok_nil by (apply node_at_Some; eauto); rewrite Hnone; reflexivity.
  - destruct fuel; [simpl in Hf; lia|]. cbn [remove_parents]. erewrite bind_Ok_nil by eauto.
    rewrite Ep, E, nth_error_app2, Nat.sub_diag by auto. cbn [nth_error].
    assert (Hx : In x (parents t n)) by (rewrite E; apply in_app_iff; simpl; auto).
    destruct (ok_sym _ (g_ok _ _ _ G) _ _ Hx) as [Hp _].
    erewrite bind_Ok_nil by (apply destroy_eq; auto). rewrite bind_callback.
    assert (E2 : parents (del_edge x n t) n = (o ++ [y]) ++ l).
    { rewrite parents_del_edge, eqb_refl, E. rewrite remove1_app_r.
      - simpl. rewrite eqb_refl. rewrite <- app_assoc. auto.
      - intro. pose proof (ok_ndp _ (g_ok _ _ _ G) n) as ND. rewrite E in ND.
        apply (NoDup_app_disj _ _ x ND H). left; auto. }
    replace (S (length o)) with (length (o ++ [y])) by (rewrite app_length; simpl; lia).
    rewrite IHl; auto.
    + apply good_del_edge. apply goodx_weaken. auto.
    + rewrite has_node_del_edge; auto.
    + simpl in Hf. lia.
Qed.

(** The state in which the children are handled. *)
Definition unmention (n : id) (t : mtree) : mtree :=
  set_pend (filter (fun r => negb (mentions n r)) (pend t)) t.
Definition detached (n : id) (t : mtree) : mtree :=
  cut (evens (parents t n)) n (unmention n t).

Definition tail (n : id) : M unit :=
  modify (fun t => set_rootc (remove1 n (rootc t)) t) ;;
  nd'' <- node_at n ;;
  modify (fun t => set_nodes (ddel n (nodes t)) t) ;;
  callback EDeleted n.

Definition prefix {A} (es : list event) (x : mtree * list event * res A) : mtree * list event * res A :=
  (fst (fst x), es ++ snd (fst x), snd x).

Definition children_part (fuel : nat) (n : id) (recursive : bool) (l : list id) : M unit :=
  match fuel with
  | 0 => diverge
  | S f => for_each l (fun c => if recursive then remove_node f c true else remove_child n c)
  end.

Lemma good_unmention : forall n t, good t -> good (unmention n t).
Proof. intros. apply goodx_set_pend_sub; auto. intros r Hr. apply filter_In in Hr. tauto. Qed.

Lemma bind_prefix : forall A B (m : M A) (k : A -> M B) t t1 e1 a,
  m t = (t1, e1, Ok a) -> bind m k t = prefix e1 (k a t1).
Proof.
  intros. unfold bind, prefix. rewrite H. destruct (k a t1) as [[? ?] ?]. auto.
Qed.

Lemma ok_not_own_parent : forall t x, ok t -> ~ In x (parents t x).
Proof. intros t x H Hin. destruct (ok_rank _ H) as [r Hr]. specialize (Hr _ _ Hin). lia. Qed.

Lemma childs_detached_self : forall n t, good t -> childs (detached n t) n = childs t n.
Proof.
  intros n t G. unfold detached. rewrite childs_cut by (apply evens_NoDup; apply (ok_ndp _ (g_ok _ _ _ G))).
  destruct (mem_spec n (evens (parents t n))); auto.
  exfalso. eapply ok_not_own_parent; [apply (g_ok _ _ _ G)|]. apply evens_incl; eauto.
Qed.

Lemma remove_node_unfold : forall fuel n recursive t, good t -> has_node t n = true ->
  remove_node fuel n recursive t =
  prefix (cut_events (evens (parents t n)) n (unmention n t))
    ((children_part fuel n recursive (childs t n) ;; tail n) (detached n t)).
Proof.
  intros fuel n recursive t G Hn. destruct (has_node_get _ _ Hn) as [nd En].
  assert (Ep : par nd = parents t n) by (unfold parents; rewrite En; auto).
  destruct fuel; cbn [remove_node]; rewrite bind_get, Hn; cbn [negb]; rewrite bind_modify;
  fold (unmention n t);
  (erewrite bind_Ok_nil by (apply node_at_Some; unfold unmention; simpl; eauto));
  (erewrite bind_prefix by (apply (remove_parents_eq (par nd) [] n (unmention n t)); auto;
     apply good_unmention; auto));
  rewrite Ep; fold (detached n t); f_equal;
  (assert (Hn2 : has_node (detached n t) n = true)
     by (unfold detached; rewrite has_node_cut; auto));
  destruct (has_node_get _ _ Hn2) as [nd2 En2];
  (assert (Ec2 : chi nd2 = childs t n)
     by (rewrite <- (childs_detached_self n t G); unfold childs; rewrite En2; auto));
  (erewrite bind_Ok_nil by (apply node_at_Some; eauto));
  try rewrite Ec2; reflexivity.
Qed.

Lemma good_detached : forall n t, good t -> good (detached n t).
Proof. intros. apply good_cut. apply good_unmention. auto. Qed.

Lemma parents_detached_self : forall n t, good t -> parents (detached n t) n = odds (parents t n).
Proof.
  intros n t G. unfold detached. apply (parents_cut_app (parents t n) [] n); auto.
  apply (ok_ndp _ (g_ok _ _ _ G)).
Qed.

Lemma parents_detached_other : forall n t x, x <> n -> parents (detached n t) x = parents t x.
Proof. intros. unfold detached. rewrite parents_cut_other by auto. auto. Qed.

Lemma has_node_detached : forall n t x, has_node (detached n t) x = has_node t x.
Proof. intros. unfold detached. rewrite has_node_cut. auto. Qed.

Lemma dkeys_detached : forall n t, dkeys (nodes (detached n t)) = dkeys (nodes t).
Proof. intros. unfold detached. rewrite dkeys_cut. auto. Qed.

(** End of the call: the node is taken out. *)
Lemma tail_Ok : forall n t, has_node t n = true ->
  tail n t = (let t' := set_nodes (ddel n (nodes t)) (set_rootc (remove1 n (rootc t)) t) in
              (t', [Ev EDeleted n t'], Ok tt)).
Proof.
  intros n t Hn. destruct (has_node_get _ _ Hn) as [nd En]. unfold tail. rewrite bind_modify.
  erewrite bind_Ok_nil by (apply node_at_Some; simpl; eauto). rewrite bind_modify. reflexivity.
Qed.

Lemma tail_Err : forall n t, has_node t n = false ->
  tail n t = (set_rootc (remove1 n (rootc t)) t, [], Err KeyError).
Proof.
  intros n t Hn. unfold tail. rewrite bind_modify.
  erewrite bind_Err by (apply node_at_None; simpl; apply has_node_none; auto). reflexivity.
Qed.

Lemma remove_child_eq : forall n c t, has_node t n = true -> has_node t c = true ->
  exists t' es, remove_child n c t = (t', es, Ok tt) /\ es = [Ev EModified c (del_edge n c t)] /\
    nodes t' = nodes (del_edge n c t) /\ pend t' = pend t /\
    rootc t' = (if match parents (del_edge n c t) c with [] => true | _ => false end then rootc t ++ [c] else rootc t).
Proof.
  intros n c t Hn Hc. unfold remove_child. erewrite bind_Ok_nil by (apply destroy_eq; auto).
  rewrite bind_callback. assert (Hc2 : has_node (del_edge n c t) c = true) by (rewrite has_node_del_edge; auto).
  destruct (has_node_get _ _ Hc2) as [nd En]. erewrite bind_Ok_nil by (apply node_at_Some; eauto).
  unfold parents. rewrite En. destruct (par nd); do 2 eexists; (split; [reflexivity|]);
  simpl; rewrite ?rootc_del_edge, ?pend_del_edge; auto.
Qed.

Lemma remove_child_err : forall n c t, has_node t n && has_node t c = false ->
  remove_child n c t = (t, [], Err KeyError).
Proof. intros. unfold remove_child. erewrite bind_Err by (apply destroy_err; auto). reflexivity. Qed.

(** What a deletion guarantees, whatever its outcome. *)
Definition shrinks (t t' : mtree) : Prop :=
  (forall x, has_node t' x = true -> has_node t x = true) /\
  (forall x y, before (dkeys (nodes t')) x y -> before (dkeys (nodes t)) x y) /\
  (forall x, length (parents t' x) <= length (parents t x)).

Lemma shrinks_refl : forall t, shrinks t t.
Proof. repeat split; auto. Qed.

Lemma shrinks_trans : forall a b c, shrinks a b -> shrinks b c -> shrinks a c.
Proof.
  intros a b c (A1 & A2 & A3) (B1 & B2 & B3). repeat split; auto.
  intros. eapply Nat.le_trans; eauto.
Qed.

Definition snapshots_good (es : list event) : Prop := Forall (fun e => good (ev_tree e)) es.

Definition same_parents (t t' : mtree) : Prop :=
  forall x, has_node t' x = true -> parents t' x = parents t x.

Definition rm_post (t : mtree) (l : list id) (t' : mtree) (es : list event) (r : res unit) : Prop :=
  good t' /\ snapshots_good es /\ shrinks t t' /\
  (r = Ok tt -> (forall c, In c l -> has_node t' c = false) /\ same_parents t t').

Lemma rm_post_same : forall t l, good t -> (forall c, In c l -> has_node t c = false) -> rm_post t l t [] (Ok tt).
Proof.
  intros. split; auto. split; [constructor|]. split; [apply shrinks_refl|]. intros _. split; auto.
  intros x Hx. auto.
Qed.

Lemma rm_for_each : forall f l t,
  (forall n t, good t -> wp (remove_node f n true) (rm_post t [n]) t) ->
  good t -> wp (for_each l (fun c => remove_node f c true)) (rm_post t l) t.
Proof.
  induction l; simpl; intros t IH G.
  - apply wp_ret. apply rm_post_same; auto. intros c [].
  - eapply wp_bind_any; [apply IH; auto|..]; simpl.
    + intros t1 e1 u (G1 & F1 & S1 & Ok1). destruct u. destruct (Ok1 eq_refl) as [D1 P1].
      eapply wp_conseq; [|apply IHl; auto]. simpl. intros t2 e2 r (G2 & F2 & S2 & Ok2).
      split; auto. split; [apply Forall_app; auto|]. split; [eapply shrinks_trans; eauto|].
      intros E. destruct (Ok2 E) as [D2 P2]. split.
      * intros c [Hc|Hc]; auto. subst. destruct (has_node t2 c) eqn:Hl; auto.
        apply S2 in Hl. rewrite (D1 c) in Hl; [discriminate|left; auto].
      * intros x Hx. rewrite P2 by auto. apply P1. apply S2. auto.
    + intros t1 e1 e (G1 & F1 & S1 & _). split; auto. split; auto. split; auto. discriminate.
    + intros t1 e1 (G1 & F1 & S1 & _). split; auto. split; auto. split; auto. discriminate.
Qed.

Lemma shrinks_detached : forall n t, shrinks t (detached n t).
Proof.
  intros. split; [|split].
  - intros. rewrite has_node_detached in H. auto.
  - intros. rewrite dkeys_detached in H. auto.
  - intros. eapply Nat.le_trans; [apply parents_cut_len|]. auto.
Qed.

Lemma shrinks_pop : forall n l t, NoDup (dkeys (nodes t)) ->
  shrinks t (set_nodes (ddel n (nodes t)) (set_rootc l t)).
Proof.
  intros. repeat split.
  - intros. rewrite has_node_pop in H0 by auto. apply andb_true_iff in H0. tauto.
  - intros. simpl in H0. rewrite ddel_dkeys in H0. eapply before_sub; eauto.
  - intros. rewrite parents_pop by auto. destruct (String.eqb x n); simpl; auto; lia.
Qed.

Lemma tail_rm : forall n t, good t -> (forall c, ~ In n (parents t c) \/ c = n) ->
  wp (tail n) (fun t' es r => good t' /\ snapshots_good es /\ shrinks t t' /\ r <> Diverge /\
    (r = Ok tt -> has_node t' n = false /\ same_parents t t')) t.
Proof.
  intros n t G Hn. pose proof (ok_keys _ (g_ok _ _ _ G)) as NDK. destruct (has_node t n) eqn:Hl.
  - eapply wp_intro; [apply tail_Ok; auto|]. simpl.
    assert (Gp : good (set_nodes (ddel n (nodes t)) (set_rootc (remove1 n (rootc t)) t))).
    { apply (good_pop strict n (set_rootc (remove1 n (rootc t)) t)); auto. apply goodx_set_rootc; auto. }
    split; auto. split; [constructor; [exact Gp|constructor]|]. split; [apply shrinks_pop; auto|].
    split; [discriminate|]. intros _. split.
    + rewrite has_node_pop by auto. rewrite eqb_refl. auto.
    + intros x Hx. rewrite has_node_pop in Hx by auto. rewrite parents_pop by auto.
      deq x n; auto. discriminate.
  - eapply wp_intro; [apply tail_Err; auto|]. simpl. split; [apply goodx_set_rootc; auto|].
    split; [constructor|]. split; [|split; discriminate]. repeat split; auto.
Qed.

Lemma remove_node_rec_rm : forall fuel n t, good t -> wp (remove_node fuel n true) (rm_post t [n]) t.
Proof.
  induction fuel; intros n t G; (destruct (has_node t n) eqn:Hn;
    [|eapply wp_intro; [cbn [remove_node]; rewrite bind_get, Hn; reflexivity|];
      apply rm_post_same; auto; intros c [Hc|[]]; subst; auto]).
  - unfold wp. rewrite remove_node_unfold by auto. simpl.
    split; [apply good_detached; auto|].
    split; [rewrite app_nil_r; apply good_cut_events; apply good_unmention; auto|].
    split; [apply shrinks_detached|discriminate].
  - unfold wp. rewrite remove_node_unfold by auto. unfold prefix; cbn [fst snd].
    assert (Hpre : snapshots_good (cut_events (evens (parents t n)) n (unmention n t)))
      by (apply good_cut_events; apply good_unmention; auto).
    assert (Hwp : wp (children_part (S fuel) n true (childs t n) ;; tail n) (rm_post t [n]) (detached n t)).
    { eapply wp_bind_any; [apply (rm_for_each fuel (childs t n)); auto; apply good_detached; auto|..].
      - intros t1 e1 u (G1 & F1 & S1 & O1). destruct u. destruct (O1 eq_refl) as [D1 P1].
        eapply wp_conseq; [|apply tail_rm; auto].
        + simpl. intros t2 e2 r (G2 & F2 & S2 & _ & O2). split; auto.
          split; [apply Forall_app; auto|].
          split; [eapply shrinks_trans; [apply shrinks_detached|eapply shrinks_trans; eauto]|].
          intros E. destruct (O2 E) as [D2 P2]. split.
          * intros c [Hc|[]]. subst. auto.
          * intros x Hx. assert (x <> n) by congruence.
            rewrite P2 by auto. rewrite P1 by (apply S2; auto). apply parents_detached_other; auto.
        + intros c. destruct (In_dec_id n (parents t1 c)) as [Hin|]; auto. right.
          deq c n; auto. exfalso. pose proof (In_parents_live _ _ _ Hin) as Hlc.
          rewrite P1 in Hin by auto. rewrite parents_detached_other in Hin by auto.
          destruct (ok_sym _ (g_ok _ _ _ G) _ _ Hin) as [_ Hc]. rewrite (D1 c) in Hlc; auto. discriminate.
      - intros t1 e1 e (G1 & F1 & S1 & _). split; auto. split; auto.
        split; [eapply shrinks_trans; [apply shrinks_detached|exact S1]|discriminate].
      - intros t1 e1 (G1 & F1 & S1 & _). split; auto. split; auto.
        split; [eapply shrinks_trans; [apply shrinks_detached|exact S1]|discriminate]. }
    unfold wp in Hwp. destruct ((children_part (S fuel) n true (childs t n) ;; tail n) (detached n t)) as [[t' es] r].
    cbn [fst snd] in Hwp |- *. destruct Hwp as (A & B & C & D). split; auto. split; auto. apply Forall_app; auto.
Qed.

(** Non-recursive deletion. *)
Definition rc_post (n : id) (t : mtree) (l : list id) (t' : mtree) (es : list event) (r : res unit) : Prop :=
  good t' /\ snapshots_good es /\ r <> Diverge /\
  dkeys (nodes t') = dkeys (nodes t) /\
  (forall x, incl (parents t' x) (parents t x)) /\
  (forall x, length (parents t' x) <= length (parents t x)) /\
  (r = Ok tt -> forall c, In c l -> ~ In n (parents t' c)).

Lemma remove_child_rc : forall n c t, good t -> wp (remove_child n c) (rc_post n t [c]) t.
Proof.
  intros n c t G. destruct (has_node t n && has_node t c) eqn:E.
  - apply andb_true_iff in E. destruct E as [Hn Hc].
    destruct (remove_child_eq n c t Hn Hc) as (t' & es & E & Ees & En & Epd & _).
    eapply wp_intro; [apply E|]. subst es.
    assert (Gd : good (del_edge n c t)) by (apply good_del_edge; apply goodx_weaken; auto).
    assert (HP : forall x, parents t' x = parents (del_edge n c t) x) by (intros; unfold parents; rewrite En; auto).
    split; [eapply goodx_same; [apply En| |apply Gd]; rewrite Epd; apply (ok_pend _ (g_ok _ _ _ G))|].
    split; [constructor; [exact Gd|constructor]|]. split; [discriminate|].
    split; [rewrite En; apply dkeys_del_edge|].
    split; [|split].
    + intros x y Hy. rewrite HP, parents_del_edge in Hy. destruct (String.eqb x c); auto. eapply remove1_In; eauto.
    + intros x. rewrite HP, parents_del_edge. destruct (String.eqb x c); auto. apply remove1_length_le.
    + intros _ d [Hd|[]]. subst. rewrite HP, parents_del_edge, eqb_refl.
      intro Hin. apply remove1_iff in Hin; [tauto|apply (ok_ndp _ (g_ok _ _ _ G))].
  - eapply wp_intro; [apply remove_child_err; auto|].
    split; auto. split; [constructor|]. split; [discriminate|]. split; auto. split; [intros x; apply incl_refl|].
    split; auto. discriminate.
Qed.

Lemma rc_for_each : forall n l t, good t -> wp (for_each l (fun c => remove_child n c)) (rc_post n t l) t.
Proof.
  induction l; simpl; intros t G.
  - apply wp_ret. split; auto. split; [constructor|]. split; [discriminate|]. split; auto.
    split; [intros x; apply incl_refl|]. split; auto.
  - eapply wp_bind_any; [apply remove_child_rc; auto|..]; simpl.
    + intros t1 e1 u (G1 & F1 & D1 & K1 & I1 & L1 & O1). destruct u.
      eapply wp_conseq; [|apply IHl; auto]. simpl. intros t2 e2 r (G2 & F2 & D2 & K2 & I2 & L2 & O2).
      split; auto. split; [apply Forall_app; auto|]. split; auto. split; [congruence|].
      split; [intros x; eapply incl_tran; eauto|]. split; [intros; eapply Nat.le_trans; eauto|].
      intros E c [Hc|Hc]; auto. subst. intro Hin. apply I2 in Hin. revert Hin. apply O1; auto.
    + intros t1 e1 e (G1 & F1 & D1 & K1 & I1 & L1 & O1). (split; [auto|]); (split; [auto|]); (split; [discriminate|]); (split; [auto|]); (split; [auto|]); (split; [auto|discriminate]).
    + intros t1 e1 (G1 & F1 & D1 & _). congruence.
Qed.

Lemma remove_node_nonrec_rm : forall fuel n t, good t ->
  wp (remove_node (S fuel) n false) (fun t' es r => keeps_post t' es r /\ shrinks t t') t.
Proof.
  intros fuel n t G. destruct (has_node t n) eqn:Hn.
  2:{ eapply wp_intro; [cbn [remove_node]; rewrite bind_get, Hn; reflexivity|]. split; [kp|apply shrinks_refl]. }
  unfold wp. rewrite remove_node_unfold by auto. unfold prefix; cbn [fst snd].
  assert (Hpre : snapshots_good (cut_events (evens (parents t n)) n (unmention n t)))
    by (apply good_cut_events; apply good_unmention; auto).
  assert (Hwp : wp (children_part (S fuel) n false (childs t n) ;; tail n)
     (fun t' es r => keeps_post t' es r /\ shrinks t t') (detached n t)).
  { eapply wp_bind_any; [apply (rc_for_each n (childs t n)); apply good_detached; auto|..].
    - intros t1 e1 u (G1 & F1 & D1 & K1 & I1 & L1 & O1). destruct u.
      assert (S1 : shrinks t t1).
      { eapply shrinks_trans; [apply shrinks_detached|]. split; [|split; [|exact L1]].
        - intros x Hx. rewrite (has_node_keys t1 (detached n t)) in Hx; auto.
        - intros x y. rewrite K1. auto. }
      assert (Hnp : forall c, ~ In n (parents t1 c) \/ c = n).
      { intros c. destruct (In_dec_id n (parents t1 c)) as [Hin|]; auto. right. deq c n; auto. exfalso.
        pose proof (I1 _ _ Hin) as Hin'. rewrite parents_detached_other in Hin' by auto.
        destruct (ok_sym _ (g_ok _ _ _ G) _ _ Hin') as [_ Hc]. revert Hin. apply O1; auto. }
      eapply wp_conseq; [|apply tail_rm; eauto].
      simpl. intros t2 e2 r (G2 & F2 & S2 & Hnd & _).
      unfold keeps_post.
      split; [split; auto; split; auto; apply Forall_app; auto|eapply shrinks_trans; eauto].
    - intros t1 e1 e (G1 & F1 & D1 & K1 & I1 & L1 & O1). split; [kp|].
      eapply shrinks_trans; [apply shrinks_detached|]. split; [|split; [|exact L1]].
      + intros x Hx. rewrite (has_node_keys t1 (detached n t)) in Hx; auto.
      + intros x y. rewrite K1. auto.
    - intros t1 e1 (G1 & F1 & D1 & _). congruence. }
  unfold wp in Hwp.
  destruct ((children_part (S fuel) n false (childs t n) ;; tail n) (detached n t)) as [[t' es] r].
  cbn [fst snd] in Hwp |- *. destruct Hwp as ((A & B & C) & D). split; auto. split; auto. split; auto.
  apply Forall_app; auto.
Qed.

(** The recursive deletion ends: the number of relations decreases, except along
    a listed child that does not list the node as parent, where the position in
    the dict increases. *)
Definition mu (K : list id) (t : mtree) (n : id) : nat :=
  let e := sum (fun x => length (parents t x)) K in
  let k := length K in
  match parents t n with
  | [] => e * (k + 2) + (k - pos K n)
  | _ => (e - 1) * (k + 2) + (k + 1)
  end.

Lemma sum_mono : forall f g l, (forall x, f x <= g x) -> sum f l <= sum g l.
Proof. induction l; simpl; intros; auto. specialize (H a) as Ha. specialize (IHl H). lia. Qed.

Lemma sum_lt : forall f g l y, (forall x, f x <= g x) -> In y l -> f y < g y -> sum f l < sum g l.
Proof.
  induction l; simpl; intros; [tauto|]. destruct H0.
  - subst. pose proof (sum_mono f g l H). lia.
  - specialize (IHl y H H0 H1). specialize (H a). lia.
Qed.

Lemma sum_In : forall f l y, In y l -> f y <= sum f l.
Proof. induction l; simpl; intros; [tauto|]. destruct H; [subst; lia|]. specialize (IHl y H). lia. Qed.

Lemma odds_shorter : forall l, l <> [] -> length (odds l) < length l.
Proof.
  intros. pose proof (odds_length l). pose proof (Nat.lt_div2 (length l)). destruct l; [congruence|]. simpl length in *. lia.
Qed.

Lemma mu_decreases : forall K n c t t2,
  good t -> has_node t n = true -> has_node t "" = false -> NoDup K ->
  (forall x, has_node t x = true -> In x K) ->
  (forall x y, before (dkeys (nodes t)) x y -> before K x y) ->
  In c (childs t n) -> good t2 -> shrinks (detached n t) t2 -> same_parents (detached n t) t2 ->
  has_node t2 c = true -> mu K t2 c < mu K t n.
Proof.
  intros K n c t t2 G Hn Hemp ND HK HB Hc G2 S2 P2 Hl2.
  set (E := fun t => sum (fun x => length (parents t x)) K).
  assert (HL : forall x, length (parents t2 x) <= length (parents t x)).
  { intros. eapply Nat.le_trans; [apply S2|]. apply shrinks_detached. }
  assert (HE : E t2 <= E t) by (apply sum_mono; auto).
  assert (Hl1 : has_node t c = true) by (rewrite <- (has_node_detached n); apply S2; auto).
  assert (Hcne : parents t2 c <> [] -> 1 <= E t2).
  { intros Hne. assert (Hs : length (parents t2 c) <= E t2)
      by (apply (sum_In (fun x => length (parents t2 x))); auto).
    destruct (parents t2 c); [congruence|simpl in Hs; lia]. }
  unfold mu. fold (E t) (E t2). set (k := length K) in *.
  destruct (parents t n) as [|p0 ps] eqn:Ep.
  - destruct (parents t2 c) as [|q0 qs] eqn:Eq.
    + assert (Hb : pos K n < pos K c).
      { apply before_pos; auto. apply HB. rewrite <- (dkeys_detached n).
        apply (g_imp _ _ _ (good_detached n t G)).
        - intro; congruence.
        - intro; congruence.
        - unfold no_ex. auto.
        - rewrite childs_detached_self; auto.
        - rewrite has_node_detached; auto.
        - rewrite <- P2 by auto. rewrite Eq. auto. }
      pose proof (pos_lt K c (HK _ Hl1)). fold k in H.
      assert (E t2 * (k + 2) <= E t * (k + 2)) by (apply Nat.mul_le_mono_r; auto). lia.
    + assert (1 <= E t2) by (apply Hcne; congruence).
      destruct (E t2) as [|e2]; [lia|]. replace (S e2 - 1) with e2 by lia.
      assert (S e2 * (k + 2) <= E t * (k + 2)) by (apply Nat.mul_le_mono_r; auto). simpl in H0. lia.
  - assert (HE1 : E t2 < E t).
    { apply sum_lt with (y := n); auto. eapply Nat.le_lt_trans; [apply S2|].
      rewrite parents_detached_self by auto. apply odds_shorter. rewrite Ep. congruence. }
    destruct (E t) as [|e]; [lia|]. replace (S e - 1) with e by lia.
    destruct (parents t2 c) as [|q0 qs] eqn:Eq.
    + assert (E t2 * (k + 2) <= e * (k + 2)) by (apply Nat.mul_le_mono_r; lia). lia.
    + assert (1 <= E t2) by (apply Hcne; congruence).
      destruct (E t2) as [|e2]; [lia|]. replace (S e2 - 1) with e2 by lia.
      assert (S e2 * (k + 2) <= e * (k + 2)) by (apply Nat.mul_le_mono_r; lia). simpl in H0. lia.
Qed.

Lemma for_each_total : forall f n K t l t2,
  (forall c t, good t -> has_node t "" = false -> (forall x, has_node t x = true -> In x K) ->
     (forall x y, before (dkeys (nodes t)) x y -> before K x y) -> mu K t c < f ->
     snd (remove_node f c true t) <> Diverge) ->
  good t -> has_node t n = true -> has_node t "" = false -> NoDup K ->
  (forall x, has_node t x = true -> In x K) ->
  (forall x y, before (dkeys (nodes t)) x y -> before K x y) ->
  mu K t n < S f -> incl l (childs t n) ->
  good t2 -> shrinks (detached n t) t2 -> same_parents (detached n t) t2 ->
  snd (for_each l (fun c => remove_node f c true) t2) <> Diverge.
Proof.
  induction l as [|c l IHl]; intros t2 IH G Hn Hemp ND HK HB Hmu Hl G2 S2 P2; [simpl; discriminate|].
  simpl. pose proof (remove_node_rec_rm f c t2 G2) as Hrm. unfold wp in Hrm.
  assert (Hnd : snd (remove_node f c true t2) <> Diverge).
  { destruct (has_node t2 c) eqn:Hc2.
    - assert (Hsub : forall x, has_node t2 x = true -> has_node t x = true).
      { intros x Hx. rewrite <- (has_node_detached n). apply S2. auto. }
      apply IH; auto.
      + destruct (has_node t2 "") eqn:He; auto. apply Hsub in He. congruence.
      + intros x y Hb. apply HB. apply S2 in Hb. rewrite dkeys_detached in Hb. auto.
      + assert (mu K t2 c < mu K t n) by (apply mu_decreases; auto; apply Hl; left; auto). lia.
    - destruct f; cbn [remove_node]; rewrite bind_get, Hc2; simpl; discriminate. }
  unfold bind. destruct (remove_node f c true t2) as [[t3 e3] r3]. simpl in Hrm, Hnd.
  destruct Hrm as (G3 & F3 & S3 & O3). destruct r3 as [[]|e|]; [|simpl; discriminate|congruence].
  destruct (O3 eq_refl) as [D3 P3].
  specialize (IHl t3 IH G Hn Hemp ND HK HB Hmu).
  destruct (for_each l (fun c => remove_node f c true) t3) as [[t4 e4] r4] eqn:E4. simpl.
  simpl in IHl. apply IHl; auto.
  - intros x Hx. apply Hl. right; auto.
  - eapply shrinks_trans; eauto.
  - intros x Hx. rewrite P3 by auto. apply P2. apply S3. auto.
Qed.

Lemma remove_node_total : forall f n K t, good t -> has_node t "" = false -> NoDup K ->
  (forall x, has_node t x = true -> In x K) ->
  (forall x y, before (dkeys (nodes t)) x y -> before K x y) -> mu K t n < f ->
  snd (remove_node f n true t) <> Diverge.
Proof.
  induction f; intros n K t G Hemp ND HK HB Hmu; [lia|].
  destruct (has_node t n) eqn:Hn.
  - rewrite remove_node_unfold by auto. unfold prefix. cbn [fst snd].
    assert (Hfe : snd (children_part (S f) n true (childs t n) (detached n t)) <> Diverge).
    { simpl. apply for_each_total with (n := n) (K := K) (t := t); auto.
      - intros. apply IHf with (K := K); auto.
      - apply incl_refl.
      - apply good_detached; auto.
      - apply shrinks_refl.
      - intros x Hx; auto. }
    unfold bind. destruct (children_part (S f) n true (childs t n) (detached n t)) as [[t1 e1] r1].
    simpl in Hfe. destruct r1 as [[]|e|]; [|simpl; discriminate|congruence].
    destruct (has_node t1 n) eqn:Hn1.
    + rewrite tail_Ok by auto. simpl. discriminate.
    + rewrite tail_Err by auto. simpl. discriminate.
  - cbn [remove_node]. rewrite bind_get, Hn. simpl. discriminate.
Qed.

Lemma mu_budget : forall t n, good t -> mu (dkeys (nodes t)) t n < remove_budget t.
Proof.
  intros t n G. unfold mu, remove_budget. rewrite dkeys_length. set (N := length (nodes t)).
  assert (HE : sum (fun x => length (parents t x)) (dkeys (nodes t)) <= N * N).
  { pose proof (sum_le (fun x => length (parents t x)) (dkeys (nodes t)) N) as Hs.
    rewrite dkeys_length in Hs. apply Hs. intros. apply parents_length. apply (g_ok _ _ _ G). }
  set (e := sum _ _) in *.
  assert (e * (N + 2) <= N * N * (N + 2)) by (apply Nat.mul_le_mono_r; auto).
  assert ((e - 1) * (N + 2) <= e * (N + 2)) by (apply Nat.mul_le_mono_r; lia).
  rewrite Nat.mul_add_distr_r. destruct (parents t n); lia.
Qed.

Lemma del_node_good : forall n b t, good t ->
  wp (del_node n b) (fun t' es r => good t' /\ snapshots_good es /\ shrinks t t' /\
    (has_node t "" = false \/ b = false -> r <> Diverge)) t.
Proof.
  intros n b t G. unfold del_node. apply wp_get. destruct b.
  - pose proof (remove_node_rec_rm (remove_budget t) n t G) as H. unfold wp in *.
    destruct H as (A & B & C & _). split; auto. split; auto. split; auto.
    intros [He|He]; [|discriminate].
    apply remove_node_total with (K := dkeys (nodes t)); auto.
    + apply (ok_keys _ (g_ok _ _ _ G)).
    + intros. apply has_node_In; auto.
    + apply mu_budget; auto.
  - unfold remove_budget. eapply wp_conseq; [|apply remove_node_nonrec_rm; auto].
    simpl. intros t' es r ((A & B & C) & D). auto.
Qed.

End Strict.
