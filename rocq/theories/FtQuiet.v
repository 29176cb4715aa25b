(** Views: rebuilding any view, announcing nodes that did not change. *)
From Coq Require Import Permutation.
From Verif Require Import Base BaseFacts MainTree Spec MainFacts MainInv MainReg MainRegDel MainTight Filters FTree SpecApi ApiFacts CountFacts
  SpecView SpecViewing FtBase FtWalk FtEdge FtUp FtFront FtDown FtNoop FtDel FtSync FtTree FtOps FtSent FtKeep FtState FtView FtThm FtSignals.
Open Scope f_scope.

Lemma no_clash_apt : forall t s, reg t -> no_clash t s -> apt (froot s) t.
Proof. intros t s R [H1 H2]. constructor; auto. apply reg_vreg; auto. Qed.

(** Only the signals sent before differ. *)
Lemma synced_uptodate : forall t b s, reg t -> apt (froot s) t -> synced b (filters s) (froot s) (any_flat b (filters s)) t s -> uptodate t b s.
Proof.
  intros t b s R A Sy. constructor.
  - apply (synced_sound t b s Sy).
  - apply synced_nodes; auto.
  - apply synced_parents; auto.
  - destruct Sy as (r & _ & I & _). rewrite (b_flat _ _ _ _ _ (in_base _ _ _ _ _ _ _ I)). apply flat_spec.
Qed.

Lemma same_uptodate : forall t b s s', froot s' = froot s -> fnodes s' = fnodes s -> flat s' = flat s -> filters s' = filters s ->
  uptodate t b s -> uptodate t b s'.
Proof.
  intros t b s s' E1 E2 E3 E4 [U1 U2 U3 U4].
  assert (EN : view_all_nodes s' = view_all_nodes s) by (unfold view_all_nodes; rewrite E1, E2; auto).
  assert (EP : forall x, pars s' x = pars s x) by (intros; unfold pars; rewrite E2; auto).
  constructor; rewrite ?EN, ?E3, ?E4; auto.
  - eapply sound_same; eauto.
  - intros n. rewrite EP, E1. auto.
Qed.

Lemma uptodate_proper : forall t b s, no_clash t s -> uptodate t b s -> proper s.
Proof.
  intros t b s [_ N] U x Hx Hn. apply (up_nodes _ _ _ U) in Hn. apply satisfying_In in Hn. rewrite (N x Hx) in Hn. destruct Hn. discriminate.
Qed.

Lemma uptodate_synced : forall t b s, reg t -> no_clash t s -> uptodate t b s ->
  exists l, synced b (filters s) (froot s) (any_flat b (filters s)) t (pre l (unsent s)).
Proof.
  intros t b s R N U. pose proof (no_clash_apt t s R N) as A. destruct (apt_ranks (froot s) t A) as (r & HR).
  destruct (sound_base s (up_sound _ _ _ U) (uptodate_proper t b s N U)) as (r0 & l & B).
  assert (K : forall n, In n (view_all_nodes s) <-> should_display b t (filters s) n = true).
  { intros n. rewrite (proj2 (proj2 (up_nodes _ _ _ U))). symmetry. apply should_sat. apply (r_empty _ R). }
  pose proof (so_keys _ (up_sound _ _ _ U)) as Kd.
  assert (D1 : forall n, is_displayed s n = true -> n = froot s \/ should_display b t (filters s) n = true).
  { intros n Hn. destruct (id_dec n (froot s)) as [|Nr]; auto. right. apply K. apply all_nodes_In; auto. }
  assert (SP : forall n, should_display b t (filters s) n = true -> pars s n = sp t (should_display b t (filters s)) (froot s) (any_flat b (filters s)) n).
  { intros n Hn. apply K in Hn. destruct (up_pars _ _ _ U n Hn) as [P1 P2]. unfold sp. destruct (any_flat b (filters s)) eqn:F.
    - apply P1. apply flat_spec. auto.
    - rewrite P2 by (intros X; apply flat_spec in X; congruence). unfold shown_parents.
      rewrite (filter_ext _ (should_display b t (filters s))); auto. intros p. apply eq_true_iff_eq. rewrite mem_In. apply K. }
  assert (EV : env (fun _ l => l) t (should_display b t (filters s)) (froot s) (any_flat b (filters s)) r) by (apply (apt_env_any _ b (filters s) (froot s) (any_flat b (filters s)) (fun k l => Permutation_refl l) t r A HR)).
  exists l, r. split; auto. split; auto.
  assert (FL : flat s = any_flat b (filters s)).
  { apply eq_true_iff_eq. rewrite flat_spec. apply (up_flat _ _ _ U). }
  constructor.
  - rewrite <- FL. apply (base_rank r0); auto. intros x p Hp. change (pars (pre l (unsent s)) x) with (pars s x) in Hp.
    destruct (D1 x (pars_disp _ _ _ Hp)) as [->|Dx]; [rewrite (so_top _ (up_sound _ _ _ U)) in Hp; destruct Hp|].
    rewrite SP in Hp by auto. refine (sp_rank _ _ _ _ _ _ EV x p _ Hp). apply (D_root _ _ _ _ _ _ EV). auto.
  - intros x Hx. apply D1. auto.
  - intros x Dx. apply K in Dx. apply all_nodes_In in Dx; auto. apply Dx.
  - intros x Dx _. apply SP. auto.
Qed.

(** A client that hears only modified signals. *)
Lemma hear_modifieds : forall l cs c, hear_all cs l c -> Forall (fun x => exists n p, x = SModified n p) l ->
  c = cs /\ Forall (fun x => exists q n, x = SModified n (q ++ [n]) /\ In (q ++ [n]) cs) l.
Proof.
  induction l as [|x l IH] using rev_ind; intros cs c H F.
  - apply hear_all_nil in H. auto.
  - apply Forall_app in F. destruct F as [F1 F2]. apply hear_all_snoc in H. destruct H as (d & A & B). destruct (IH _ _ A F1) as [-> G].
    inversion F2 as [|? ? (n & p & ->) _]. subst. inversion B; subst. split; auto. apply Forall_app. split; auto. constructor; auto. eauto.
Qed.

Section Quiet.
  Variable ord : nat -> list id -> list id.
  Hypothesis HO : forall k l, Permutation (ord k l) l.

  (** Rebuilding *)
  Lemma refilter_sound : forall t b s, reg t -> no_clash t s -> sound s -> proper s ->
    exists s', refilter ord b t s = (s', Ok tt) /\ uptodate t b s' /\ filters s' = filters s /\ froot s' = froot s.
  Proof.
    intros t b s R N So Pr. destruct (sound_base s So Pr) as (r0 & l & B).
    destruct (refilter_synced ord HO t b (pre l (unsent s)) r0 (flat s) R) as (s1 & E1 & Sy & F1 & R1); auto.
    { apply no_clash_apt; auto. }
    pose proof (blind_refilter ord b t (sent s) (unsent s)) as E2. rewrite pre_unsent in E2.
    rewrite (blind_refilter ord b t) in E1. destruct (refilter ord b t (unsent s)) as [u q]. cbn [fst snd] in *. inv E1.
    exists (pre (sent s) u). split; auto. split; [|split; auto].
    apply (same_uptodate t b (pre l u)); auto. simpl in *.
    apply synced_uptodate; auto.
    - simpl. rewrite R1. apply no_clash_apt; auto.
    - simpl. rewrite R1, F1. auto.
  Qed.

  (** One announcement *)
  Definition still (s s' : ft) : Prop := like s s' /\ modified_only s s' /\ runonce s' = runonce s.

  Lemma noop_event : forall t b s n, reg t -> apt (froot s) t -> synced b (filters s) (froot s) (any_flat b (filters s)) t s ->
    fwp (external_modify ord b t n) (fun _ s' => still s s' /\ synced b (filters s) (froot s) (any_flat b (filters s)) t s') s.
  Proof.
    intros t b s n R A (r & HR & I & F0). set (root := froot s) in *. set (fl := any_flat b (filters s)) in *. set (D := should_display b t (filters s)).
    pose proof (in_base _ _ _ _ _ _ _ I) as B. pose proof (b_g _ _ _ _ _ B) as G.
    pose proof (apt_env_any ord b (filters s) root fl HO t r A HR) as EV.
    unfold external_modify. fold D. change (shown b t s) with D.
    assert (Hlive : forall p c, In p (get_parents t c) -> has_node t p = true) by (intros; eapply (vreg_Hlive t (a_reg _ _ A)); eauto).
    set (L := dkeys (nodes t) ++ dkeys (fnodes s)). set (r' := squeeze r root L).
    assert (B' : base r' root fl (fun _ => True) s) by (apply (base_squeeze ord t D root fl r EV s); auto).
    assert (EV' : env ord t D root fl r') by (apply (env_squeeze ord t D root fl r EV Hlive s)).
    unfold update.
    assert (W : forall dir, (goes_down dir = true -> D n = true) -> fwp (update_node ord t D (update_budget t s) n dir) (fun _ s' => quiet root r' (kids s) s s') s).
    { intros dir Hdir. apply (update_noop ord t D root fl r' EV').
      - pose proof (squeeze_le r root L n) as Q. fold r' in Q. unfold L in Q. unfold update_budget. rewrite app_length in Q. unfold dkeys in Q. rewrite !map_length in Q. lia.
      - apply (b_g _ _ _ _ _ B').
      - apply (b_flat _ _ _ _ _ B').
      - intros x _. split; [apply (in_full _ _ _ _ _ _ _ I)|]. intros Hx Nx. destruct (in_stale _ _ _ _ _ _ _ I x Hx) as [|Dx]; [contradiction|].
        split; auto. apply (in_pars _ _ _ _ _ _ _ I); auto.
      - intros Hd c Hc. unfold node_children_of in Hc. rewrite (b_flat _ _ _ _ _ B) in Hc. destruct fl eqn:Ef; [destruct Hc|].
        apply filter_In in Hc. destruct Hc as [Hc Dc]. apply (gb_sym _ _ _ _ _ G); auto.
        rewrite (in_pars _ _ _ _ _ _ _ I c Dc) by auto. unfold sp.
        assert (Hp : In n (filter D (get_parents t c))).
        { apply filter_In. split; [apply (vreg_Hsym t D (a_reg _ _ A) (D_alive b (filters s) t)); auto|auto]. }
        change (FtOps.D b (filters s) t) with D. destruct (filter D (get_parents t c)); [destruct Hp|auto]. }
    assert (W' : fwp (update_node ord t D (update_budget t s) n Both) (fun _ s' => quiet root r' (kids s) s s') s).
    { destruct (D n) eqn:Dn; [apply W; auto|].
      assert (E : update_node ord t D (update_budget t s) n Both s = update_node ord t D (update_budget t s) n Up s).
      { assert (exists k, update_budget t s = Datatypes.S k) as (k & ->) by (unfold update_budget; exists (3 * (length (nodes t) + length (fnodes s)) + 5); lia).
        cbn [update_node]. unfold update_body. unfold fbind at 1 3. unfold fget. destruct (String.eqb n (froot s)) eqn:En; auto. rewrite Dn. cbv zeta.
        destruct (is_displayed s n) eqn:Di; auto. }
      unfold fwp. rewrite E. apply (W Up). discriminate. }
    eapply fwp_mono; [apply W'|]. intros ? s' Q. pose proof (q_like _ _ _ _ _ Q) as Lk. split.
    - split; [auto|split; [apply Q|apply Q]].
    - exists r. split; auto. split; [|rewrite (lk_filters _ _ Lk); auto]. destruct I. constructor.
      + eapply base_like; eauto. apply (gb_knows _ _ _ _ _ (q_base _ _ _ _ _ Q)).
      + intros x. rewrite (like_disp _ _ _ Lk). auto.
      + intros x. rewrite (like_disp _ _ _ Lk). auto.
      + intros x. rewrite (like_pars _ _ _ Lk). auto.
  Qed.

  Lemma still_trans : forall a b c, still a b -> still b c -> still a c.
  Proof. intros a b c (A1 & A2 & A3) (B1 & B2 & B3). split; [eapply like_trans; eauto|]. split; [eapply modified_only_trans; eauto|congruence]. Qed.

  Lemma noop_feed : forall t b es s, reg t -> apt (froot s) t -> synced b (filters s) (froot s) (any_flat b (filters s)) t s ->
    (forall e, In e es -> ev_tree e = t) ->
    fwp (feed ord b es) (fun _ s' => still s s' /\ synced b (filters s) (froot s) (any_flat b (filters s)) t s') s.
  Proof.
    intros t b es. induction es as [|e es IH]; intros s R A Sy He.
    - apply fwp_ret. split; auto. split; auto. split; auto. apply modified_only_refl.
    - unfold feed. cbn [ffor]. apply fwp_bind. rewrite (He e) by (left; auto). eapply fwp_mono; [apply noop_event; auto|].
      intros ? s1 [S1 Sy1]. pose proof S1 as (L1 & _). fold (feed ord b es).
      rewrite <- (lk_root _ _ L1), <- (lk_filters _ _ L1) in Sy1 |- *. eapply fwp_mono; [apply IH; auto; try (rewrite (lk_root _ _ L1); auto); intros e' H'; apply He; right; auto|].
      intros ? s2 [S2 Sy2]. split; auto. eapply still_trans; eauto.
  Qed.

  Lemma announce_events : forall o t, announcing o -> after o t = t /\ outcome o t = Ok tt /\ forall e, In e (events o t) -> ev_tree e = t.
  Proof.
    intros o t [->|(n & ->)]; unfold after, outcome, events; cbn [run_op].
    - unfold refresh_all. rewrite bind_get. generalize (dkeys (nodes t)) as l.
      assert (G : forall l, fst (fst (for_each l modify_node t)) = t /\ snd (for_each l modify_node t) = Ok tt /\ forall e, In e (snd (fst (for_each l modify_node t))) -> ev_tree e = t).
      { induction l as [|n l (I1 & I2 & I3)]; cbn [for_each]; [repeat split; auto; intros e []|].
        unfold bind at 1 2 3. unfold modify_node at 1 3 5. rewrite !bind_get.
        destruct (negb (String.eqb n main_root) && has_node t n); cbn; destruct (for_each l modify_node t) as [[t1 es] q]; cbn in *; repeat split; auto.
        intros e [<-|He]; auto. }
      apply G.
    - unfold modify_node. rewrite bind_get. destruct (negb (String.eqb n main_root) && has_node t n); cbn; repeat split; auto; intros e H; [destruct H as [<-|[]]; auto|destruct H].
  Qed.

  Lemma announce_quiet : forall t b s o, reg t -> no_clash t s -> uptodate t b s -> announcing o ->
    after o t = t /\ exists s' l, feed ord b (events o t) s = (s', Ok tt) /\ fnodes s' = fnodes s /\ filters s' = filters s /\
      froot s' = froot s /\ flat s' = flat s /\ runonce s' = runonce s /\ sent s' = sent s ++ l /\
      Forall (fun x => exists q n, x = SModified n (q ++ [n]) /\ view_path s (q ++ [n])) l.
  Proof.
    intros t b s o R N U Ho. destruct (announce_events o t Ho) as (E1 & _ & E2). split; auto.
    destruct (uptodate_synced t b s R N U) as (l & Sy).
    pose proof (noop_feed t b (events o t) (pre l (unsent s)) R (no_clash_apt t s R N) Sy E2) as W. apply fwp_run in W.
    destruct W as (s1 & [] & E & (Lk & (l' & El & Fl) & Ro) & Sy1).
    pose proof (blind_feed ord b (events o t) (sent s) (unsent s)) as E3. rewrite pre_unsent in E3.
    rewrite (blind_feed ord b (events o t)) in E. destruct (feed ord b (events o t) (unsent s)) as [u q]. cbn [fst snd] in *. inv E.
    simpl in El. rewrite app_nil_r in El. apply app_inv_head in El.
    exists (pre (sent s) u), l'. destruct Lk. simpl in *. repeat split; auto; [rewrite El; auto|].
    destruct Sy as (r & _ & I & _). destruct (gb_knows _ _ _ _ _ (b_g _ _ _ _ _ (in_base _ _ _ _ _ _ _ I))) as (cs & (K1 & _) & K2 & K3).
    destruct Sy1 as (r1 & _ & I1 & _). destruct (gb_knows _ _ _ _ _ (b_g _ _ _ _ _ (in_base _ _ _ _ _ _ _ I1))) as (cs1 & (J1 & _) & _ & _).
    simpl in K1, J1. rewrite app_nil_r in K1. apply hear_split in J1. destruct J1 as (m & M1 & M2). rewrite (hear_all_det _ _ _ _ M1 K1) in M2.
    rewrite El in M2. destruct (hear_modifieds l' cs cs1 M2 Fl) as [_ G]. eapply Forall_impl; [|apply G].
    intros x (q0 & n & -> & Hq). exists q0, n. split; auto. apply K3 in Hq. exact Hq.
  Qed.
End Quiet.
