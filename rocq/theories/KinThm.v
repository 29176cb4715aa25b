(** Views of nodes chosen by their children: histories. *)
From Coq Require Import Permutation.
From Verif Require Import Base BaseFacts MainTree Spec MainFacts MainInv MainOps MainReg MainTight
  Filters FTree SpecApi ApiFacts CountFacts SpecView SpecViewing SpecLoose
  FtBase FtWalk FtEdge FtUp FtFront FtDown FtDel FtSync FtTree FtOps FtState FtView FtThm FtQuiet FtStep FtFlat FtFlatThm FtForestThm FtTruth SpecKin KinFacts KinOps.
Open Scope f_scope.

Section KinHist.
  Variable ord : nat -> list id -> list id.
  Hypothesis HO : forall k l, Permutation (ord k l) l.

  Definition kin_ok (x : viewed) : Prop := let '(t, b, s) := x in
    reach calm t /\ no_clash t s /\ childwise b (filters s) /\ levelled b (filters s) /\
    kin b (filters s) (froot s) (any_flat b (filters s)) (fun _ => False) t s.

  Lemma kin_uptodate : forall t b s, kin_ok (t, b, s) -> uptodate t b s.
  Proof.
    intros t b s (R & N & C & L & K). pose proof (reach_reg _ R) as RG. assert (A : apt (froot s) t) by (apply no_clash_apt; auto).
    destruct K as [KL _ KR]. pose proof (l_base _ _ _ _ KL) as B. pose proof (base_sound _ _ _ _ B) as So.
    assert (Hin : forall x, In x (view_all_nodes s) <-> is_displayed s x = true /\ x <> froot s) by (intros x; apply all_nodes_In; apply So).
    assert (HD : forall x, In x (view_all_nodes s) -> should_display b t (filters s) x = true).
    { intros x Hx. apply Hin in Hx. destruct Hx as [H1 H2]. destruct (KR x H2) as [[]|E]. congruence. }
    assert (HP : forall x, In x (view_all_nodes s) -> pars s x = [froot s]) by (intros x Hx; apply Hin in Hx; apply (l_pars _ _ _ _ KL); apply Hx).
    constructor; auto.
    - split; [apply remove1_NoDup; apply So|]. split; [apply filter_NoDup; apply (ok_keys _ (vreg_ok _ (a_reg _ _ A)))|]. intros x. rewrite satisfying_In. split.
      + intros Hx. apply HD in Hx. apply display_passes in Hx. destruct Hx as (H1 & _ & H2). split; auto. rewrite <- passes_sat; auto.
      + intros [H1 H2]. apply Hin. assert (Nx : x <> froot s) by (intros ->; rewrite (a_root _ _ A) in H1; discriminate).
        split; auto. destruct (KR x Nx) as [[]| ->]. unfold should_display. rewrite H1. rewrite <- passes_sat in H2; auto. rewrite H2.
        assert (x <> "") by (intros ->; rewrite (v_empty _ (a_reg _ _ A)) in H1; discriminate). destruct x; auto; contradiction.
    - intros n Hn. split; [intros _; auto|]. intros NF. rewrite HP by auto. unfold shown_parents.
      destruct L as [L|(name & f & Hm & E & Bl & Ng)]; [contradiction|].
      assert (Q : filter (fun p => mem p (view_all_nodes s)) (get_parents t n) = []).
      { destruct (filter _ _) as [|p l] eqn:Q; auto. exfalso. assert (I : In p (p :: l)) by (left; auto). rewrite <- Q in I. apply filter_In in I.
        destruct I as [I1 I2]. apply mem_In in I2. apply HD in I2. pose proof (HD n Hn) as Dn. pose proof (proj1 (display_passes _ _ _ _ Dn)) as Hl.
        apply (vreg_sym t p n (a_reg _ _ A) Hl) in I1. rewrite (display_apart b (filters s) t p n name f) in I2 by auto. discriminate. }
      rewrite Q. auto.
    - pose proof (b_flat _ _ _ _ _ B) as Fl. rewrite Fl. apply flat_spec.
  Qed.

  Lemma kin_refiltered : forall t b s r0 fl0, reach calm t -> no_clash t s -> base r0 (froot s) fl0 (fun _ => True) s -> childwise b (filters s) -> levelled b (filters s) ->
    exists s', refilter ord b t s = (s', Ok tt) /\ kin_ok (t, b, s') /\ filters s' = filters s /\ froot s' = froot s.
  Proof.
    intros t b s r0 fl0 R N B C L. pose proof (reach_reg _ R) as Rg.
    destruct (refilter_synced ord HO t b s r0 fl0 Rg) as (s' & E & Sy & Fi & Ro); auto.
    { apply no_clash_apt; auto. }
    assert (A : apt (froot s') t) by (rewrite Ro; apply no_clash_apt; auto).
    assert (Sy' : synced b (filters s') (froot s') (any_flat b (filters s')) t s') by (rewrite Ro, Fi; auto).
    exists s'. split; auto. split; auto.
    split; auto. split; [apply (clash_same _ s); auto|]. rewrite !Fi. split; auto. split; auto. rewrite <- !Fi. rewrite <- Fi in C, L.
    pose proof (synced_sound t b s' Sy') as So. destruct Sy' as (r & HR & I & HN). pose proof (in_base _ _ _ _ _ _ _ I) as B'.
    pose proof (levelled_one b (filters s') (froot s') _ t (a_reg _ _ A) L eq_refl) as OL.
    assert (SF : forall x, is_displayed s' x = true -> x <> froot s' -> should_display b t (filters s') x = true /\ pars s' x = [froot s']).
    { intros x Dx Nx. destruct (in_stale _ _ _ _ _ _ _ I x Dx) as [|Q]; [contradiction|]. split; auto.
      rewrite (in_pars _ _ _ _ _ _ _ I x) by auto. destruct (OL x s' Q eq_refl (b_flat _ _ _ _ _ B')) as [Q1 _]. unfold node_parents_of in Q1. rewrite (b_flat _ _ _ _ _ B') in Q1.
      assert (Q2 : filter (fun p => is_displayed s' p && should_display b t (filters s') p) (get_parents t x) = filter (should_display b t (filters s')) (get_parents t x)).
      { apply filter_ext. intros p. destruct (should_display b t (filters s') p) eqn:Qp; [|apply andb_false_r]. rewrite (in_full _ _ _ _ _ _ _ I p Qp). auto. }
      rewrite Q2 in Q1. unfold sp. destruct (any_flat b (filters s')); auto. change (filter (FtOps.D b (filters s') t) (get_parents t x)) with (filter (should_display b t (filters s')) (get_parents t x)). destruct (filter (should_display b t (filters s')) (get_parents t x)); auto. }
    constructor; auto.
    - constructor.
      + apply (base_rank r); auto.
        intros x p Hp. assert (Hx : In x (view_all_nodes s')).
        { apply all_nodes_In; [apply So|]. split; [eapply pars_disp; eauto|]. intros ->. rewrite (so_top _ So) in Hp. destruct Hp. }
        apply all_nodes_In in Hx; [|apply So]. destruct (SF x) as [_ Q]; try apply Hx. rewrite Q in Hp. destruct Hp as [<-|[]].
        rewrite two_root, two_other; auto. apply Hx.
      + intros x Dx Nx. apply SF; auto.
      + intros x [].
    - intros x Nx. right. destruct (is_displayed s' x) eqn:Q.
      + symmetry. apply SF; auto.
      + destruct (should_display b t (filters s') x) eqn:Q'; auto. apply (in_full _ _ _ _ _ _ _ I) in Q'. congruence.
  Qed.

  Lemma kin_tree : forall t b s o, kin_ok (t, b, s) -> calm t o -> single t o -> no_clashing_add s o ->
    kin_ok (fst (view_call ord (VTree o) (t, b, s))) /\ snd (view_call ord (VTree o) (t, b, s)) = Ok tt.
  Proof.
    intros t b s o (R & N & C & L & K) Ca Si No. pose proof (reach_reg _ R) as RG. assert (A : apt (froot s) t) by (apply no_clash_apt; auto).
    cbn [view_call].
    destruct (kin_call ord b (filters s) (froot s) (any_flat b (filters s)) HO C L eq_refl o t s RG A Ca Si) as (A' & W); auto.
    unfold fwp in W. destruct (feed ord b (events o t) s) as [s' [[]| |]]; try contradiction. cbn [fst snd]. split; auto.
    pose proof (k_fs _ _ _ _ _ _ _ W) as Fi. pose proof (level_root _ _ _ _ (k_level _ _ _ _ _ _ _ W)) as Ro.
    split; [apply reach_call; auto|]. rewrite Fi, Ro. split; [split; rewrite ?Ro; apply A'|]. auto.
  Qed.

  Lemma watching_ok : forall x, watching ord x -> kin_ok x.
  Proof.
    intros x H. induction H as [t b name names R N C L|t b s o H IH Ca Si No|t b s b' names H IH C L].
    - destruct (kin_refiltered t b (set_filters names (new_ft name)) (fun _ => 0) false) as (s' & E & P & _); auto.
      { apply base_filters. apply (new_ft_base name (fun _ => 0) false). }
      unfold opened. rewrite E. auto.
    - apply kin_tree; auto.
    - destruct IH as (R & N & _ & _ & K).
      destruct (kin_refiltered t b' (set_filters names s) (two (froot s)) (any_flat b (filters s))) as (s' & E & P & _); auto.
      { apply base_filters. apply (l_base _ _ _ _ (k_level _ _ _ _ _ _ _ K)). }
      cbn [view_call]. rewrite E. auto.
  Qed.

  Theorem watching_uptodate : forall t b s, watching ord (t, b, s) ->
    uptodate t b s /\ mirrored s /\ forall n, In n (view_all_nodes s) -> pars s n = [froot s].
  Proof.
    intros t b s H. apply watching_ok in H. pose proof (kin_uptodate _ _ _ H) as U. destruct H as (_ & _ & _ & _ & [KL _ _]).
    pose proof (l_base _ _ _ _ KL) as B. pose proof (b_g _ _ _ _ _ B) as G. split; auto. split.
    - destruct (gb_knows _ _ _ _ _ G) as (cs & (K & _) & K1). exists cs. auto.
    - intros n Hn. apply all_nodes_In in Hn; [|apply B]. apply (l_pars _ _ _ _ KL); apply Hn.
  Qed.

  Theorem watching_no_error : forall t b s o, watching ord (t, b, s) -> calm t o -> single t o -> no_clashing_add s o ->
    snd (view_call ord (VTree o) (t, b, s)) = Ok tt.
  Proof. intros t b s o H Ca Si No. apply watching_ok in H. apply kin_tree; auto. Qed.
End KinHist.
