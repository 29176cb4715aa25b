(** Views: histories of flat views with any filters. *)
From Coq Require Import Permutation.
From Verif Require Import Base BaseFacts MainTree Spec MainFacts MainInv MainLaws MainEvents MainReg MainTight Filters FTree SpecApi ApiFacts CountFacts SpecView SpecViewing SpecLoose
  FtBase FtWalk FtEdge FtUp FtFront FtDown FtNoop FtDel FtSync FtTree FtOps FtState FtView FtThm FtQuiet FtStep FtFlat.
Open Scope f_scope.

Lemma clash_step : forall t o s, reachx any_fresh t -> any_fresh t o -> no_clash t s -> no_clashing_add s o ->
  no_clash (after o t) s /\ Forall (fun e => no_clash (ev_tree e) s) (events o t).
Proof.
  intros t o s R F [N1 N2] X. pose proof (reachx_good _ R) as G.
  assert (H : forall x, x = froot s \/ In x reserved -> has_node (after o t) x = false /\ Forall (fun e => has_node (ev_tree e) x = false) (events o t)).
  { intros x Hx. apply (op_absent false); auto.
    - destruct o; auto. simpl in X. intros ->. destruct X, Hx; auto.
    - destruct Hx as [->|Hx]; auto. }
  split.
  - split; [apply H; auto|]. intros x Hx. apply H. auto.
  - apply Forall_forall. intros e He. split; [|intros x Hx].
    + destruct (H (froot s)) as [_ Q]; auto. rewrite Forall_forall in Q. auto.
    + destruct (H x) as [_ Q]; auto. rewrite Forall_forall in Q. auto.
Qed.

Lemma shown_fine : forall b t s x, no_clash t s -> should_display b t (filters s) x = true -> x <> froot s /\ @fine any_ear x.
Proof.
  intros b t s x [N1 N2] H. apply (D_alive b (filters s)) in H. split; [intros ->; congruence|]. split; [|exact I].
  intros Hx. rewrite (N2 x Hx) in H. discriminate.
Qed.

Lemma parents_rank_ok : forall t, ok t -> exists rk, (forall x p, In p (get_parents t x) -> rk p < rk x) /\ forall x, rk x <= length (nodes t).
Proof.
  intros t K. destruct (bounded_rank t K) as (rk & H1 & H2). exists rk. split; auto.
  intros x p Hp. rewrite (get_parents_raw t x K) in Hp. destruct (parents_enabled t x); [auto|destruct Hp].
Qed.
Lemma parents_rank : forall t, reachx any_fresh t -> exists rk, (forall x p, In p (get_parents t x) -> rk p < rk x) /\ forall x, rk x <= length (nodes t).
Proof. intros t R. apply parents_rank_ok. apply (g_ok _ _ _ (reachx_good _ R)). Qed.

Lemma clash_same : forall t s s', froot s' = froot s -> no_clash t s -> no_clash t s'.
Proof. intros t s s' E [H1 H2]. split; auto. rewrite E. auto. Qed.

Lemma level_root : forall root fl U s, level root fl U s -> froot s = root.
Proof. intros root fl U s L. apply (gb_root _ _ _ _ _ (b_g _ _ _ _ _ (l_base _ _ _ _ L))). Qed.

Lemma base_sound : forall {EAR : Ear} r root fl s, base r root fl (fun _ => True) s -> sound s.
Proof.
  intros EAR r root fl s B. pose proof (b_g _ _ _ _ _ B) as G. pose proof (gb_root _ _ _ _ _ G) as Ro. constructor.
  - apply (b_keys _ _ _ _ _ B).
  - rewrite Ro. apply (gb_disp _ _ _ _ _ G).
  - rewrite Ro. apply (gb_top _ _ _ _ _ G).
  - intros p c. symmetry. apply (gb_sym _ _ _ _ _ G). auto.
  - apply (gb_ndp _ _ _ _ _ G).
  - apply (b_ndk _ _ _ _ _ B).
  - exists r. intros p c Hc. apply (gb_ch _ _ _ _ _ G p c Hc).
Qed.

Section FlatHist.
  Variable ord : nat -> list id -> list id.
  Hypothesis HO : forall k l, Permutation (ord k l) l.

  (** Every shown node of [t] belongs directly under the root of the view [s]. *)
  Definition one_level (b : bank) (t : mtree) (names : list id) (root : id) (fl : bool) : Prop :=
    forall n z, should_display b t names n = true -> froot z = root -> flat z = fl ->
      node_parents_of t (should_display b t names) n z = [root] /\ node_children_of t (should_display b t names) n z = [].
  Lemma flat_one_level : forall b t names root, one_level b t names root true.
  Proof. intros b t names root n z _ E F. unfold node_parents_of, node_children_of. rewrite E, F. auto. Qed.

  Lemma level_event : forall t b s n root fl, ok t -> no_clash t s -> level root fl [] s -> one_level b t (filters s) root fl ->
    fwp (external_modify ord b t n) (fun _ s' => level root fl [] s' /\ filters s' = filters s /\
      (n <> root -> is_displayed s' n = should_display b t (filters s) n)) s.
  Proof.
    intros t b s n root fl R N L OL. pose proof (level_root _ _ _ _ L) as Ro. destruct (parents_rank_ok t R) as (rk & H1 & H2).
    unfold external_modify. change (shown b t s) with (should_display b t (filters s)). unfold fwp, update.
    pose proof (flat_update ord t (should_display b t (filters s)) root rk fl (fun _ => I) HO) as W.
    assert (HD : forall x, should_display b t (filters s) x = true -> x <> root /\ fine x) by (intros x Hx; rewrite <- Ro; apply (shown_fine b t s); auto).
    specialize (W HD H1 (fun x z A B C => proj1 (OL x z A B C)) (fun x z A B C => proj2 (OL x z A B C)) (update_budget t s) n Both [] s).
    assert (Hf : rk n + 1 < update_budget t s) by (unfold update_budget; specialize (H2 n); lia).
    specialize (W Hf L). assert (HU : forall u, In u [] -> rk n < rk u) by (intros u []). specialize (W HU).
    unfold fwp in W. change (shown b t s) with (should_display b t (filters s)). destruct (update_node ord t (should_display b t (filters s)) (update_budget t s) n Both s) as [s' [[]| |]]; auto.
    destruct W as [A1 A2 _ A4]. auto.
  Qed.

  Lemma flat_event : forall t b s n root, reachx any_fresh t -> no_clash t s -> level root true [] s ->
    fwp (external_modify ord b t n) (fun _ s' => level root true [] s' /\ filters s' = filters s /\
      (n <> root -> is_displayed s' n = should_display b t (filters s) n)) s.
  Proof. intros t b s n root R N L. apply level_event; auto; [apply (g_ok _ _ _ (reachx_good _ R))|apply flat_one_level]. Qed.

  Lemma flat_feed : forall b es s root, Forall (fun e => reachx any_fresh (ev_tree e) /\ no_clash (ev_tree e) s) es -> level root true [] s ->
    fwp (feed ord b es) (fun _ s' => level root true [] s' /\ filters s' = filters s /\
      forall l e, es = l ++ [e] -> ev_id e <> root -> is_displayed s' (ev_id e) = should_display b (ev_tree e) (filters s) (ev_id e)) s.
  Proof.
    intros b es. induction es as [|e es IH] using rev_ind; intros s root F L.
    - unfold feed. cbn [ffor]. apply fwp_ret. spl; auto. intros l e E. destruct l; discriminate.
    - apply Forall_app in F. destruct F as [F' F]. inversion F as [|? ? [R N] _]. subst.
      unfold feed. apply ffor_app. fold (feed ord b es).
      eapply fwp_mono; [apply (IH s root); auto|]. intros ? s1 (L1 & F1 & _).
      pose proof (level_root _ _ _ _ L) as Ro. pose proof (level_root _ _ _ _ L1) as Ro1.
      cbn [ffor]. apply fwp_bind.
      eapply fwp_mono; [apply (flat_event (ev_tree e) b s1 (ev_id e) root); auto; apply (clash_same _ s); auto; congruence|].
      intros ? s2 (L2 & F2 & D2). apply fwp_ret. spl; auto; [congruence|]. intros l e' E Hn. apply app_inj_tail in E. destruct E as [_ <-].
      rewrite <- F1. auto.
  Qed.

  Definition flat_ok (x : viewed) : Prop := let '(t, b, s) := x in reachx any_fresh t /\ no_clash t s /\ level (froot s) true [] s.

  Lemma flat_tree : forall t b s o, flat_ok (t, b, s) -> any_fresh t o -> no_clashing_add s o ->
    flat_ok (fst (view_call ord (VTree o) (t, b, s))) /\ snd (view_call ord (VTree o) (t, b, s)) = Ok tt /\
    froot (snd (fst (view_call ord (VTree o) (t, b, s)))) = froot s /\
    forall l e, events o t = l ++ [e] -> ev_id e <> froot s ->
      is_displayed (snd (fst (view_call ord (VTree o) (t, b, s)))) (ev_id e) = should_display b (ev_tree e) (filters s) (ev_id e).
  Proof.
    intros t b s o (R & N & L) Fo No. destruct (clash_step t o s R Fo N No) as [N' Ne]. cbn [view_call].
    pose proof (flat_feed b (events o t) s (froot s)) as W.
    assert (Fe : Forall (fun e => reachx any_fresh (ev_tree e) /\ no_clash (ev_tree e) s) (events o t)).
    { rewrite Forall_forall in *. intros e He. split; auto. eapply reachx_abort; eauto. }
    specialize (W Fe L). unfold fwp in W. destruct (feed ord b (events o t) s) as [s' [[]| |]]; try contradiction. destruct W as (L' & F' & D').
    pose proof (level_root _ _ _ _ L') as Ro. cbn [fst snd]. split; [|split; [|split]; auto]. split; [apply reachx_call; auto|]. split; [apply (clash_same _ s); auto|].
    rewrite Ro. auto.
  Qed.

  Lemma flat_refiltered : forall t b s r0 fl0, reach calm t -> no_clash t s -> base r0 (froot s) fl0 (fun _ => True) s -> flattened b (filters s) ->
    exists s', refilter ord b t s = (s', Ok tt) /\ flat_ok (t, b, s') /\ uptodate t b s' /\ filters s' = filters s /\ froot s' = froot s.
  Proof.
    intros t b s r0 fl0 R N B F. pose proof (reach_reg _ R) as Rg.
    destruct (refilter_synced ord HO t b s r0 fl0 Rg) as (s' & E & Sy & Fi & Ro); auto.
    { apply no_clash_apt; auto. }
    assert (A : apt (froot s') t) by (rewrite Ro; apply no_clash_apt; auto).
    assert (Sy' : synced b (filters s') (froot s') (any_flat b (filters s')) t s') by (rewrite Ro, Fi; auto).
    exists s'. split; auto. split; [|split; [apply synced_uptodate; auto|auto]].
    split; [|split; [apply (clash_same _ s); auto|]].
    - apply reach_reachx. eapply reach_mono; [|apply R]. intros t0 o0 H. destruct H as [H _]. destruct o0; simpl in *; tauto.
    - assert (F' : flattened b (filters s')) by (rewrite Fi; auto). pose proof F' as F2. apply flat_spec in F2.
      pose proof (synced_flat t b s' A Sy' F') as SF.
      pose proof (synced_sound t b s' Sy') as So. destruct Sy' as (r & HR & I & _). pose proof (in_base _ _ _ _ _ _ _ I) as B'. rewrite F2 in B'.
      constructor.
      + apply (base_rank r); auto.
        * intros x p Hp. assert (Hx : In x (view_all_nodes s')).
          { apply all_nodes_In; [apply So|]. split; [eapply pars_disp; eauto|]. intros ->. rewrite (so_top _ So) in Hp. destruct Hp. }
          destruct (SF x Hx) as (Q & _). rewrite Q in Hp. destruct Hp as [<-|[]]. rewrite two_root, two_other; auto.
          apply all_nodes_In in Hx; [apply Hx|apply So].
      + intros x Hx Nx. apply SF. apply all_nodes_In; [apply So|auto].
      + intros x [].
  Qed.

  Lemma loose_flat_ok : forall x, loose_flat ord x -> flat_ok x.
  Proof.
    intros x H. induction H as [t b name names R N F|t b s o H IH Fo No|t b s b' names H IH|t b s H IH R F].
    - destruct (flat_refiltered t b (set_filters names (new_ft name)) (fun _ => 0) false) as (s' & E & P & _); auto.
      { apply base_filters. apply (new_ft_base name (fun _ => 0) false). }
      unfold opened. rewrite E. auto.
    - apply flat_tree; auto.
    - destruct IH as (R & N & L). split; auto. split; auto. destruct L as [L1 L2 L3]. constructor; auto. apply base_filters. auto.
    - destruct IH as (_ & N & L). destruct (flat_refiltered t b s _ _ R N (l_base _ _ _ _ L) F) as (s' & E & P & _).
      cbn [view_call]. rewrite E. auto.
  Qed.

  Theorem flat_no_error : forall t b s o, loose_flat ord (t, b, s) -> any_fresh t o -> no_clashing_add s o ->
    snd (view_call ord (VTree o) (t, b, s)) = Ok tt.
  Proof. intros t b s o H Fo No. apply loose_flat_ok in H. apply flat_tree; auto. Qed.

  Theorem flat_consistent : forall t b s, loose_flat ord (t, b, s) ->
    sound s /\ mirrored s /\ forall n, In n (view_all_nodes s) -> pars s n = [froot s].
  Proof.
    intros t b s H. apply loose_flat_ok in H. destruct H as (R & N & L). pose proof (l_base _ _ _ _ L) as B. pose proof (b_g _ _ _ _ _ B) as G.
    split; [eapply base_sound; eauto|]. split.
    - destruct (gb_knows _ _ _ _ _ G) as (cs & (K & _) & K1). exists cs. auto.
    - intros n Hn. apply all_nodes_In in Hn; [|apply B]. apply (l_pars _ _ _ _ L); apply Hn.
  Qed.

  Theorem flat_announced : forall t b s o l e, loose_flat ord (t, b, s) -> any_fresh t o -> no_clashing_add s o ->
    events o t = l ++ [e] -> ev_id e <> froot s -> ev_id e <> "" ->
    (In (ev_id e) (view_all_nodes (snd (fst (view_call ord (VTree o) (t, b, s))))) <-> In (ev_id e) (satisfying b (ev_tree e) (filters s))).
  Proof.
    intros t b s o l e H Fo No E Hn H0. apply loose_flat_ok in H. destruct (flat_tree t b s o H Fo No) as (P & _ & Ro & D).
    specialize (D l e E Hn).
    assert (S1 : should_display b (ev_tree e) (filters s) (ev_id e) = true <-> In (ev_id e) (satisfying b (ev_tree e) (filters s))).
    { rewrite satisfying_In. unfold should_display. destruct (has_node (ev_tree e) (ev_id e)) eqn:Eh.
      - assert (Tn : truthy (ev_id e) = true) by (destruct (ev_id e); auto; contradiction). rewrite Tn. simpl. rewrite passes_sat; tauto.
      - rewrite andb_false_r. split; [discriminate|intros []; discriminate]. }
    rewrite <- S1, <- D. destruct (fst (view_call ord (VTree o) (t, b, s))) as [[t' b'] s']. cbn [snd] in *. destruct P as (_ & _ & L').
    rewrite all_nodes_In by apply (l_base _ _ _ _ L'). rewrite Ro. tauto.
  Qed.

  Theorem flat_refilter : forall t b s, loose_flat ord (t, b, s) -> reach calm t -> flattened b (filters s) ->
    exists s', view_call ord VRefilter (t, b, s) = (t, b, s', Ok tt) /\ uptodate t b s'.
  Proof.
    intros t b s H R F. apply loose_flat_ok in H. destruct H as (_ & N & L).
    destruct (flat_refiltered t b s _ _ R N (l_base _ _ _ _ L) F) as (s' & E & P & U & _). exists s'. cbn [view_call]. rewrite E. auto.
  Qed.
End FlatHist.
