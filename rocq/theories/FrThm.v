(** Views with filters that raise: histories of flat views. *)
From Coq Require Import Permutation.
From Verif Require Import Base BaseFacts MainTree Spec MainFacts MainInv MainLaws MainEvents MainReg MainTight Filters FTree FRaise SpecApi ApiFacts CountFacts SpecView SpecViewing SpecLoose SpecRaise
  FtBase FtWalk FtEdge FtUp FtFront FtDown FtNoop FtDel FtSync FtTree FtOps FtState FtView FtThm FtQuiet FtStep FtFlat FtFlatThm FtStill FrFlat FrSame.
Open Scope f_scope.

Lemma asked_true : forall b bad t names n, asked b bad t names n = Ok true -> passes b t names n = true.
Proof.
  intros b bad t names n. induction names as [|m l IH]; cbn [asked passes]; auto. destruct (get_filter b m); [|discriminate].
  destruct (bad m t n); [discriminate|]. destruct (filt_displayed t f n); auto. discriminate.
Qed.
Lemma asked_false : forall b bad t names n, asked b bad t names n = Ok false -> passes b t names n = false.
Proof.
  intros b bad t names n. induction names as [|m l IH]; cbn [asked passes]; [discriminate|]. destruct (get_filter b m); auto.
  destruct (bad m t n); [discriminate|]. destruct (filt_displayed t f n); auto.
Qed.
Lemma asked_raised : forall b bad t names n e, asked b bad t names n = Err e ->
  exists m, In m names /\ get_filter b m <> None /\ bad m t n = Some e.
Proof.
  intros b bad t names n e. induction names as [|m l IH]; cbn [asked]; [discriminate|]. destruct (get_filter b m) eqn:Eg; [|discriminate].
  destruct (bad m t n) eqn:Eb.
  - intros H. inv H. exists m. split; [left; auto|]. split; [congruence|auto].
  - destruct (filt_displayed t f n); [|discriminate]. intros H. destruct (IH H) as (m' & H1 & H2). exists m'. split; [right|]; auto.
Qed.
Lemma asked_ends : forall b bad t names n, asked b bad t names n <> Diverge.
Proof.
  intros b bad t names n. induction names as [|m l IH]; cbn [asked]; [discriminate|]. destruct (get_filter b m); [|discriminate].
  destruct (bad m t n); [discriminate|]. destruct (filt_displayed t f n); [auto|discriminate].
Qed.
Lemma evaluated_value : forall b bad t names n v, evaluated b bad t names n = Ok v -> should_display b t names n = v.
Proof.
  intros b bad t names n v. unfold evaluated, should_display. destruct (truthy n && has_node t n); [|intros H; inv H; auto].
  destruct v; intros H; [eapply asked_true|eapply asked_false]; eauto.
Qed.
Lemma evaluated_raised : forall b bad t names n e, evaluated b bad t names n = Err e -> raised b bad t names e.
Proof.
  intros b bad t names n e. unfold evaluated. destruct (truthy n && has_node t n) eqn:E; [|discriminate]. intros H.
  apply andb_true_iff in E. destruct (asked_raised _ _ _ _ _ _ H) as (m & H1 & H2 & H3). exists m, n. tauto.
Qed.
Lemma evaluated_ends : forall b bad t names n, evaluated b bad t names n <> Diverge.
Proof. intros. unfold evaluated. destruct (truthy n && has_node t n); [apply asked_ends|discriminate]. Qed.

Lemma loft_flat_root : forall root s, loft root s -> froot s = root.
Proof. intros root s L. apply (gb_root _ _ _ _ _ (b_g _ _ _ _ _ (o_base _ _ L))). Qed.

Section Raise.
  Variable ord : nat -> list id -> list id.
  Hypothesis HO : forall k l, Permutation (ord k l) l.

  Lemma x_event : forall t b bad s n, ok t -> no_clash t s -> loft (froot s) s ->
    match r_modify ord b bad t n s with
    | (s', Ok _) => loft (froot s) s' /\ filters s' = filters s /\ (n <> froot s -> is_displayed s' n = should_display b t (filters s) n)
    | (s', Err e) => loft (froot s) s' /\ filters s' = filters s /\ raised b bad t (filters s) e
    | (_, Diverge) => False
    end.
  Proof.
    intros t b bad s n R N L. destruct (parents_rank_ok t R) as (rk & H1 & H2). unfold r_modify.
    pose proof (x_update ord t (evaluated b bad t (filters s)) (froot s) rk (fun _ => I) HO) as W.
    assert (HD : forall x, evaluated b bad t (filters s) x = Ok true -> x <> froot s /\ fine x) by (intros x Hx; apply (shown_fine b t s); auto; eapply evaluated_value; eauto).
    specialize (W HD (evaluated_ends b bad t (filters s)) H1 _ (fun x e H => ex_intro _ x H) (update_budget t s) n Both s).
    assert (Hf : rk n + 1 < update_budget t s) by (unfold update_budget; specialize (H2 n); lia).
    specialize (W Hf L). unfold fwx in W. destruct (r_update _ _ _ _ _ _ _) as [s' [[]|e|]]; auto.
    - destruct W as (L' & K & V). split; auto. split; [apply K|]. intros Hn. specialize (V Hn). apply evaluated_value in V. auto.
    - destruct W as (L' & K & x & V). split; auto. split; [apply K|]. eapply evaluated_raised; eauto.
  Qed.

  Lemma x_feed : forall b bad es last s, Forall (fun e => ok (ev_tree e) /\ no_clash (ev_tree e) s) es -> loft (froot s) s ->
    match r_feed ord b bad es last s with
    | (t', s', Ok _) => t' = last /\ loft (froot s) s' /\ filters s' = filters s /\
        forall l e, es = l ++ [e] -> ev_id e <> froot s -> is_displayed s' (ev_id e) = should_display b (ev_tree e) (filters s) (ev_id e)
    | (t', s', Err e) => loft (froot s) s' /\ filters s' = filters s /\ exists ev, In ev es /\ t' = ev_tree ev /\ raised b bad t' (filters s) e
    | (_, _, Diverge) => False
    end.
  Proof.
    intros b bad es. induction es as [|e es IH]; intros last s F L; cbn [r_feed].
    - spl; auto. intros l e E. destruct l; discriminate.
    - inversion F as [|? ? [R N] F']. subst. pose proof (x_event (ev_tree e) b bad s (ev_id e) R N L) as W.
      destruct (r_modify ord b bad (ev_tree e) (ev_id e) s) as [s1 [[]|x|]]; [|destruct W as (A & B & C); spl; auto; exists e; split; [left; auto|auto]|auto].
      destruct W as (L1 & F1 & D1). pose proof (loft_flat_root _ _ L1) as Ro.
      specialize (IH last s1). rewrite Ro in IH.
      assert (Fe : Forall (fun e => ok (ev_tree e) /\ no_clash (ev_tree e) s1) es).
      { eapply Forall_impl; [|apply F']. intros e0 [A B]. split; auto. apply (clash_same _ s); auto. }
      specialize (IH Fe L1). destruct (r_feed ord b bad es last s1) as [[t' s'] [[]|x|]] eqn:ER; auto.
      + destruct IH as (A & B & C & E). spl; auto; [congruence|]. intros l e0 El Hn. destruct l as [|e1 l].
        * inv El. cbn [r_feed] in ER. inv ER. auto.
        * inv El. rewrite <- F1. eapply E; eauto.
      + destruct IH as (A & B & ev & C & E & G). spl; auto; [congruence|]. exists ev. split; [right; auto|]. split; auto. rewrite <- F1. auto.
  Qed.

  Definition flat_x (x : viewed) : Prop := let '(t, b, s) := x in reachx any_fresh t /\ no_clash t s /\ loft (froot s) s.

  Lemma loft_filters : forall root names s, loft root s -> loft root (set_filters names s).
  Proof. intros root names s [L1 L2]. constructor; auto. apply base_filters. auto. Qed.

  Lemma x_tree : forall t b bad s o t' s' r, flat_x (t, b, s) -> any_fresh t o -> no_clashing_add s o -> r_call ord b bad o t s = (t', s', r) ->
    flat_x (t', b, s') /\ froot s' = froot s /\ filters s' = filters s /\
    match r with
    | Ok _ => t' = after o t /\ forall l e, events o t = l ++ [e] -> ev_id e <> froot s -> is_displayed s' (ev_id e) = should_display b (ev_tree e) (filters s) (ev_id e)
    | Err e => exists ev, In ev (events o t) /\ t' = ev_tree ev /\ raised b bad t' (filters s) e
    | Diverge => False
    end.
  Proof.
    intros t b bad s o t' s' r (R & N & L) Fo No E. destruct (clash_step t o s R Fo N No) as [N' Ne].
    assert (Fe : Forall (fun e => reachx any_fresh (ev_tree e) /\ no_clash (ev_tree e) s) (events o t)).
    { rewrite Forall_forall in *. intros e He. split; auto. eapply reachx_abort; eauto. }
    assert (Fo' : Forall (fun e => ok (ev_tree e) /\ no_clash (ev_tree e) s) (events o t)).
    { eapply Forall_impl; [|apply Fe]. intros e [A B]. split; auto. apply (g_ok _ _ _ (reachx_good _ A)). }
    pose proof (x_feed b bad (events o t) (after o t) s Fo' L) as W. unfold r_call in E. rewrite E in W. destruct r as [[]|e|]; [| |contradiction].
    - destruct W as (-> & L' & F' & D'). pose proof (loft_flat_root _ _ L') as Ro. split; [|auto]. split; [apply reachx_call; auto|]. split; [apply (clash_same _ s); auto|].
      rewrite Ro. auto.
    - destruct W as (L' & F' & ev & A & B & C). pose proof (loft_flat_root _ _ L') as Ro. rewrite Forall_forall in Fe. destruct (Fe ev A) as [H1 H2].
      split; [|split; [auto|split; [auto|exists ev; auto]]]. split; [subst; auto|]. split; [subst; apply (clash_same _ s); auto|]. rewrite Ro. auto.
  Qed.

  Lemma x_refilter : forall t b bad s, reach calm t -> no_clash t s -> loft (froot s) s -> flattened b (filters s) ->
    match r_refilter ord b bad t s with
    | (s', Ok _) => loft (froot s) s' /\ filters s' = filters s
    | (s', Err e) => loft (froot s) s' /\ filters s' = filters s /\ raised b bad t (filters s) e
    | (_, Diverge) => False
    end.
  Proof.
    intros t b bad s R N L Fl. pose proof (reach_reg _ R) as Rg. pose proof (reg_vreg t Rg) as V. pose proof (vreg_ok _ V) as K.
    destruct (bounded_rank t K) as (rk & HRk & HBk). set (F := evaluated b bad t (filters s)). set (root := froot s).
    unfold r_refilter. fold F. apply flat_spec in Fl. rewrite Fl. set (s1 := set_flat true s).
    assert (Fs : flat s = true) by apply (b_flat _ _ _ _ _ (o_base _ _ L)).
    assert (S1 : s1 = s) by (unfold s1; destruct s; simpl in *; subst; auto). rewrite S1. clear s1 S1.
    change (fwx (r_rebuild ord t F) (fun _ s' => loft root s' /\ filters s' = filters s) (fun e s' => loft root s' /\ filters s' = filters s /\ raised b bad t (filters s) e) s).
    unfold r_rebuild. apply fwx_bind. cbn [fget fwx].
    pose proof (clear_all (two root) root (fun _ => I) true s (o_base _ _ L)) as C.
    assert (AS : forall A B C (m1 : FM A) (m2 : A -> FM B) (m3 : FM C) (Q : C -> ft -> Prop) R s, fwx ((x <- m1 ;; m2 x) ;; m3) Q R s -> fwx (x <- m1 ;; m2 x ;; m3) Q R s).
    { intros A B C0 m1 m2 m3 Q R0 z. unfold fwx, fbind. destruct (m1 z) as [z1 [x| |]]; auto. }
    apply AS. apply fwx_bind. apply fwp_fwx. eapply fwp_mono; [apply C|]. intros ? s2 [Lk Kn]. apply fwx_bind. unfold fwx at 1. cbn [fmodify].
    pose proof (b_g _ _ _ _ _ (o_base _ _ L)) as G. rewrite (lk_root _ _ Lk). fold root.
    set (s3 := set_fnodes [(root, mkF [] [])] s2).
    assert (Kd : forall x, kids s3 x = []) by (intros x; unfold kids, s3; simpl; deq x root; auto).
    assert (Pd : forall x, pars s3 x = []) by (intros x; unfold pars, s3; simpl; deq x root; auto).
    assert (Dd : forall x, is_displayed s3 x = String.eqb x root) by (intros x; unfold is_displayed, dmem, s3; simpl; deq x root; auto).
    assert (L3 : loft root s3).
    { constructor.
      - constructor.
        * constructor.
          -- unfold s3. simpl. rewrite (lk_root _ _ Lk). auto.
          -- rewrite Dd. apply eqb_refl.
          -- apply Pd.
          -- auto.
          -- intros p c. rewrite Kd. intros [].
          -- intros x. rewrite Pd. constructor.
          -- intros x p. rewrite Pd. intros [].
          -- intros x p _. rewrite Pd, Kd. simpl. tauto.
          -- eapply knows_sent; [|eapply knows_iff; [|apply Kn]]; auto. intros l. unfold paths. split; [tauto|].
             intros [H1 H2]. destruct l as [|x l]; [auto|]. destruct H2 as [H2 _]. rewrite Kd in H2. destruct H2.
          -- intros _ x p1 q1. rewrite Kd. intros [].
        * unfold s3. simpl. repeat constructor. simpl. tauto.
        * unfold s3. simpl. rewrite (lk_flat _ _ Lk). auto.
        * intros x. rewrite Kd. constructor.
      - intros x _ _. rewrite Pd. auto. }
    assert (F3 : filters s3 = filters s) by (unfold s3; simpl; apply Lk).
    set (I := fun z : list id * ft => loft root (snd z) /\ filters (snd z) = filters s /\ forall x, In x (fst z) -> has_node t x = true).
    assert (HD : forall x, F x = Ok true -> x <> root /\ @fine any_ear x) by (intros x Hx; apply (shown_fine b t s); auto; eapply evaluated_value; eauto).
    assert (HRp : forall x p, In p (get_parents t x) -> rk p < rk x).
    { intros x p Hp. rewrite (get_parents_raw t x K) in Hp. destruct (parents_enabled t x); [auto|destruct Hp]. }
    set (n0 := length (nodes t)) in *. set (g := fun x => n0 - rk x). set (mu := fun z : list id * ft => sum (fun y => (S n0) ^ (g y)) (fst z)).
    assert (ST : forall q z, I (q, z) -> match q with
      | [] => r_step ord t F (q, z) = Stop (z, Ok tt)
      | n :: rest => (exists z2, r_step ord t F (q, z) = Go (rest ++ get_children t n, z2) /\ I (rest ++ get_children t n, z2)) \/
                     exists z2 e, r_step ord t F (q, z) = Stop (z2, Err e) /\ loft root z2 /\ filters z2 = filters s /\ raised b bad t (filters s) e
      end).
    { intros [|n rest] z (Lz & Fz & Hz); [reflexivity|]. cbn [fst snd] in *. unfold r_step.
      assert (Hn : has_node t n = true) by (apply Hz; left; auto).
      pose proof (x_update ord t F root rk (fun _ => Logic.I) HO HD (evaluated_ends b bad t (filters s)) HRp _ (fun x e H => ex_intro _ x H) (update_budget t z) n Both z) as W.
      assert (Hf : rk n + 1 < update_budget t z) by (unfold update_budget; specialize (HBk n); fold n0; lia).
      specialize (W Hf Lz). unfold fwx in W. destruct (r_update ord t F (update_budget t z) n Both z) as [z2 [[]|e|]]; [| |contradiction].
      - left. unfold has_node, dmem in Hn. destruct (dget n (nodes t)) as [nd|] eqn:En; [|discriminate]. exists z2. split; auto.
        destruct W as (L2 & K2 & _). split; auto. cbn [fst snd]. split; [rewrite (kp_filters _ _ _ _ K2); auto|].
        intros x Hx. apply in_app_iff in Hx. destruct Hx as [Hx|Hx]; [apply Hz; right; auto|].
        rewrite get_children_reg in Hx by apply Rg. apply filter_In in Hx. tauto.
      - right. destruct W as (L2 & K2 & x & Hx). exists z2, e. split; auto. split; auto. split; [rewrite (kp_filters _ _ _ _ K2); auto|]. eapply evaluated_raised; eauto. }
    assert (CH : forall n, sum (fun y => S n0 ^ g y) (get_children t n) < S n0 ^ g n).
    { intros n. apply weight_dec.
      - rewrite get_children_reg by apply Rg. unfold n0. rewrite <- dkeys_length. apply NoDup_incl_length.
        + apply filter_NoDup. apply (ok_ndc _ K).
        + intros y Hy. apply filter_In in Hy. apply has_node_In. tauto.
      - intros y Hy. rewrite get_children_reg in Hy by apply Rg. apply filter_In in Hy. destruct Hy as [Hy Hl].
        apply (reg_sym t n y Rg) in Hy; auto. apply HRk in Hy. pose proof (HBk y). unfold g. lia. }
    destruct (loop_total (r_step ord t F) I mu) with (k := walk_budget n0) (s := (root_children t, s3)) as ([q s'] & res & E & Is & Es).
    - intros [q z] z' W E. specialize (ST q z W). destruct q as [|n rest]; [rewrite ST in E; discriminate|].
      destruct ST as [(z2 & E2 & W2)|(z2 & e & E2 & _)]; rewrite E2 in E; [|discriminate]. inv E. split; auto. unfold mu. simpl. rewrite sum_app. specialize (CH n). lia.
    - split; [auto|split; [auto|]]. cbn [fst]. rewrite (root_children_reg _ Rg). apply (proj1 (proj2 (r_root _ Rg))).
    - unfold mu. cbn [fst]. eapply Nat.le_lt_trans; [|apply (weight_bound' n0 (S n0)); auto].
      assert (HL : length (root_children t) <= n0).
      { rewrite (root_children_reg _ Rg). unfold n0. rewrite <- dkeys_length. apply NoDup_incl_length; [apply (r_root _ Rg)|].
        intros y Hy. apply has_node_In. apply (proj1 (proj2 (r_root _ Rg))). auto. }
      pose proof (sum_le (fun y => S n0 ^ g y) (root_children t) (S n0 ^ n0)) as SL.
      assert (SL' : sum (fun y => S n0 ^ g y) (root_children t) <= length (root_children t) * S n0 ^ n0).
      { apply SL. intros y _. apply Nat.pow_le_mono_r; [lia|unfold g; lia]. }
      eapply Nat.le_trans; [apply SL'|]. rewrite Nat.pow_succ_r'. nia.
    - unfold fwx. rewrite E. specialize (ST q s' Is). destruct q as [|n rest].
      + rewrite ST in Es. inv Es. destruct Is as (A & B & _). auto.
      + destruct ST as [(z2 & E2 & _)|(z2 & e & E2 & W)]; rewrite E2 in Es; [discriminate|]. inv Es. auto.
  Qed.

  Lemma level_loft : forall root s, level root true [] s -> loft root s.
  Proof. intros root s [L1 L2 _]. constructor; auto. intros x H1 H2. rewrite (L2 x H1 H2). auto. Qed.

  Lemma troubled_x : forall x, troubled_flat ord x -> flat_x x.
  Proof.
    intros x H. induction H as [t b name names R N F|t b s bad o t' s' r H IH Fo No E|t b s b' names H IH|t b s bad s' r H IH R F E].
    - assert (W : flat_ok (opened ord t b name names)) by (apply (loose_flat_ok ord HO); constructor; auto).
      destruct (opened ord t b name names) as [[t' b'] s']. destruct W as (A & B & C). split; auto. split; auto. apply level_loft. auto.
    - eapply x_tree; eauto.
    - destruct IH as (R & N & L). split; auto. split; auto. apply loft_filters. auto.
    - destruct IH as (Rx & N & L). pose proof (x_refilter t b bad s R N L F) as W. rewrite E in W. assert (L' : loft (froot s) s') by (destruct r; tauto).
      pose proof (loft_flat_root _ _ L') as Ro. split; auto. split; [apply (clash_same _ s); auto|]. rewrite Ro. auto.
  Qed.

  Theorem x_consistent : forall t b s, troubled_flat ord (t, b, s) ->
    sound s /\ mirrored s /\ forall n, In n (view_all_nodes s) -> pars s n = [] \/ pars s n = [froot s].
  Proof.
    intros t b s H. apply troubled_x in H. destruct H as (R & N & L). pose proof (o_base _ _ L) as B. pose proof (b_g _ _ _ _ _ B) as G.
    split; [eapply base_sound; eauto|]. split.
    - destruct (gb_knows _ _ _ _ _ G) as (cs & (K & _) & K1). exists cs. auto.
    - intros n Hn. apply all_nodes_In in Hn; [|apply B]. apply (o_pars _ _ L); apply Hn.
  Qed.

  Theorem x_errors : forall t b s bad o, troubled_flat ord (t, b, s) -> any_fresh t o -> no_clashing_add s o ->
    (exists s', r_call ord b bad o t s = (after o t, s', Ok tt)) \/
    exists s' ev e, r_call ord b bad o t s = (ev_tree ev, s', Err e) /\ In ev (events o t) /\ raised b bad (ev_tree ev) (filters s) e.
  Proof.
    intros t b s bad o H Fo No. apply troubled_x in H. destruct (r_call ord b bad o t s) as [[t' s'] r] eqn:E.
    destruct (x_tree t b bad s o t' s' r H Fo No E) as (_ & _ & _ & W). destruct r as [[]|e|]; [| |contradiction].
    - left. exists s'. destruct W as [-> _]. auto.
    - right. destruct W as (ev & A & -> & C). exists s', ev, e. auto.
  Qed.

  Theorem x_refilter_errors : forall t b s bad, troubled_flat ord (t, b, s) -> reach calm t -> flattened b (filters s) ->
    exists s', r_refilter ord b bad t s = (s', Ok tt) \/ exists e, r_refilter ord b bad t s = (s', Err e) /\ raised b bad t (filters s) e.
  Proof.
    intros t b s bad H R F. apply troubled_x in H. destruct H as (_ & N & L). pose proof (x_refilter t b bad s R N L F) as W.
    destruct (r_refilter ord b bad t s) as [s' [[]|e|]]; exists s'; [auto| |contradiction]. right. exists e. tauto.
  Qed.

  Lemma refilter_silent : forall t b bad s s', r_refilter ord b bad t s = (s', Ok tt) -> refilter ord b t s = (s', Ok tt).
  Proof. intros t b bad s s'. unfold r_refilter, refilter. apply rebuild_silent. apply evaluated_value. Qed.

  Theorem x_recovers : forall t b s bad, troubled_flat ord (t, b, s) -> reach calm t -> flattened b (filters s) ->
    (untroubled bad t (filters s) -> snd (r_refilter ord b bad t s) = Ok tt) /\
    forall s', r_refilter ord b bad t s = (s', Ok tt) -> uptodate t b s'.
  Proof.
    intros t b s bad H R F. apply troubled_x in H. destruct H as (_ & N & L).
    destruct (flat_refiltered ord HO t b s _ _ R N (o_base _ _ L) F) as (s1 & E & _ & U & _). split.
    - intros Q. rewrite refilter_same; auto. rewrite E. auto.
    - intros s' E'. apply refilter_silent in E'. rewrite E in E'. inv E'. auto.
  Qed.

  Theorem x_announced : forall t b s bad o s' l e, troubled_flat ord (t, b, s) -> any_fresh t o -> no_clashing_add s o ->
    r_call ord b bad o t s = (after o t, s', Ok tt) -> events o t = l ++ [e] -> ev_id e <> froot s -> ev_id e <> "" ->
    (In (ev_id e) (view_all_nodes s') <-> In (ev_id e) (satisfying b (ev_tree e) (filters s))).
  Proof.
    intros t b s bad o s' l e H Fo No E El Hn H0. apply troubled_x in H. destruct (x_tree t b bad s o _ _ _ H Fo No E) as (P & Ro & _ & _ & D).
    specialize (D l e El Hn).
    assert (S1 : should_display b (ev_tree e) (filters s) (ev_id e) = true <-> In (ev_id e) (satisfying b (ev_tree e) (filters s))).
    { rewrite satisfying_In. unfold should_display. destruct (has_node (ev_tree e) (ev_id e)) eqn:Eh.
      - assert (Tn : truthy (ev_id e) = true) by (destruct (ev_id e); auto; contradiction). rewrite Tn. simpl. rewrite passes_sat; tauto.
      - rewrite andb_false_r. split; [discriminate|intros []; discriminate]. }
    rewrite <- S1, <- D. destruct P as (_ & _ & L'). rewrite all_nodes_In by apply (o_base _ _ L'). rewrite Ro. tauto.
  Qed.

  (** Without any assumption. *)
  Lemma modify_silent : forall b bad t n s s' u, r_modify ord b bad t n s = (s', Ok u) -> external_modify ord b t n s = (s', Ok u).
  Proof. intros b bad t n s s' u. unfold r_modify, external_modify, update. apply update_silent. apply evaluated_value. Qed.
  Lemma feed_silent : forall b bad es last t' s s', r_feed ord b bad es last s = (t', s', Ok tt) -> t' = last /\ feed ord b es s = (s', Ok tt).
  Proof.
    intros b bad es last t'. induction es as [|e es IH]; intros s s'; cbn [r_feed]; [intros H; inv H; auto|].
    destruct (r_modify ord b bad (ev_tree e) (ev_id e) s) as [s1 [[]|x|]] eqn:E; try discriminate. intros H. apply IH in H.
    destruct H as [-> H]. split; auto. unfold feed. cbn [ffor]. unfold fbind at 1. rewrite (modify_silent _ _ _ _ _ _ _ E). auto.
  Qed.
  Theorem x_silent : forall t b s bad o t' s', r_call ord b bad o t s = (t', s', Ok tt) -> view_call ord (VTree o) (t, b, s) = (t', b, s', Ok tt).
  Proof. intros t b s bad o t' s' H. apply feed_silent in H. destruct H as [-> H]. cbn [view_call]. rewrite H. auto. Qed.

  Lemma feed_same : forall b bad es last s, Forall (fun e => untroubled bad (ev_tree e) (filters s)) es ->
    r_feed ord b bad es last s = (let '(s', r) := feed ord b es s in (match r with Ok _ => last | _ => fst (fst (r_feed ord b bad es last s)) end, s', r)).
  Proof.
    intros b bad es last. induction es as [|e es IH]; intros s Fe; cbn [r_feed]; auto. inversion Fe as [|? ? U Fe']. subst.
    unfold feed. cbn [ffor]. unfold fbind. rewrite (modify_same ord b bad (ev_tree e) (ev_id e) s U).
    pose proof (still_external ord b (ev_tree e) (ev_id e) s) as St.
    destruct (external_modify ord b (ev_tree e) (ev_id e) s) as [s1 [[]|x|]]; auto.
    apply (IH s1). assert (Ef : filters s1 = filters s) by (apply St). rewrite Ef. auto.
  Qed.

  Theorem x_untroubled : forall t b s bad o, Forall (fun e => untroubled bad (ev_tree e) (filters s)) (events o t) ->
    snd (fst (r_call ord b bad o t s)) = snd (fst (view_call ord (VTree o) (t, b, s))) /\
    snd (r_call ord b bad o t s) = snd (view_call ord (VTree o) (t, b, s)).
  Proof.
    intros t b s bad o H. unfold r_call. rewrite feed_same by auto. cbn [view_call]. destruct (feed ord b (events o t) s) as [s' r]. auto.
  Qed.

  (** A filter that raises for the node itself. *)
  Theorem x_first : forall t b s bad o ev rest e, events o t = ev :: rest -> ev_id ev <> froot s ->
    evaluated b bad (ev_tree ev) (filters s) (ev_id ev) = Err e -> r_call ord b bad o t s = (ev_tree ev, s, Err e).
  Proof.
    intros t b s bad o ev rest e E Hn He. unfold r_call. rewrite E. cbn [r_feed]. unfold r_modify.
    assert (B : exists k, update_budget (ev_tree ev) s = S k) by (unfold update_budget; eexists; rewrite Nat.add_comm; reflexivity).
    destruct B as [k ->]. cbn [r_update]. unfold r_body, fbind, fget. rewrite (proj2 (eqb_neq _ _) Hn). unfold evaluate. rewrite He. auto.
  Qed.
End Raise.
