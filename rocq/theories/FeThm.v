(** Views with clients that raise: what the clients get, and histories of flat views. *)
From Coq Require Import Permutation.
From Verif Require Import Base BaseFacts MainTree Spec MainFacts MainInv MainLaws MainEvents MainReg MainTight Filters FTree FRaise FEmit SpecApi ApiFacts CountFacts SpecView SpecViewing SpecLoose SpecRaise SpecEmit
  FtBase FtWalk FtEdge FtUp FtFront FtDown FtNoop FtDel FtSync FtTree FtOps FtState FtView FtThm FtQuiet FtStep FtFlat FtFlatThm FtStill FrFlat FrSame FrThm FeSame FeFlat.
Open Scope f_scope.

(** *** All views *)
Lemma cut_none : forall bad l k, cut bad k l = None <-> borne bad k l.
Proof.
  intros bad l. induction l as [|x l IH]; intros k; cbn [cut].
  - split; auto. intros _ l1 x l2 E. destruct l1; discriminate.
  - destruct (bad k x) eqn:E.
    + split; [discriminate|]. intros H. specialize (H [] x l eq_refl). cbn [length] in H. rewrite Nat.add_0_r in H. congruence.
    + specialize (IH (S k)). destruct (cut bad (S k) l) as [[l1 e]|].
      * split; [discriminate|]. intros H. assert (C : Some (l1, e) = None) by (apply IH; intros l2 y l3 ->; specialize (H (x :: l2) y l3 eq_refl); cbn [length] in H; rewrite Nat.add_succ_r in H; auto). discriminate.
      * split; auto. intros _ [|y l1] z l2 El; inv El; cbn [length]; [rewrite Nat.add_0_r; auto|]. rewrite Nat.add_succ_r. apply (proj1 IH eq_refl l1 z l2). auto.
Qed.
Lemma cut_some : forall bad l k l1 e, cut bad k l = Some (l1, e) -> (exists l2, l = l1 ++ l2) /\ burst bad k l1 e.
Proof.
  intros bad l. induction l as [|x l IH]; intros k l1 e; cbn [cut]; [discriminate|]. destruct (bad k x) eqn:E.
  - intros H. inv H. split; [exists l; auto|]. exists [], x. split; auto. split; [|cbn; rewrite Nat.add_0_r; auto]. intros [|? ?] ? ? ?; discriminate.
  - destruct (cut bad (S k) l) as [[l2 e2]|] eqn:C; [|discriminate]. intros H. inv H. destruct (IH _ _ _ C) as ((l3 & ->) & l4 & y & -> & B & Hy).
    split; [exists l3; auto|]. exists (x :: l4), y. split; auto. cbn [length]. rewrite Nat.add_succ_r. split; auto.
    intros [|z l1] w l5 El; inv El; cbn [length]; [rewrite Nat.add_0_r; auto|]. rewrite Nat.add_succ_r. apply (B l1 w l5). auto.
Qed.
Lemma cut_at : forall bad l1 x l2 k e, borne bad k l1 -> bad (k + length l1) x = Some e -> cut bad k (l1 ++ x :: l2) = Some (l1 ++ [x], e).
Proof. intros bad l1 x l2 k e B E. rewrite cut_app. rewrite (proj2 (cut_none _ _ _) B). cbn [cut]. rewrite E. auto. Qed.
Lemma news_of : forall s s' l, sent s' = sent s ++ l -> news s s' = l.
Proof. intros s s' l H. unfold news. rewrite H. rewrite skipn_app, skipn_all, Nat.sub_diag. auto. Qed.

Lemma shadow_news : forall bad A (m m' : FM A), shadow bad m m' -> forall s,
  (borne bad (length (sent s)) (news s (fst (m' s))) -> m s = m' s) /\
  forall l x l2 e, news s (fst (m' s)) = l ++ x :: l2 -> borne bad (length (sent s)) l -> bad (length (sent s) + length l) x = Some e ->
    exists s1, m s = (s1, Err e) /\ news s s1 = l ++ [x].
Proof.
  intros bad A m m' H s. destruct (H s) as (l & E & C). pose proof (news_of _ _ _ E) as N. rewrite N. split.
  - intros B. apply cut_none in B. rewrite B in C. auto.
  - intros l1 x l2 e -> B Hx. rewrite (cut_at _ _ _ _ _ _ B Hx) in C. destruct C as (s1 & E1 & N1). exists s1. split; auto. apply news_of. auto.
Qed.

Theorem e_same : forall bad ord b o t s, borne bad (length (sent s)) (news s (snd (fst (view_call ord (VTree o) (t, b, s))))) ->
  snd (fst (e_call bad ord b o t s)) = snd (fst (view_call ord (VTree o) (t, b, s))) /\ snd (e_call bad ord b o t s) = snd (view_call ord (VTree o) (t, b, s)) /\
  (snd (e_call bad ord b o t s) = Ok tt -> fst (fst (e_call bad ord b o t s)) = after o t).
Proof.
  intros bad ord b o t s B. destruct (feed_as bad ord b (events o t) (after o t) s) as (t1 & E & Et). unfold e_call. rewrite E. cbn [fst snd].
  cbn [view_call] in *. destruct (shadow_news bad _ _ _ (shadow_feed bad ord b (events o t)) s) as [H _].
  destruct (feed ord b (events o t) s) as [s' r] eqn:F. cbn [fst snd] in *. rewrite (H B) in *. cbn [fst snd] in *. auto.
Qed.
Theorem e_told : forall bad ord b o t s l x l2 e, news s (snd (fst (view_call ord (VTree o) (t, b, s)))) = l ++ x :: l2 ->
  borne bad (length (sent s)) l -> bad (length (sent s) + length l) x = Some e ->
  exists t1 s1, e_call bad ord b o t s = (t1, s1, Err e) /\ news s s1 = l ++ [x].
Proof.
  intros bad ord b o t s l x l2 e N B Hx. destruct (feed_as bad ord b (events o t) (after o t) s) as (t1 & E & _). unfold e_call. rewrite E.
  cbn [view_call] in *. destruct (shadow_news bad _ _ _ (shadow_feed bad ord b (events o t)) s) as [_ H].
  destruct (feed ord b (events o t) s) as [s' r] eqn:F. cbn [fst snd] in *. destruct (H l x l2 e N B Hx) as (s1 & -> & N1). exists t1, s1. auto.
Qed.
Theorem e_refresh : forall bad ord b t s,
  (borne bad (length (sent s)) (news s (fst (refilter ord b t s))) -> e_refilter bad ord b t s = refilter ord b t s) /\
  forall l x l2 e, news s (fst (refilter ord b t s)) = l ++ x :: l2 -> borne bad (length (sent s)) l -> bad (length (sent s) + length l) x = Some e ->
    exists s1, e_refilter bad ord b t s = (s1, Err e) /\ news s s1 = l ++ [x].
Proof. intros bad ord b t s. apply shadow_news. apply shadow_refilter. Qed.

(** Each outcome is one or the other. *)
Lemma e_cases : forall bad A (m m' : FM A), shadow bad m m' -> forall s, m s = m' s \/ exists s1 e, m s = (s1, Err e) /\ burst bad (length (sent s)) (news s s1) e.
Proof.
  intros bad A m m' H s. destruct (H s) as (l & E & C). destruct (cut bad (length (sent s)) l) as [[l1 e]|] eqn:Ec; [|auto].
  right. destruct C as (s1 & E1 & N1). exists s1, e. split; auto. rewrite (news_of _ _ _ N1). apply (cut_some _ _ _ _ _ Ec).
Qed.

Section Emit.
  Variable ord : nat -> list id -> list id.
  Hypothesis HO : forall k l, Permutation (ord k l) l.

  Lemma loft_runonce : forall root v s, loft root s -> loft root (set_runonce v s).
  Proof. intros root v s [[[] ? ? ?] L2]. constructor; auto. constructor; auto. constructor; auto. Qed.

  (** *** The calls without clients that raise, in such views *)
  Lemma plain_event : forall t b s n, ok t -> no_clash t s -> loft (froot s) s ->
    exists s', external_modify ord b t n s = (s', Ok tt) /\ loft (froot s) s' /\ filters s' = filters s /\
      (n <> froot s -> is_displayed s' n = should_display b t (filters s) n).
  Proof.
    intros t b s n R N L. pose proof (x_event ord HO t b (fun _ _ _ => None) s n R N L) as W.
    rewrite (modify_same ord b (fun _ _ _ => None) t n s) in W by (intros ? ? ? ?; auto).
    destruct (external_modify ord b t n s) as [s' [[]|e|]]; [exists s'; tauto| |contradiction].
    destruct W as (_ & _ & name & x & _ & _ & _ & H). discriminate.
  Qed.
  Lemma plain_feed : forall b es s, Forall (fun e => ok (ev_tree e) /\ no_clash (ev_tree e) s) es -> loft (froot s) s ->
    snd (feed ord b es s) = Ok tt.
  Proof.
    intros b es. induction es as [|e es IH]; intros s Fe L; auto. inversion Fe as [|? ? [R N] Fe']. subst.
    destruct (plain_event (ev_tree e) b s (ev_id e) R N L) as (s1 & E & L1 & F1 & _). unfold feed. cbn [ffor]. unfold fbind. rewrite E.
    pose proof (loft_flat_root _ _ L1) as Ro. apply IH; [|rewrite Ro; auto]. eapply Forall_impl; [|apply Fe']. intros e0 [A B]. split; auto. apply (clash_same _ s); auto.
  Qed.

  (** *** Events *)
  Lemma e_event : forall bad t b s n, gentle bad -> ok t -> no_clash t s -> loft (froot s) s ->
    match e_modify bad ord b t n s with
    | (s', Ok _) => loft (froot s) s' /\ filters s' = filters s
    | (s', Err e) => loft (froot s) s' /\ filters s' = filters s
    | (_, Diverge) => False
    end.
  Proof.
    intros bad t b s n [Gd Gr] R N L. destruct (parents_rank_ok t R) as (rk & H1 & H2). unfold e_modify.
    assert (HD : forall x, shown b t s x = true -> x <> froot s /\ fine x) by (intros x Hx; apply (shown_fine b t s); auto).
    assert (Hf : rk n + 1 < update_budget t s) by (unfold update_budget; specialize (H2 n); lia).
    pose proof (e_updated bad ord t (shown b t s) (froot s) rk (fun _ => I) HO HD H1 Gd Gr (update_budget t s) n Both s Hf L) as W.
    unfold fwx in W. destruct (e_update _ _ _ _ _ _ _ _) as [s' [[]|e|]]; [|destruct W as (L' & K & _)|contradiction].
    - destruct W as (L' & K & _). split; auto. apply K.
    - split; auto. apply K.
  Qed.
  Lemma e_feeds : forall bad b es last s, gentle bad -> Forall (fun e => ok (ev_tree e) /\ no_clash (ev_tree e) s) es -> loft (froot s) s ->
    let '(t', s', r) := e_feed bad ord b es last s in loft (froot s) s' /\ filters s' = filters s /\
    (t' = last \/ exists ev, In ev es /\ t' = ev_tree ev) /\ ((r = Ok tt /\ t' = last) \/ exists ev, In ev es /\ t' = ev_tree ev).
  Proof.
    intros bad b es. induction es as [|e es IH]; intros last s G Fe L; cbn [e_feed]; [spl; auto|].
    inversion Fe as [|? ? [R N] F']. subst. pose proof (e_event bad (ev_tree e) b s (ev_id e) G R N L) as W.
    destruct (e_modify bad ord b (ev_tree e) (ev_id e) s) as [s1 [[]|x|]]; [| |contradiction].
    - destruct W as (L1 & F1). pose proof (loft_flat_root _ _ L1) as Ro. specialize (IH last s1 G). rewrite Ro in IH.
      assert (Fe1 : Forall (fun e => ok (ev_tree e) /\ no_clash (ev_tree e) s1) es).
      { eapply Forall_impl; [|apply F']. intros e0 [A B]. split; auto. apply (clash_same _ s); auto. }
      specialize (IH Fe1 L1). destruct (e_feed bad ord b es last s1) as [[t' s'] r]. destruct IH as (A & B & C & E). spl; auto; [congruence| |].
      + destruct C as [C|(ev & C & D)]; auto. right. exists ev. split; [right|]; auto.
      + destruct E as [E|(ev & C' & D)]; auto. right. exists ev. split; [right|]; auto.
    - destruct W as (L1 & F1). spl; auto; right; exists e; split; auto; left; auto.
  Qed.

  Lemma e_tree : forall bad t b s o t' s' r, gentle bad -> flat_x (t, b, s) -> any_fresh t o -> no_clashing_add s o -> e_call bad ord b o t s = (t', s', r) ->
    flat_x (t', b, s') /\ froot s' = froot s /\ filters s' = filters s /\ ((r = Ok tt /\ t' = after o t) \/ exists ev, In ev (events o t) /\ t' = ev_tree ev).
  Proof.
    intros bad t b s o t' s' r G (R & N & L) Fo No E. destruct (clash_step t o s R Fo N No) as [N' Ne].
    assert (Fe : Forall (fun e => reachx any_fresh (ev_tree e) /\ no_clash (ev_tree e) s) (events o t)).
    { rewrite Forall_forall in *. intros e He. split; auto. eapply reachx_abort; eauto. }
    assert (Fo' : Forall (fun e => ok (ev_tree e) /\ no_clash (ev_tree e) s) (events o t)).
    { eapply Forall_impl; [|apply Fe]. intros e [A B]. split; auto. apply (g_ok _ _ _ (reachx_good _ A)). }
    pose proof (e_feeds bad b (events o t) (after o t) s G Fo' L) as W. unfold e_call in E. rewrite E in W. destruct W as (L' & F' & C & D).
    pose proof (loft_flat_root _ _ L') as Ro. spl; auto.
    destruct C as [->|(ev & A & ->)].
    - split; [apply reachx_call; auto|]. split; [apply (clash_same _ s); auto|]. rewrite Ro. auto.
    - rewrite Forall_forall in Fe. destruct (Fe ev A) as [H1 H2]. split; auto. split; [apply (clash_same _ s); auto|]. rewrite Ro. auto.
  Qed.

  Lemma e_refiltered : forall bad t b s, gentle bad -> reach calm t -> no_clash t s -> loft (froot s) s -> flattened b (filters s) ->
    let '(s', r) := e_refilter bad ord b t s in loft (froot s) s' /\ filters s' = filters s.
  Proof.
    intros bad t b s [Gd Gr] R N L Fl. pose proof (reach_reg _ R) as Rg. pose proof (reg_vreg t Rg) as V. pose proof (vreg_ok _ V) as K.
    destruct (bounded_rank t K) as (rk & HRk & HBk). set (D := shown b t s). set (root := froot s).
    assert (W : fwx (e_refilter bad ord b t) (fun _ s' => loft root s' /\ filters s' = filters s) (fun e s' => loft root s' /\ filters s' = filters s) s).
    2:{ unfold fwx in W. destruct (e_refilter bad ord b t s) as [s' [[]|e|]]; auto; contradiction. }
    unfold fwx, e_refilter. fold D. apply flat_spec in Fl. rewrite Fl. set (s1 := set_flat true s).
    assert (Fs : flat s = true) by apply (b_flat _ _ _ _ _ (o_base _ _ L)).
    assert (S1 : s1 = s) by (unfold s1; destruct s; simpl in *; subst; auto). rewrite S1. clear s1 S1.
    change (fwx (e_rebuild bad ord t D) (fun _ s' => loft root s' /\ filters s' = filters s) (fun e s' => loft root s' /\ filters s' = filters s) s).
    unfold e_rebuild. apply fwx_bind. cbn [fget fwx].
    pose proof (clear_all (two root) root (fun _ => I) true s (o_base _ _ L)) as C.
    assert (AS : forall A B C (m1 : FM A) (m2 : A -> FM B) (m3 : FM C) (Q : C -> ft -> Prop) R s, fwx ((x <- m1 ;; m2 x) ;; m3) Q R s -> fwx (x <- m1 ;; m2 x ;; m3) Q R s).
    { intros A B C0 m1 m2 m3 Q R0 z. unfold fwx, fbind. destruct (m1 z) as [z1 [x| |]]; auto. }
    apply AS. apply fwx_bind.
    assert (Ex : forall z, (e <- fnode_at (froot s) ;; ffor (rev (fchi e)) (fun c => e_remove_tree bad c (froot s))) z = (e <- fnode_at (froot s) ;; ffor (rev (fchi e)) (fun c => send_remove_tree c (froot s))) z).
    { intros z. apply bind_ext; auto. intros e z1. apply for_ext. intros c z2. apply (remove_tree_same bad). auto. }
    unfold fwx at 1. rewrite Ex.
    match goal with |- let (_, _) := ?m s in _ => idtac | |- _ => idtac end.
    change (fwx (e <- fnode_at (froot s) ;; ffor (rev (fchi e)) (fun c => send_remove_tree c (froot s))) (fun _ s' => fwx (fmodify (fun s0 => set_fnodes [(froot s0, mkF [] [])] s0) ;; fun s0 => match loop (walk_budget (length (nodes t))) (e_step bad ord t D) (root_children t, s0) with Stop r => r | Go (_, s'0) => (s'0, Diverge) end)
      (fun _ s'0 => loft root s'0 /\ filters s'0 = filters s) (fun _ s'0 => loft root s'0 /\ filters s'0 = filters s) s') (fun _ s'0 => loft root s'0 /\ filters s'0 = filters s) s).
    apply fwp_fwx. eapply fwp_mono; [apply C|]. intros ? s2 [Lk Kn]. apply fwx_bind. unfold fwx at 1. cbn [fmodify].
    pose proof (b_g _ _ _ _ _ (o_base _ _ L)) as G. rewrite (lk_root _ _ Lk). fold root.
    set (s3 := set_fnodes [(root, mkF [] [])] s2).
    assert (Kd : forall x, kids s3 x = []) by (intros x; unfold kids, s3; simpl; deq x root; auto).
    assert (Pd : forall x, pars s3 x = []) by (intros x; unfold pars, s3; simpl; deq x root; auto).
    assert (Dd : forall x, is_displayed s3 x = String.eqb x root) by (intros x; unfold is_displayed, dmem, s3; simpl; deq x root; auto).
    assert (L3 : loft root s3).
    { constructor.
      - constructor.
        * constructor.
          -- unfold s3. simpl. rewrite (lk_root _ _ Lk). auto.
          -- rewrite Dd. apply eqb_refl.
          -- apply Pd.
          -- auto.
          -- intros p c. rewrite Kd. intros [].
          -- intros x. rewrite Pd. constructor.
          -- intros x p. rewrite Pd. intros [].
          -- intros x p _. rewrite Pd, Kd. simpl. tauto.
          -- eapply knows_sent; [|eapply knows_iff; [|apply Kn]]; auto. intros l. unfold paths. split; [tauto|].
             intros [H1 H2]. destruct l as [|x l]; [auto|]. destruct H2 as [H2 _]. rewrite Kd in H2. destruct H2.
          -- intros _ x p1 q1. rewrite Kd. intros [].
        * unfold s3. simpl. repeat constructor. simpl. tauto.
        * unfold s3. simpl. rewrite (lk_flat _ _ Lk). auto.
        * intros x. rewrite Kd. constructor.
      - intros x _ _. rewrite Pd. auto. }
    assert (F3 : filters s3 = filters s) by (unfold s3; simpl; apply Lk).
    set (I := fun z : list id * ft => loft root (snd z) /\ filters (snd z) = filters s /\ forall x, In x (fst z) -> has_node t x = true).
    assert (HD : forall x, D x = true -> x <> root /\ @fine any_ear x) by (intros x Hx; apply (shown_fine b t s); auto).
    assert (HRp : forall x p, In p (get_parents t x) -> rk p < rk x).
    { intros x p Hp. rewrite (get_parents_raw t x K) in Hp. destruct (parents_enabled t x); [auto|destruct Hp]. }
    set (n0 := length (nodes t)) in *. set (g := fun x => n0 - rk x). set (mu := fun z : list id * ft => sum (fun y => (S n0) ^ (g y)) (fst z)).
    assert (ST : forall q z, I (q, z) -> match q with
      | [] => e_step bad ord t D (q, z) = Stop (z, Ok tt)
      | n :: rest => (exists z2, e_step bad ord t D (q, z) = Go (rest ++ get_children t n, z2) /\ I (rest ++ get_children t n, z2)) \/
                     exists z2 e, e_step bad ord t D (q, z) = Stop (z2, Err e) /\ loft root z2 /\ filters z2 = filters s
      end).
    { intros [|n rest] z (Lz & Fz & Hz); [reflexivity|]. cbn [fst snd] in *. unfold e_step.
      assert (Hn : has_node t n = true) by (apply Hz; left; auto).
      assert (Hf : rk n + 1 < update_budget t z) by (unfold update_budget; specialize (HBk n); fold n0; lia).
      pose proof (e_updated bad ord t D root rk (fun _ => Logic.I) HO HD HRp Gd Gr (update_budget t z) n Both z Hf Lz) as W.
      unfold fwx in W. destruct (e_update bad ord t D (update_budget t z) n Both z) as [z2 [[]|e|]]; [| |contradiction].
      - left. unfold has_node, dmem in Hn. destruct (dget n (nodes t)) as [nd|] eqn:En; [|discriminate]. exists z2. split; auto.
        destruct W as (L2 & K2 & _). split; auto. cbn [fst snd]. split; [rewrite (kp_filters _ _ _ _ K2); auto|].
        intros x Hx. apply in_app_iff in Hx. destruct Hx as [Hx|Hx]; [apply Hz; right; auto|].
        rewrite get_children_reg in Hx by apply Rg. apply filter_In in Hx. tauto.
      - right. destruct W as (L2 & K2 & _). exists z2, e. split; auto. split; auto. rewrite (kp_filters _ _ _ _ K2). auto. }
    assert (CH : forall n, sum (fun y => S n0 ^ g y) (get_children t n) < S n0 ^ g n).
    { intros n. apply weight_dec.
      - rewrite get_children_reg by apply Rg. unfold n0. rewrite <- dkeys_length. apply NoDup_incl_length.
        + apply filter_NoDup. apply (ok_ndc _ K).
        + intros y Hy. apply filter_In in Hy. apply has_node_In. tauto.
      - intros y Hy. rewrite get_children_reg in Hy by apply Rg. apply filter_In in Hy. destruct Hy as [Hy Hl].
        apply (reg_sym t n y Rg) in Hy; auto. apply HRk in Hy. pose proof (HBk y). unfold g. lia. }
    destruct (loop_total (e_step bad ord t D) I mu) with (k := walk_budget n0) (s := (root_children t, s3)) as ([q s'] & res & E & Is & Es).
    - intros [q z] z' W E. specialize (ST q z W). destruct q as [|n rest]; [rewrite ST in E; discriminate|].
      destruct ST as [(z2 & E2 & W2)|(z2 & e & E2 & _)]; rewrite E2 in E; [|discriminate]. inv E. split; auto. unfold mu. simpl. rewrite sum_app. specialize (CH n). lia.
    - split; [auto|split; [auto|]]. cbn [fst]. rewrite (root_children_reg _ Rg). apply (proj1 (proj2 (r_root _ Rg))).
    - unfold mu. cbn [fst]. eapply Nat.le_lt_trans; [|apply (weight_bound' n0 (S n0)); auto].
      assert (HL : length (root_children t) <= n0).
      { rewrite (root_children_reg _ Rg). unfold n0. rewrite <- dkeys_length. apply NoDup_incl_length; [apply (r_root _ Rg)|].
        intros y Hy. apply has_node_In. apply (proj1 (proj2 (r_root _ Rg))). auto. }
      pose proof (sum_le (fun y => S n0 ^ g y) (root_children t) (S n0 ^ n0)) as SL.
      assert (SL' : sum (fun y => S n0 ^ g y) (root_children t) <= length (root_children t) * S n0 ^ n0).
      { apply SL. intros y _. apply Nat.pow_le_mono_r; [lia|unfold g; lia]. }
      eapply Nat.le_trans; [apply SL'|]. rewrite Nat.pow_succ_r'. nia.
    - unfold fwx. rewrite E. specialize (ST q s' Is). destruct q as [|n rest].
      + rewrite ST in Es. inv Es. destruct Is as (A & B & _). auto.
      + destruct ST as [(z2 & E2 & _)|(z2 & e & E2 & W)]; rewrite E2 in Es; [discriminate|]. inv Es. auto.
  Qed.

  Lemma upset_x : forall x, upset_flat ord x -> flat_x x.
  Proof.
    intros x H. induction H as [t b name names R N F|t b s bad o t' s' r H IH G Fo No E|t b s b' names H IH|t b s n a s' r H IH E|t b s bad s' r H IH G R F E].
    - assert (W : flat_ok (opened ord t b name names)) by (apply (loose_flat_ok ord HO); constructor; auto).
      destruct (opened ord t b name names) as [[t' b'] s']. destruct W as (A & B & C). split; auto. split; auto. apply level_loft. auto.
    - eapply e_tree; eauto.
    - destruct IH as (R & N & L). split; auto. split; auto. apply loft_filters. auto.
    - destruct IH as (R & N & L). unfold queue_action in E. destruct (negb (truthy n)); [inv E; split; auto|]. destruct (is_displayed s n); inv E; [split; auto|].
      split; auto. split; auto. apply loft_runonce. auto.
    - destruct IH as (Rx & N & L). pose proof (e_refiltered bad t b s G R N L F) as W. rewrite E in W. destruct W as [L' _].
      pose proof (loft_flat_root _ _ L') as Ro. split; auto. split; [apply (clash_same _ s); auto|]. rewrite Ro. auto.
  Qed.

  Theorem e_consistent : forall t b s, upset_flat ord (t, b, s) ->
    sound s /\ mirrored s /\ forall n, In n (view_all_nodes s) -> pars s n = [] \/ pars s n = [froot s].
  Proof.
    intros t b s H. apply upset_x in H. destruct H as (R & N & L). pose proof (o_base _ _ L) as B. pose proof (b_g _ _ _ _ _ B) as G.
    split; [eapply base_sound; eauto|]. split.
    - destruct (gb_knows _ _ _ _ _ G) as (cs & (K & _) & K1). exists cs. auto.
    - intros n Hn. apply all_nodes_In in Hn; [|apply B]. apply (o_pars _ _ L); apply Hn.
  Qed.

  Theorem e_errors : forall t b s bad o, upset_flat ord (t, b, s) -> gentle bad -> any_fresh t o -> no_clashing_add s o ->
    (exists s', e_call bad ord b o t s = (after o t, s', Ok tt)) \/
    exists s' ev e, e_call bad ord b o t s = (ev_tree ev, s', Err e) /\ In ev (events o t) /\ burst bad (length (sent s)) (news s s') e.
  Proof.
    intros t b s bad o H G Fo No. apply upset_x in H. destruct (e_call bad ord b o t s) as [[t' s'] r] eqn:E.
    destruct (e_tree bad t b s o t' s' r G H Fo No E) as (_ & _ & _ & W).
    destruct (feed_as bad ord b (events o t) (after o t) s) as (t1 & E1 & Et). unfold e_call in E. rewrite E in E1.
    destruct H as (R & N & L). destruct (clash_step t o s R Fo N No) as [N' Ne].
    assert (Fo' : Forall (fun e => ok (ev_tree e) /\ no_clash (ev_tree e) s) (events o t)).
    { rewrite Forall_forall in *. intros e He. split; auto. apply (g_ok _ _ _ (reachx_good _ (reachx_abort _ _ _ _ R Fo He))). }
    pose proof (plain_feed b (events o t) s Fo' L) as Pf.
    destruct (e_cases bad _ _ _ (shadow_feed bad ord b (events o t)) s) as [Es|(s1 & e & Es & B)]; rewrite Es in *.
    - rewrite Pf in *. inv E1. left. eexists. rewrite Et; auto.
    - cbn [fst snd] in *. inv E1. destruct W as [[W _]|(ev & A & ->)]; [discriminate|]. right. exists s1, ev, e. auto.
  Qed.

  Theorem e_announced : forall t b s bad o s' l e, upset_flat ord (t, b, s) -> gentle bad -> any_fresh t o -> no_clashing_add s o ->
    e_call bad ord b o t s = (after o t, s', Ok tt) -> events o t = l ++ [e] -> ev_id e <> froot s -> ev_id e <> "" ->
    (In (ev_id e) (view_all_nodes s') <-> In (ev_id e) (satisfying b (ev_tree e) (filters s))).
  Proof.
    intros t b s bad o s' l e H G Fo No E El Hn H0. apply upset_x in H.
    assert (Ep : r_call ord b (fun _ _ _ => None) o t s = (after o t, s', Ok tt)).
    { destruct (feed_as bad ord b (events o t) (after o t) s) as (t1 & E1 & Et). unfold e_call in E. rewrite E in E1.
      destruct (e_cases bad _ _ _ (shadow_feed bad ord b (events o t)) s) as [Es|(s1 & x & Es & B)]; rewrite Es in *; [|cbn in E1; inv E1].
      unfold r_call. rewrite feed_same by (apply Forall_forall; intros ? _ ? ? ? ?; auto). destruct (feed ord b (events o t) s) as [s2 r2]. cbn [fst snd] in *. inv E1. auto. }
    destruct (x_tree ord HO t b _ s o _ _ _ H Fo No Ep) as (P & Ro & _ & _ & Dd). specialize (Dd l e El Hn).
    assert (S1 : should_display b (ev_tree e) (filters s) (ev_id e) = true <-> In (ev_id e) (satisfying b (ev_tree e) (filters s))).
    { rewrite satisfying_In. unfold should_display. destruct (has_node (ev_tree e) (ev_id e)) eqn:Eh.
      - assert (Tn : truthy (ev_id e) = true) by (destruct (ev_id e); auto; contradiction). rewrite Tn. simpl. rewrite passes_sat; tauto.
      - rewrite andb_false_r. split; [discriminate|intros []; discriminate]. }
    rewrite <- S1, <- Dd. destruct P as (_ & _ & L'). rewrite all_nodes_In by apply (o_base _ _ L'). rewrite Ro. tauto.
  Qed.

  Theorem e_recovers : forall t b s bad, upset_flat ord (t, b, s) -> gentle bad -> reach calm t -> flattened b (filters s) ->
    (exists s', e_refilter bad ord b t s = (s', Ok tt) /\ uptodate t b s') \/
    exists s' e, e_refilter bad ord b t s = (s', Err e) /\ burst bad (length (sent s)) (news s s') e.
  Proof.
    intros t b s bad H G R F. apply upset_x in H. destruct H as (_ & N & L).
    destruct (flat_refiltered ord HO t b s _ _ R N (o_base _ _ L) F) as (s1 & E & _ & U & _).
    destruct (e_cases bad _ _ _ (shadow_refilter bad ord b t) s) as [Es|(s2 & e & Es & B)]; rewrite Es.
    - left. exists s1. rewrite E. auto.
    - right. exists s2, e. auto.
  Qed.
End Emit.
