(** Columns whose function is exchanged, and the colours of cells. *)
From Coq Require Import Permutation NArith.
From Verif Require Import Base BaseFacts MainTree Spec MainFacts MainInv MainRun MainReg MainTight Filters FTree SpecApi ApiFacts CountFacts DataFacts FrameFacts
  SpecView SpecViewing SpecTold SpecFrame FtBase FtOps FtView FtThm FtSent FtSignals FtQuiet FtAny FtTold Gtk SpecGtk GtkFacts GtkView GtkRemove GtkData Cells SpecPaint.

Lemma held_repainted : forall pf f f' t b s g, held (repainted pf f) t b s g -> held (repainted pf f') t b s g.
Proof.
  intros pf f f' t b s g (l & v & cs & -> & C & Hh & L & HL & FC). exists l, v, cs. split; auto. split; auto. split; auto.
  exists L. split; auto. destruct FC as [G1 G2 G3]. constructor; auto.
Qed.

Lemma feed_same : forall ord pf b es T s s' g g' r, (forall e, In e es -> ev_tree e = T) -> feed_widget ord pf b es s g = (s', g', Ok r) ->
  on_signals pf T (news s s') g = (g', Ok tt).
Proof.
  intros ord pf b es T. induction es as [|e es IH]; intros s s' g g' r Ht E; cbn [feed_widget] in E.
  - inversion E; subst. rewrite news_same; auto.
  - pose proof (blind_extends _ _ s (blind_external ord b (ev_tree e) (ev_id e))) as X1.
    destruct (external_modify ord b (ev_tree e) (ev_id e) s) as [s1 [[]|x|]]; try discriminate. cbn [fst] in X1.
    destruct (on_signals pf (ev_tree e) (news s s1) g) as [g1 [[]|x|]] eqn:E1; try discriminate.
    rewrite (Ht e (or_introl eq_refl)) in E1.
    assert (E2 : exists l, sent s' = sent s1 ++ l).
    { clear - E. revert s1 g1 E. induction es as [|e es IH]; intros s1 g1 E; cbn [feed_widget] in E; [inversion E; subst; exists []; rewrite app_nil_r; auto|].
      pose proof (blind_extends _ _ s1 (blind_external ord b (ev_tree e) (ev_id e))) as X1.
      destruct (external_modify ord b (ev_tree e) (ev_id e) s1) as [s2 [[]|x|]]; try discriminate. cbn [fst] in X1.
      destruct (on_signals pf (ev_tree e) (news s1 s2) g1) as [g2 [[]|x|]]; try discriminate.
      destruct X1 as (l1 & X1). destruct (IH _ _ E) as (l2 & X2). exists (l1 ++ l2). rewrite X2, X1, app_assoc. auto. }
    apply IH in E; [|intros; apply Ht; right; auto].
    destruct X1 as (l1 & X1). destruct E2 as (l2 & X2).
    assert (N1 : news s s1 = l1) by (unfold news; rewrite X1, skipn_app, skipn_all, Nat.sub_diag; auto).
    assert (N2 : news s1 s' = l2) by (unfold news; rewrite X2, skipn_app, skipn_all, Nat.sub_diag; auto).
    assert (N3 : news s s' = l1 ++ l2) by (unfold news; rewrite X2, X1, <- app_assoc, skipn_app, skipn_all, Nat.sub_diag; auto).
    rewrite N1 in E1. rewrite N2 in E. rewrite N3. revert g E1. clear - E. induction l1 as [|y l1 IH]; intros g E1; simpl in *.
    + inversion E1; subst. auto.
    + destruct (on_signal pf T y g) as [g2 [u|x|]]; try discriminate. auto.
Qed.

Section Refresh.
  Variable ord : nat -> list id -> list id.
  Variable pf : platform.
  Hypothesis HO : forall k l, Permutation (ord k l) l.
  Hypothesis AL : faithful pf.

  Lemma re_faithful : forall f, faithful (repainted pf f).
  Proof. intros f. exact AL. Qed.
  Lemma refresh_supported : forall x, supported x (VTree RefreshAll).
  Proof. intros [[t b] s]. simpl. unfold calm. simpl. tauto. Qed.

  (** refresh_all brings all rows up to date, whatever their values were. *)
  Lemma refresh_keeps : forall F f t b s g t' b' s' g', (forall d, f d <> None) -> keeper (repainted pf f) F -> keeps F t b s g ->
    widget_call ord (repainted pf f) (VTree RefreshAll) (t, b, s) g = (t', b', s', g', Ok tt) -> keeps F t' b' s' g' ->
    view_call ord (VTree RefreshAll) (t, b, s) = (t', b', s', Ok tt) -> t' = t /\ fresh_rows (repainted pf f) t g'.
  Proof.
    intros F f t b s g t' b' s' g' CN KF H E H1 EV.
    pose proof H as (l & v & cs & -> & C & Hh & Fo). destruct (current_uptodate t b v C) as [U NC].
    destruct (refresh_announces_reg ord HO t b v (c_reg _ _ _ C) NC U) as (v' & lm & E2 & F2 & S2 & An).
    rewrite pre_call, E2 in EV. inversion EV; subst t' b' s'. clear EV. split; auto.
    cbn [widget_call] in E. destruct (feed_widget ord (repainted pf f) b (events RefreshAll t) (pre l v) g) as [[s2 g2] q] eqn:E3. inversion E; subst s2 g2 q. clear E.
    destruct (announce_events RefreshAll t (or_introl eq_refl)) as (_ & _ & Et).
    apply (feed_same ord (repainted pf f) b (events RefreshAll t) t) in E3; [|intros e He; apply Et; auto].
    assert (Nw : news (pre l v) (pre l v') = lm).
    { rewrite news_pre. unfold news. rewrite S2, skipn_app, skipn_all, Nat.sub_diag. reflexivity. }
    rewrite Nw in E3.
    destruct (current_heard _ _ _ C) as (cs' & Hh' & K). rewrite (hear_all_det _ _ _ _ Hh' Hh) in K. clear Hh'.
    intros r Hr _. destruct (held_row (repainted pf f) F KF _ _ _ _ r H1 Hr) as (q & At & V & Hd & Ln).
    destruct (has_node_get _ _ Ln) as (nd & End).
    destruct (mods_fresh (repainted pf f) F t (r_id r) nd lm g cs [] CN (re_faithful f) KF Fo) as (g2 & E7 & F7 & H7); auto.
    { intros y Hy. apply An in Hy. destruct Hy as (q0 & x & -> & V0). exists q0, x. split; auto. split; [apply K; auto|]. apply (path_node t b v q0 x U V0). }
    { intros p r0 _ _ []. }
    rewrite E7 in E3. inversion E3; subst g2. rewrite H2. unfold data_of. rewrite End. simpl. f_equal. symmetry. apply (H7 (q ++ [r_id r]) r); auto. right.
    apply An. exists q, (r_id r). split; auto.
    destruct (current_call ord HO (VTree RefreshAll) t b v C (refresh_supported _)) as (v2 & E8 & _ & _ & Rt). rewrite E2 in E8. inversion E8; subst v2.
    destruct V as [V1 V2]. split; auto. unfold kids in *. simpl in V2. rewrite F2, Rt in V2. exact V2.
  Qed.

End Refresh.

Section Paint.
  Variable ord : nat -> list id -> list id.
  Variable pf : platform.
  Hypothesis HO : forall k l, Permutation (ord k l) l.
  Hypothesis AL : faithful pf.
  Hypothesis NR : never_reuses pf.

  Local Notation re_faithful := (re_faithful pf AL).
  Lemma re_reuses : forall f, never_reuses (repainted pf f).
  Proof. intros f. exact NR. Qed.

  Lemma refresh_rows : forall f t b s g t' b' s' g' r, (forall d, f d <> None) -> held (repainted pf f) t b s g ->
    widget_call ord (repainted pf f) (VTree RefreshAll) (t, b, s) g = (t', b', s', g', r) -> t' = t /\ fresh_rows (repainted pf f) t g'.
  Proof.
    intros f t b s g t' b' s' g' r CN H E.
    destruct (held_call ord (repainted pf f) HO (re_faithful f) (re_reuses f) (VTree RefreshAll) t b s g H (refresh_supported _)) as (t1 & b1 & s1 & g1 & E1 & H1 & EV).
    rewrite E in E1. inversion E1; subst t1 b1 s1 g1 r.
    exact (refresh_keeps ord pf HO AL (follows (repainted pf f)) f t b s g t' b' s' g' CN (follows_keeper _ (re_faithful f) (re_reuses f)) H E H1 EV).
  Qed.

  Lemma painting_held : forall f k x g, painting ord pf f k x g ->
    let '(t, b, s) := x in held (repainted pf f) t b s g /\ (k = true -> (forall d, f d <> None) -> fresh_rows (repainted pf f) t g).
  Proof.
    intros f k x g H. induction H as [f x x' g' r V E|f k [[t b] s] g c x' g' r H IH X E|f k [[t b] s] g x' g' r H IH E|f k [[t b] s] g rs H IH P|f f' k [[t b] s] g H IH].
    - assert (W : watching ord (repainted pf f) x' g') by (eapply watch_start; eauto). destruct x' as [[t b] s].
      split; [apply (watching_held ord (repainted pf f) HO (re_faithful f) (re_reuses f) _ _ W)|].
      intros _ CN. apply (watching_data ord (repainted pf f) HO (re_faithful f) (re_reuses f) CN _ _ W).
    - destruct IH as [Hd Fr].
      destruct (held_call ord (repainted pf f) HO (re_faithful f) (re_reuses f) c t b s g Hd X) as (t' & b' & s' & g2 & E2 & Hd2 & _).
      rewrite E2 in E. inversion E; subst. split; auto. intros Hk CN.
      eapply (fresh_call ord (repainted pf f) HO (re_faithful f) (re_reuses f) CN c t b s g); eauto.
    - destruct IH as [Hd _].
      destruct (held_call ord (repainted pf f) HO (re_faithful f) (re_reuses f) (VTree RefreshAll) t b s g Hd (refresh_supported _)) as (t' & b' & s' & g2 & E2 & Hd2 & _).
      rewrite E2 in E. inversion E; subst. split; auto. intros _ CN.
      destruct (refresh_rows f _ _ _ _ _ _ _ _ _ CN Hd E2) as [-> Z]. exact Z.
    - destruct IH as [Hd Fr]. split.
      + destruct Hd as (l & v & cs & E & C & Hh & Fo). exists l, v, cs. split; auto. split; auto. split; auto. eapply follows_sort; eauto.
      + intros Hk CN r Hr. apply (Fr Hk CN). eapply Permutation_in; [exact P|exact Hr].
    - destruct IH as [Hd _]. split; [eapply held_repainted; eauto|discriminate].
  Qed.

  Lemma painting_ok : forall f k x g c, painting ord pf f k x g -> supported x c -> snd (widget_call ord (repainted pf f) c x g) = Ok tt.
  Proof.
    intros f k [[t b] s] g c H X. apply painting_held in H. destruct H as [H _].
    destruct (held_call ord (repainted pf f) HO (re_faithful f) (re_reuses f) c t b s g H X) as (t' & b' & s' & g2 & E2 & _). rewrite E2. auto.
  Qed.

  Lemma painting_shows : forall f k t b s g, painting ord pf f k (t, b, s) g -> shows (rows g) (view_path s).
  Proof.
    intros f k t b s g H. apply painting_held in H. destruct H as [(l & v & cs & -> & C & Hh & L & HL & _) _].
    destruct (current_heard _ _ _ C) as (cs' & Hh' & K). rewrite (hear_all_det _ _ _ _ Hh' Hh) in K.
    apply (layout_shows L g cs); auto.
  Qed.

  Lemma painting_data : forall f t b s g r, (forall d, f d <> None) -> painting ord pf f true (t, b, s) g -> In r (rows g) ->
    option_map f (data_at t (r_id r)) = Some (r_col r).
  Proof.
    intros f t b s g r CN H Hr. apply painting_held in H. destruct H as [_ H]. apply (H eq_refl CN r Hr). tauto.
  Qed.
End Paint.

Section Look.
  Variable parse : color -> option (N * N * N).

  Definition cache_ok (cache : list (color * N)) : Prop :=
    forall z, In z cache -> exists r g b, parse (fst z) = Some (r, g, b) /\ snd z = (2126 * r + 7152 * g + 722 * b)%N.

  Lemma brightness_ok : forall c cache cache' o, cache_ok cache -> brightness parse c cache = (cache', o) ->
    cache_ok cache' /\
    match parse c with
    | Some (r, g, b) => o = Ok (2126 * r + 7152 * g + 722 * b)%N
    | None => o = Err AttributeError
    end.
  Proof.
    intros c cache cache' o K E. unfold brightness in E. destruct (find (fun z => Nat.eqb (fst z) c) cache) as [z|] eqn:F.
    - apply find_some in F. destruct F as [F1 F2]. apply Nat.eqb_eq in F2. destruct (K z F1) as (r & g & b & P & V). destruct z as [z1 z2]. simpl in *. subst z1.
      inversion E; subst cache' o. split; auto. rewrite P, V. auto.
    - destruct (parse c) as [[[r g] b]|] eqn:P; inversion E; subst; split; auto.
      intros z Hz. apply in_app_iff in Hz. destruct Hz as [Hz|[<-|[]]]; auto. exists r, g, b. auto.
  Qed.

  Lemma cell_data_ok : forall v cache k cache' k' o, cache_ok cache -> cell_data parse true v cache k = (cache', k', o) ->
    cache_ok cache' /\ c_text k' = c_text k /\
    (o = Ok tt <-> (c_text k = true -> forall c, v = Some c -> parse c <> None)) /\
    (o = Ok tt -> c_background k' = v /\ (c_text k = true -> (c_white k' = true <-> exists c, v = Some c /\ dark parse c))) /\
    (o <> Ok tt -> o = Err AttributeError /\ k' = k).
  Proof.
    intros v cache k cache' k' o K E. unfold cell_data in E. destruct (c_text k) eqn:Tx.
    - destruct v as [c|].
      + destruct (brightness parse c cache) as [c1 r1] eqn:B. apply brightness_ok in B; auto. destruct B as [K1 B].
        destruct (parse c) as [[[r g] b]|] eqn:P; subst r1; [remember (2126 * r + 7152 * g + 722 * b)%N as w eqn:Ew|]; inversion E; subst cache' k' o; (split; [auto|split; [auto|]]).
        * split; [split; [intros _ _ c0 E0; inversion E0; subst; rewrite P; discriminate|auto]|]. split; [|congruence].
          intros _. split; auto. intros _. cbn [c_white]. unfold is_dark. rewrite N.ltb_lt. split.
          -- intros H. exists c. split; auto. exists r, g, b. split; [auto|rewrite <- Ew; lia].
          -- intros (c0 & E0 & r0 & g0 & b0 & P0 & H). inversion E0; subst c0. rewrite P in P0. inversion P0; subst r0 g0 b0. rewrite <- Ew in H. lia.
        * split; [split; [discriminate|intros H; exfalso; apply (H eq_refl c eq_refl P)]|]. split; [discriminate|auto].
      + inversion E; subst. split; auto. split; auto. split; [split; auto; intros; discriminate|]. split; [|congruence]. intros _. split; auto. intros _. simpl.
        split; [discriminate|intros (c & E0 & _); discriminate].
    - inversion E; subst. split; auto. split; auto. split; [split; auto; discriminate|]. split; [|congruence]. intros _. split; auto. discriminate.
  Qed.

  Lemma cells_ok : forall l cache, cache_ok cache -> cache_ok (cells_data parse l cache).
  Proof.
    intros l. induction l as [|[k v] l IH]; intros cache K; [exact K|]. cbn [cells_data]. apply IH.
    destruct (cell_data parse true v cache k) as [[c1 k1] o] eqn:E. apply cell_data_ok in E; auto. exact (proj1 E).
  Qed.

  Lemma look : forall l v k cache k' o, cell_data parse true v (cells_data parse l []) k = (cache, k', o) ->
    c_text k' = c_text k /\
    (o = Ok tt <-> (c_text k = true -> forall c, v = Some c -> parse c <> None)) /\
    (o = Ok tt -> c_background k' = v /\ (c_text k = true -> (c_white k' = true <-> exists c, v = Some c /\ dark parse c))) /\
    (o <> Ok tt -> o = Err AttributeError /\ k' = k).
  Proof.
    intros l v k cache k' o E. apply cell_data_ok in E; [tauto|]. apply cells_ok. intros z [].
  Qed.

  Lemma look_unset : forall v cache k, snd (fst (cell_data parse false v cache k)) = k /\ snd (cell_data parse false v cache k) = Ok tt.
  Proof. auto. Qed.
End Look.

(** The cell of a row has the colour of its node. *)
Lemma row_look : forall ord pf, (forall k l, Permutation (ord k l) l) -> faithful pf -> never_reuses pf ->
  forall parse f t b s g r, (forall d, exists c, f d = Some c /\ parse c <> None) -> painting ord pf f true (t, b, s) g -> In r (rows g) ->
  forall l k, exists cache k' v, cell_data parse true (r_col r) (cells_data parse l []) k = (cache, k', Ok tt) /\
    data_at t (r_id r) = Some v /\ c_background k' = f v /\
    (c_text k = true -> (c_white k' = true <-> exists c, f v = Some c /\ dark parse c)).
Proof.
  intros ord pf HO AL NR parse f t b s g r Pf H Hr l k.
  assert (CN : forall d, f d <> None) by (intros d; destruct (Pf d) as (c & -> & _); discriminate).
  pose proof (painting_data ord pf HO AL NR f t b s g r CN H Hr) as Dt.
  destruct (data_at t (r_id r)) as [v|]; [|discriminate]. simpl in Dt. inversion Dt as [Ec]. clear Dt.
  destruct (cell_data parse true (f v) (cells_data parse l []) k) as [[cache k'] o] eqn:E. pose proof (look parse _ _ _ _ _ _ E) as (L1 & L2 & L3 & L4).
  assert (o = Ok tt) by (apply L2; intros _ c Ev; destruct (Pf v) as (c' & Ev' & Np); congruence). subst o.
  exists cache, k', v. split; [reflexivity|]. split; [reflexivity|]. exact (L3 eq_refl).
Qed.
