(** The widget: opening the rows of a node. *)
From Coq Require Import Permutation.
From Verif Require Import Base BaseFacts MainTree Spec MainFacts MainReg MainTight Filters FTree SpecApi
  SpecView SpecViewing FtBase FtWalk FtEdge FtUp FtFront FtDown FtSync FtTree FtOps FtSent FtKeep FtState FtView FtThm FtSignals FtHist FtQuiet FtRead
  Gtk SpecGtk GtkFacts GtkView GtkRemove Widget SpecWidget FtMind ClientFacts ConnectFacts WidgetFacts WidgetUse SpecExpand.
Open Scope f_scope.

Lemma has_rows_below : forall r g, has_rows (r_addr r) g = true <-> has_below (rows g) r.
Proof.
  intros r g. unfold has_below, has_rows, store_children. split.
  - destruct (filter (parent_is (Some (r_addr r))) (rows g)) as [|y z] eqn:Ef; [discriminate|]. intros _. exists y.
    assert (Jy : In y (filter (parent_is (Some (r_addr r))) (rows g))) by (rewrite Ef; left; auto). apply filter_In in Jy. destruct Jy as [J1 J2]. split; auto.
    unfold parent_is in J2. destruct (r_parent y); [|discriminate]. apply Nat.eqb_eq in J2. congruence.
  - intros (c & Ic & Pc). destruct (filter (parent_is (Some (r_addr r))) (rows g)) as [|y z] eqn:Ef; auto.
    assert (Jc : In c (filter (parent_is (Some (r_addr r))) (rows g))) by (apply filter_In; split; auto; unfold parent_is; rewrite Pc; apply Nat.eqb_refl).
    rewrite Ef in Jc. destruct Jc.
Qed.
Lemma has_rows_rows : forall a g g', rows g' = rows g -> has_rows a g' = has_rows a g.
Proof. intros a g g' E. unfold has_rows, store_children. rewrite E. auto. Qed.

Lemma one_row_store : forall a p, store (expand_row a false p) = store p /\ idle_calls (expand_row a false p) = idle_calls p.
Proof. intros a p. unfold expand_row. destruct (known a p && has_rows a (store p)); auto. Qed.
Lemma one_row_open : forall a p x, In x (expanded (expand_row a false p)) <-> In x (expanded p) \/ (x = a /\ known a p = true /\ has_rows a (store p) = true).
Proof.
  intros a p x. unfold expand_row. destruct (known a p && has_rows a (store p)) eqn:Q; cbn [expanded set_expanded].
  - apply andb_true_iff in Q. rewrite in_app_iff. simpl. intuition.
  - split; auto. intros [A|(_ & A & B)]; auto. rewrite A, B in Q. discriminate.
Qed.

Section Expand.
  Variable pf : platform.
  Variable CI : list (list id * row) -> gtk -> list (list id) -> Prop.
  Variable QO : Prop.
  Hypothesis CR : cache_rule pf QO CI.

  Lemma expand_ok : forall cs L n ps p, layout L (store p) cs -> CI L (store p) cs ->
    (forall q, In q ps -> q = [] \/ (In q cs /\ last q "" = n)) -> (forall q, In q ps -> ~ In n (removelast q)) ->
    exists p', collapse_paths true n ps p = (p', existsb nonempty ps) /\
      rows (store p') = rows (store p) /\ idle_calls p' = idle_calls p /\
      forall a, In a (expanded p') <-> In a (expanded p) \/ exists q r, In q ps /\ In (q, r) L /\ r_addr r = a /\ in_sight p r /\ has_rows a (store p) = true.
  Proof.
    intros cs L n ps. induction ps as [|q ps IH]; intros p HL FC Hp Hn.
    - exists p. split; [reflexivity|]. split; auto. split; auto. intros a. split; auto. intros [H|(q & r & [] & _)]; auto.
    - cbn [collapse_paths]. assert (Hq : q = [] \/ In q cs) by (destruct (Hp q) as [|[]]; [left; auto|auto|auto]).
      destruct (get_iter_fwd L cs q (store p) HL (cr_good _ _ _ CR _ _ _ HL FC) Hq) as (g1 & it & E1 & Fo & R). rewrite E1.
      pose proof (layout_recached _ _ _ _ HL R) as HL1. pose proof (cr_step _ _ _ CR _ _ _ _ _ _ _ HL FC (recached_evolves pf L _ _ R) (hear_run cs "" 0) (fun _ => eq_refl)) as FC1.
      assert (Rg : rows g1 = rows (store p)) by apply R.
      destruct Fo as [[-> ->]|(r & I & ->)].
      + destruct (IH (set_store g1 p) HL1 FC1) as (p' & E' & X1 & X2 & X3); [intros q Hi; apply Hp; right; auto|intros q Hi; apply Hn; right; auto|].
        exists p'. split; [exact E'|]. split; [rewrite X1; exact Rg|]. split; [exact X2|].
        intros a. rewrite X3. cbn [expanded set_store store]. rewrite (has_rows_rows a _ _ Rg). split; (intros [A|(q & r & A & B & C)]; [left; exact A|right; exists q, r]).
        * split; [right; exact A|]. split; [exact B|exact C].
        * destruct A as [<-|A]; [exfalso; apply (spot_nonempty _ _ _ HL [] (r_addr r)); [exists r; auto|auto]|]. split; [exact A|]. split; [exact B|exact C].
      + assert (Sq : spot L q (r_addr r)) by (exists r; auto). pose proof (spot_nonempty _ _ _ HL _ _ Sq) as Nq.
        destruct (spot_row _ _ _ HL1 _ _ Sq) as (r1 & R1 & R2 & R3 & R4). rewrite R1.
        assert (r1 = r) by (apply (lay_fun _ _ _ HL q); auto). subst r1.
        assert (Ln : last q "" = n) by (destruct (Hp q) as [|[]]; [left; auto|contradiction|auto]). rewrite R4, Ln, eqb_refl.
        set (p1 := set_store g1 p). set (p2 := expand_row (r_addr r) false p1).
        assert (S2 : store (remember q p2) = g1) by (exact (proj1 (one_row_store (r_addr r) p1))).
        assert (I2 : idle_calls (remember q p2) = idle_calls p) by (exact (proj2 (one_row_store (r_addr r) p1))).
        assert (Kn : known (r_addr r) p1 = true <-> in_sight p r).
        { unfold known. change (store p1) with g1. rewrite R1. unfold in_sight, row_expanded. change (expanded p1) with (expanded p). destruct (r_parent r) as [b|]; [|tauto].
          rewrite existsb_exists. split; [intros (x & Hx & Ex); apply Nat.eqb_eq in Ex; rewrite Ex; auto|intros H; exists b; split; [auto|apply Nat.eqb_refl]]. }
        assert (E2 : forall a, In a (expanded (remember q p2)) <-> In a (expanded p) \/ (a = r_addr r /\ in_sight p r /\ has_rows (r_addr r) (store p) = true)).
        { intros a. rewrite <- (has_rows_rows _ _ _ Rg), <- Kn. exact (one_row_open (r_addr r) p1 a). }
        destruct (IH (remember q p2)) as (p' & E' & X1 & X2 & X3); [rewrite S2; auto|rewrite S2; auto|intros q0 Hi; apply Hp; right; auto|intros q0 Hi; apply Hn; right; auto|].
        rewrite E'. cbn [fst]. exists p'. split; [cbn [existsb]; destruct q; [contradiction|]; reflexivity|].
        split; [rewrite X1, S2; auto|]. split; [rewrite X2; auto|].
        assert (Si : forall q0 r0, In q0 ps -> In (q0, r0) L -> (in_sight (remember q p2) r0 <-> in_sight p r0)).
        { intros q0 r0 H0 I0. unfold in_sight. destruct (l_path _ _ _ HL _ _ I0) as (qq & Eq & [[-> ->]|(rq & Iq & ->)]); [tauto|]. rewrite E2. split; auto. intros [A|[A _]]; auto. exfalso.
          assert (Z : qq = q) by (apply (spot_path _ _ _ HL _ _ (r_addr r)); [exists rq; auto|exact Sq]). subst qq. apply (Hn q0 (or_intror H0)). rewrite Eq, removelast_last.
          destruct (exists_last Nq) as (q' & y & ->). rewrite last_last in Ln. subst y. apply in_app_iff. right; left; auto. }
        intros a. rewrite X3, E2, S2, (has_rows_rows a _ _ Rg). split.
        * intros [[A|(-> & A & B)]|(q0 & r0 & A & B & C & D & F)]; auto; right.
          -- exists q, r. split; [left; auto|auto].
          -- exists q0, r0. split; [right; auto|]. split; auto. split; auto. split; auto. apply (Si q0); auto.
        * intros [A|(q0 & r0 & [<-|A] & B & C & D & F)]; auto.
          -- left. right. assert (r0 = r) by (apply (lay_fun _ _ _ HL q); auto). subst r0. split; [auto|]. split; [auto|]. rewrite C. auto.
          -- right. exists q0, r0. split; auto. split; auto. split; auto. split; auto. apply (Si q0); auto.
  Qed.

  (** The rows only, whatever is open. *)
  Definition kept (p : panel) (cs : list (list id)) : Prop := exists L, layout L (store p) cs /\ CI L (store p) cs.
  Lemma expand_id_ok : forall n t b s p, cheld kept t b s p -> n <> "" -> In n (view_all_nodes s) ->
    exists p', collapse_id true n s p = (s, p', Ok tt) /\ rows (store p') = rows (store p) /\ idle_calls p' = idle_calls p /\
      forall r, In r (rows (store p)) -> (is_open p' r <-> is_open p r \/ (r_id r = n /\ in_sight p r /\ has_below (rows (store p)) r)).
  Proof.
    intros n t b s p D Hn Hv. assert (Tn : truthy n = true) by (destruct n; auto; contradiction). unfold collapse_id. rewrite Tn. cbn [negb].
    destruct D as (l & v & cs & -> & C & Rd & Hh & (L & HL & FC)). rewrite pre_paths. change (view_all_nodes (pre l v)) with (view_all_nodes v) in Hv.
    destruct (current_heard _ _ _ C) as (cs' & Hh' & K). rewrite (hear_all_det _ _ _ _ Hh' Hh) in K. clear cs' Hh'.
    pose proof (synced_sound _ _ _ (c_sync _ _ _ C)) as So.
    destruct (sound_paths v n So Hv) as (P & EP & _ & HP). rewrite EP.
    assert (NP : P <> []). { destruct (has_path t b v n C Hv) as (q & Hq). intros ->. apply (proj2 (HP (q ++ [n]))). rewrite last_last. auto. }
    assert (NE : forall q, In q P -> q <> []) by (intros q Hq; apply HP in Hq; destruct Hq as [[Hq _] _]; exact Hq).
    assert (Se : existsb nonempty P = true).
    { destruct P as [|q P']; [contradiction|]. cbn [existsb]. destruct q; [exfalso; apply (NE []); [left|]; auto|]. auto. }
    destruct (expand_ok cs L n P p HL FC) as (p' & E & X1 & X2 & X3).
    { intros q Hq. right. rewrite K. apply HP. auto. }
    { intros q Hq Hr. apply HP in Hq. destruct Hq as [[Nq Dq] Lq]. destruct (so_acyclic _ So) as [rk Hrk]. destruct (downward_NoDup rk _ Hrk _ _ Dq) as [ND _].
      destruct (exists_last Nq) as (q' & y & ->). rewrite last_last in Lq. subst y. rewrite removelast_last in Hr. apply NoDup_remove_2 in ND. apply ND. rewrite app_nil_r. auto. }
    rewrite Se in E. rewrite E. exists p'. split; [reflexivity|]. split; auto. split; auto.
    intros r Hr. unfold is_open. rewrite X3. split; (intros [A|A]; [left; exact A|right]).
    - destruct A as (q & r0 & Hq & I & Ea & Si & Hr0). rewrite has_rows_below in Hr0.
      assert (r0 = r) by (assert (Ir : exists q', In (q', r) L) by (rewrite <- (l_rows _ _ _ HL) in Hr; apply in_map_iff in Hr; destruct Hr as ([q' r'] & <- & Ir); exists q'; exact Ir);
        destruct Ir as (q' & Ir); destruct (lay_addr _ _ _ HL q r0 q' r I Ir Ea) as [_ Z]; exact Z). subst r0.
      split; [|auto]. destruct (l_path _ _ _ HL _ _ I) as (q0 & Eq & _). apply HP in Hq. destruct Hq as [_ Lq]. rewrite Eq, last_last in Lq. auto.
    - destruct A as (Ei & Si & Hb). rewrite <- (l_rows _ _ _ HL) in Hr. apply in_map_iff in Hr. destruct Hr as ([q r'] & Er & Ir). cbn [snd] in Er. subst r'.
      exists q, r. split; [|split; [exact Ir|split; [auto|split; [exact Si|apply has_rows_below; exact Hb]]]].
      apply HP. rewrite <- K. split; [apply (lay_in_cs _ _ _ HL _ _ Ir)|]. destruct (l_path _ _ _ HL _ _ Ir) as (q0 & Eq & _). rewrite Eq, last_last. auto.
  Qed.
End Expand.

Lemma rows_paths_store : forall a all p, store (expand_row a all p) = store p /\ idle_calls (expand_row a all p) = idle_calls p /\ collapsed_paths (expand_row a all p) = collapsed_paths p.
Proof. intros a all p. unfold expand_row. destruct (known a p && has_rows a (store p)); auto. Qed.
Lemma toggled_keeps : forall a p, store (on_child_toggled a p) = store p /\ idle_calls (on_child_toggled a p) = idle_calls p /\ collapsed_paths (on_child_toggled a p) = collapsed_paths p.
Proof. intros a p. unfold on_child_toggled. destruct (row_at a (store p)); auto. destruct (_ && _); auto. apply rows_paths_store. Qed.

Section Keep.
  Variable ord : nat -> list id -> list id.
  Variable pf : platform.
  Hypothesis HO : forall k l, Permutation (ord k l) l.
  Hypothesis AL : faithful pf.
  Variable QO : Prop.
  Variable CI : list (list id * row) -> gtk -> list (list id) -> Prop.
  Hypothesis CR : cache_rule pf QO CI.
  Let keeping := kept CI.

  Lemma keeping_step : forall T x p cs cs', keeping p cs -> hear cs x cs' -> names_live (T, x) -> mindful T x cs' -> (QO -> newb cs x = true) ->
    exists p', on_panel_signal pf T x p = (p', Ok tt) /\ keeping p' cs' /\ heeded p p' [x].
  Proof.
    intros T x p cs cs' (L & HL & FC) H Hn _ Nw. destruct (signal_ok pf T x L (store p) cs cs' AL HL (cr_good _ _ _ CR _ _ _ HL FC) H Hn) as (g & L' & E & HL' & EV).
    pose proof (cr_step _ _ _ CR _ _ _ _ _ _ _ HL FC EV H Nw) as FC'.
    assert (K : forall p', store p' = g -> keeping p' cs') by (intros p' <-; exists L'; auto).
    destruct x as [n q|n q|n q|n k]; cbn [on_panel_signal].
    - rewrite E. eexists. split; [reflexivity|]. destruct (snd (my_get_iter (removelast q) (store p))) as [a|]; [destruct (Nat.eqb _ 1)|].
      + destruct (toggled_keeps a (set_store g p)) as (T1 & T2 & T3). split; [apply K; rewrite T1; reflexivity|]. split; [exact T3|]. rewrite T2. unfold callbacks. simpl. rewrite app_nil_r. reflexivity.
      + split; [apply K; reflexivity|]. split; [reflexivity|]. unfold callbacks. simpl. rewrite app_nil_r. reflexivity.
      + split; [apply K; reflexivity|]. split; [reflexivity|]. unfold callbacks. simpl. rewrite app_nil_r. reflexivity.
    - rewrite E. eexists. split; [reflexivity|]. split; [apply K; reflexivity|]. split; [reflexivity|]. unfold callbacks. simpl. rewrite app_nil_r. reflexivity.
    - rewrite E. eexists. split; [reflexivity|]. split; [apply K; reflexivity|]. split; [reflexivity|]. unfold callbacks. simpl. rewrite app_nil_r. reflexivity.
    - simpl in E. inversion E; subst g. destruct k as [|[|k]]; eexists; (split; [reflexivity|]); (split; [apply K; reflexivity|]); split; try reflexivity;
        unfold callbacks; simpl; rewrite ?app_nil_r; reflexivity.
  Qed.

  Lemma keeping_paths : forall opening n cs ps p, keeping p cs -> (forall q, In q ps -> q = [] \/ In q cs) ->
    let p' := fst (collapse_paths opening n ps p) in keeping p' cs /\ rows (store p') = rows (store p) /\ idle_calls p' = idle_calls p.
  Proof.
    intros opening n cs ps. induction ps as [|q ps IH]; intros p (L & HL & FC) Hp; cbv zeta; [split; [exists L; auto|auto]|].
    cbn [collapse_paths]. destruct (get_iter_fwd L cs q (store p) HL (cr_good _ _ _ CR _ _ _ HL FC) (Hp q (or_introl eq_refl))) as (g1 & it & E1 & Fo & R). rewrite E1.
    pose proof (layout_recached _ _ _ _ HL R) as HL1. pose proof (cr_step _ _ _ CR _ _ _ _ _ _ _ HL FC (recached_evolves pf L _ _ R) (hear_run cs "" 0) (fun _ => eq_refl)) as FC1.
    assert (Rg : rows g1 = rows (store p)) by apply R.
    assert (K : forall p1, store p1 = g1 -> keeping p1 cs) by (intros p1 <-; exists L; auto).
    assert (Hp' : forall q, In q ps -> q = [] \/ In q cs) by (intros; apply Hp; right; auto).
    assert (Z : forall p1, store p1 = g1 -> idle_calls p1 = idle_calls p -> let p' := fst (collapse_paths opening n ps p1) in keeping p' cs /\ rows (store p') = rows (store p) /\ idle_calls p' = idle_calls p).
    { intros p1 E I1. destruct (IH p1 (K p1 E) Hp') as (A & B & C). cbv zeta. rewrite E in B. split; [exact A|]. split; congruence. }
    destruct it as [a|]; [|apply Z; reflexivity]. destruct (match row_at a g1 with Some r => String.eqb (r_id r) n | None => false end); [|apply Z; reflexivity].
    cbn [fst]. apply Z; destruct opening; try reflexivity; apply (one_row_store a (set_store g1 p)).
  Qed.

  Lemma keeping_id : forall opening n t b s p, cheld keeping t b s p -> (QO -> lone_tree t) ->
    let '(s', p', r) := collapse_id opening n s p in
    cheld keeping t b s' p' /\ fnodes s' = fnodes s /\ rows (store p') = rows (store p) /\ (n <> "" -> r = Ok tt).
  Proof.
    intros opening n t b s p D Lt. unfold collapse_id. destruct (truthy n) eqn:Tn; cbn [negb].
    2:{ split; [exact D|]. split; [reflexivity|]. split; [reflexivity|]. intros N. destruct n; [contradiction|discriminate]. }
    assert (Hn : n <> "") by (intros ->; discriminate).
    destruct D as (l & v & cs & -> & C & Rd & Hh & Fp). rewrite pre_paths.
    destruct (current_heard _ _ _ C) as (cs' & Hh' & K). rewrite (hear_all_det _ _ _ _ Hh' Hh) in K. clear cs' Hh'.
    pose proof (synced_sound _ _ _ (c_sync _ _ _ C)) as So.
    assert (PS : exists P, view_paths v n = Ok P /\ forall q, In q P -> q = [] \/ In q cs).
    { destruct (in_dec id_dec n (view_all_nodes v)) as [Hv|Hv].
      - destruct (sound_paths v n So Hv) as (P & EP & _ & HP). exists P. split; auto. intros q Hq. right. apply K. apply HP. exact Hq.
      - exists [[]]. split; [|intros q [<-|[]]; auto]. apply other_paths. destruct (is_displayed v n) eqn:Dn; auto. right. destruct (id_dec n (froot v)); auto. exfalso. apply Hv. apply all_nodes_In; [apply So|auto]. }
    destruct PS as (P & -> & HP). destruct (keeping_paths opening n cs P p Fp HP) as (K1 & R1 & _). destruct (collapse_paths opening n P p) as [p1 seen]. cbn [fst] in K1, R1.
    destruct seen; [split; [exists l, v, cs; auto 6|auto]|].
    set (a := if opening then 1 else 0). destruct (waiting_queue n a (pre l v) Hn) as [Q1 Q2]. destruct (is_displayed (pre l v) n) eqn:Dn.
    - rewrite Q1 by auto. split; [exists l, v, cs; auto 6|]. auto.
    - destruct (Q2 eq_refl) as (s0 & E0 & F1 & F2 & F3 & _). rewrite E0. split; [|auto].
      assert (Dp : cheld keeping t b (pre l v) p1) by (exists l, v, cs; auto 6).
      destruct (call_one ord HO (on_panel_signal pf) keeping heeded QO heeded_nil heeded_app keeping_step (VQueue n a) t b (pre l v) p1 Dp Hn (fun o => conj (Lt o) I)) as (t' & b' & s' & p' & E & D' & _).
      cbn [client_call view_call] in E. rewrite E0 in E. cbn [done snd] in E. rewrite (news_same (pre l v) s0) in E by auto. cbn [tell] in E.
      inversion E; subst. exact D'.
  Qed.

  Lemma keeping_idle : forall t b s p l, cheld keeping t b s p -> cheld keeping t b s (set_idle l p).
  Proof. intros t b s p l (k & v & cs & E & C & Rd & Hh & Fp). exists k, v, cs. auto 6. Qed.

  Lemma keeping_call : forall c t b s p, cheld keeping t b s p -> supported (t, b, s) c -> (QO -> lone_call c t) ->
    exists t' b' s' p', panel_call pf ord c (t, b, s) p = (t', b', s', p', Ok tt) /\ cheld keeping t' b' s' p' /\ view_call ord c (t, b, s) = (t', b', s', Ok tt) /\ heeded p p' (news s s') /\ ((forall n a, c <> VQueue n a) -> exists l, sent s' = sent s ++ l /\ forall n, fate n (waiting s n) (waiting s' n) l).
  Proof. exact (call_one ord HO (on_panel_signal pf) keeping heeded QO heeded_nil heeded_app keeping_step). Qed.

  (** A waiting action becomes a callback. *)
  Lemma keeping_comes : forall (o : bool) t b s p n c t' b' s' p' r, cheld keeping t b s p -> supported (t, b, s) c -> (QO -> lone_call c t) -> (forall m a, c <> VQueue m a) ->
    In (if o then 1 else 0) (waiting s n) -> panel_call pf ord c (t, b, s) p = (t', b', s', p', r) ->
    (is_displayed s' n = true -> In (n, o) (idle_calls p')) /\ (is_displayed s' n = false -> In (if o then 1 else 0) (waiting s' n) \/ In (n, o) (idle_calls p')).
  Proof.
    intros o t b s p n c t' b' s' p' r D X Lc Nq W E. destruct (keeping_call c t b s p D X Lc) as (t2 & b2 & s2 & p2 & E2 & D2 & _ & [_ He] & Fa).
    rewrite E2 in E. inversion E; subst. clear E E2. destruct (Fa Nq) as (l & El & Fn). rewrite (news_of s s' l El) in He.
    destruct (fate_wait _ _ _ _ (Fn n)) as [_ Y]. specialize (Y _ W).
    assert (Z : In (SRun n (if o then 1 else 0)) l -> In (n, o) (idle_calls p')).
    { intros I1. rewrite He. apply in_app_iff. right. unfold callbacks. apply in_flat_map. exists (SRun n (if o then 1 else 0)). split; [exact I1|destruct o; left; reflexivity]. }
    split; [|intros _; tauto]. intros Hd. destruct Y as [Y|Y]; [|auto]. exfalso.
    destruct D2 as (k & v & cs & -> & _ & [_ Rd] & _). change (waiting (pre k v) n) with (waiting v n) in Y. rewrite (Rd n Hd) in Y. destruct Y.
  Qed.

  Lemma keeping_shows : forall t b s p, cheld keeping t b s p -> shows (rows (store p)) (view_path s).
  Proof.
    intros t b s p (l & v & cs & -> & C & Rd & Hh & (L & HL & _)).
    destruct (current_heard _ _ _ C) as (cs' & Hh' & K). rewrite (hear_all_det _ _ _ _ Hh' Hh) in K. apply (layout_shows L (store p) cs); auto.
  Qed.

  Lemma keeping_sort : forall t b s p rs, cheld keeping t b s p -> Permutation rs (rows (store p)) ->
    cheld keeping t b s (set_store (mkGtk rs (clock (store p)) (cache_paths (store p)) (cache_position (store p))) p).
  Proof.
    intros t b s p rs (l & v & cs & E2 & C & Rd & Hh & (L & HL & FC)) P. exists l, v, cs. repeat (split; [assumption|]).
    set (g' := mkGtk rs (clock (store p)) (cache_paths (store p)) (cache_position (store p))).
    destruct (layout_sort L (store p) g' cs HL P eq_refl) as (L' & HL' & PL). exists L'. split; [exact HL'|]. apply (cr_sort _ _ _ CR L); auto.
  Qed.

  Lemma keeping_start : forall x x' p r, viewing ord x -> (forall n a, In a (waiting (snd x) n) -> 2 <= a) -> (QO -> lone_tree (fst (fst x))) -> build_panel pf x = (x', p, r) ->
    let '(t, b, s) := x' in cheld keeping t b s p.
  Proof.
    intros x x' p r V W Lt E. destruct (start_ok ord pf False HO AL QO CI CR x V) as (t & b & s & p1 & E1 & D & _); auto; try contradiction. rewrite E1 in E. inversion E; subst.
    destruct D as (l & v & cs & E2 & C & Rd & Hh & (L & HL & FC & _)). exists l, v, cs. repeat (split; [assumption|]). exists L. auto.
  Qed.

  Lemma keeping_node : forall opening llpath t b s p s' p' r, cheld keeping t b s p -> (QO -> lone_tree t) -> collapse_node opening llpath s p = (s', p', r) -> cheld keeping t b s' p'.
  Proof.
    intros opening llpath t b s p s' p' r D Lt E. unfold collapse_node in E. destruct (rev llpath) as [|n rest]; [inversion E; subst; exact D|].
    pose proof (keeping_id opening (strip n) t b s p D Lt) as K. rewrite E in K. apply K.
  Qed.
  Lemma keeping_turn : forall t b s p s' p' r, cheld keeping t b s p -> (QO -> lone_tree t) -> run_idle s p = (s', p', r) -> cheld keeping t b s' p'.
  Proof.
    intros t b s p s' p' r D Lt E. unfold run_idle in E. destruct (idle_calls p) as [|[n o] rest]; [inversion E; subst; exact D|].
    pose proof (keeping_id o n t b s (set_idle rest p) (keeping_idle _ _ _ _ _ D) Lt) as K. rewrite E in K. apply K.
  Qed.
  Lemma keeping_user : forall t b s p l, cheld keeping t b s p -> cheld keeping t b s (set_expanded l p).
  Proof. intros t b s p l (k & v & cs & E & C & Rd & Hh & Fp). exists k, v, cs. auto 6. Qed.

  Lemma keeping_fine : forall t b s p, cheld keeping t b s p -> (QO -> lone_tree t) ->
    (forall c, supported (t, b, s) c -> (QO -> lone_call c t) -> exists p', panel_call pf ord c (t, b, s) p = (fst (view_call ord c (t, b, s)), p', Ok tt)) /\
    (forall opening above n, strip n <> "" -> exists s' p', collapse_node opening (above ++ [n]) s p = (s', p', Ok tt) /\ fnodes s' = fnodes s /\ rows (store p') = rows (store p)) /\
    (forall n o rest, idle_calls p = (n, o) :: rest -> n <> "" -> exists s' p', run_idle s p = (s', p', Ok tt) /\ fnodes s' = fnodes s /\ rows (store p') = rows (store p)).
  Proof.
    intros t b s p D Lt. split; [|split].
    - intros c X Lc. destruct (keeping_call c t b s p D X Lc) as (t2 & b2 & s2 & p2 & E2 & _ & EV & _). exists p2. rewrite EV. exact E2.
    - intros opening above n Hn. unfold collapse_node. rewrite rev_app_distr. cbn [rev List.app]. pose proof (keeping_id opening (strip n) t b s p D Lt) as K.
      destruct (collapse_id opening (strip n) s p) as [[s' p'] r]. destruct K as (_ & K1 & K2 & K3). rewrite (K3 Hn). exists s', p'. auto.
    - intros n o rest E Hn. unfold run_idle. rewrite E. pose proof (keeping_id o n t b s (set_idle rest p) (keeping_idle _ _ _ _ _ D) Lt) as K.
      destruct (collapse_id o n s (set_idle rest p)) as [[s' p'] r]. destruct K as (_ & K1 & K2 & K3). rewrite (K3 Hn). exists s', p'. auto.
  Qed.
End Keep.

Section Thm.
  Variable ord : nat -> list id -> list id.
  Variable pf : platform.
  Hypothesis HO : forall k l, Permutation (ord k l) l.
  Hypothesis AL : faithful pf.
  Hypothesis NR : never_reuses pf.
  Let CR := address_rule pf NR.
  Let keeping := kept (by_address pf).

  Lemma handled_inv : forall x p, handled ord pf x p -> let '(t, b, s) := x in cheld keeping t b s p.
  Proof.
    intros x p H. induction H as [x x' p r V W E|x p c x' p' r H IH X Hq E|x p rs H IH P|opening llpath t b s p s' p' r H IH E|t b s p s' p' r H IH E|x p l H IH].
    - apply (keeping_start ord pf HO AL False (by_address pf) CR x x' p r); auto. tauto.
    - destruct x as [[t b] s]. destruct (keeping_call ord pf HO AL False (by_address pf) CR c t b s p IH X) as (t2 & b2 & s2 & p2 & E2 & D & _); [tauto|].
      rewrite E2 in E. inversion E; subst. exact D.
    - destruct x as [[t b] s]. apply (keeping_sort pf False (by_address pf) CR); auto.
    - apply (keeping_node ord pf HO AL False (by_address pf) CR opening llpath t b s p s' p' r); auto; tauto.
    - apply (keeping_turn ord pf HO AL False (by_address pf) CR t b s p s' p' r); auto; tauto.
    - destruct x as [[t b] s]. apply keeping_user. exact IH.
  Qed.

  Lemma handled_shows : forall t b s p, handled ord pf (t, b, s) p -> shows (rows (store p)) (view_path s).
  Proof. intros t b s p H. apply (keeping_shows (by_address pf) t b s p). exact (handled_inv _ _ H). Qed.

  Lemma handled_fine : forall t b s p, handled ord pf (t, b, s) p ->
    (forall c, supported (t, b, s) c -> exists p', panel_call pf ord c (t, b, s) p = (fst (view_call ord c (t, b, s)), p', Ok tt)) /\
    (forall opening above n, strip n <> "" -> exists s' p', collapse_node opening (above ++ [n]) s p = (s', p', Ok tt) /\ fnodes s' = fnodes s /\ rows (store p') = rows (store p)) /\
    (forall n o rest, idle_calls p = (n, o) :: rest -> n <> "" -> exists s' p', run_idle s p = (s', p', Ok tt) /\ fnodes s' = fnodes s /\ rows (store p') = rows (store p)).
  Proof.
    intros t b s p H. destruct (keeping_fine ord pf HO AL False (by_address pf) CR t b s p (handled_inv _ _ H) (False_ind _)) as (A & B & C). split; [|split; assumption].
    intros c X. apply A; tauto.
  Qed.

  Lemma use_expand : forall t b s p above n, handled ord pf (t, b, s) p -> strip n <> "" -> In (strip n) (view_all_nodes s) ->
    exists p', collapse_node true (above ++ [n]) s p = (s, p', Ok tt) /\ rows (store p') = rows (store p) /\ idle_calls p' = idle_calls p /\
      forall r, In r (rows (store p)) -> (is_open p' r <-> is_open p r \/ (r_id r = strip n /\ in_sight p r /\ has_below (rows (store p)) r)).
  Proof.
    intros t b s p above n H Hn Hv. pose proof (handled_inv _ _ H) as D. cbn iota beta in D. unfold collapse_node. rewrite rev_app_distr. cbn [rev List.app].
    apply (expand_id_ok pf (by_address pf) False (address_rule pf NR) (strip n) t b s p); auto.
  Qed.

  Lemma use_expand_wait : forall t b s p above n, handled ord pf (t, b, s) p -> strip n <> "" -> is_displayed s (strip n) = false ->
    exists s', collapse_node true (above ++ [n]) s p = (s', p, Ok tt) /\ fnodes s' = fnodes s /\ In 1 (waiting s' (strip n)).
  Proof.
    intros t b s p above n H Hn Hd. unfold collapse_node. rewrite rev_app_distr. cbn [rev List.app]. unfold collapse_id.
    assert (Tn : truthy (strip n) = true) by (destruct (strip n); auto; contradiction). rewrite Tn. cbn [negb]. rewrite (other_paths s (strip n) (or_introl Hd)).
    cbn [collapse_paths my_get_iter rev my_get_iter_rev]. assert (Sp : set_store (store p) p = p) by (destruct p; auto). rewrite Sp.
    destruct (waiting_queue (strip n) 1 s Hn) as [_ Q2]. destruct (Q2 Hd) as (s0 & E0 & F1 & _ & _ & _ & F5 & _). rewrite E0. exists s0. split; auto. split; auto. rewrite F5. apply in_app_iff. right; left; auto.
  Qed.

  Lemma use_expand_comes : forall t b s p n c t' b' s' p' r, handled ord pf (t, b, s) p -> supported (t, b, s) c -> (forall m a, c <> VQueue m a) ->
    In 1 (waiting s n) -> panel_call pf ord c (t, b, s) p = (t', b', s', p', r) ->
    (is_displayed s' n = true -> In (n, true) (idle_calls p')) /\ (is_displayed s' n = false -> In 1 (waiting s' n) \/ In (n, true) (idle_calls p')).
  Proof.
    intros t b s p n c t' b' s' p' r H X Nq W E.
    apply (keeping_comes ord pf HO AL False (by_address pf) CR true t b s p n c t' b' s' p' r (handled_inv _ _ H) X (False_ind _) Nq W E).
  Qed.

  Lemma use_expand_idle : forall t b s p n rest, handled ord pf (t, b, s) p -> idle_calls p = (n, true) :: rest -> n <> "" -> In n (view_all_nodes s) ->
    exists p', run_idle s p = (s, p', Ok tt) /\ rows (store p') = rows (store p) /\ idle_calls p' = rest /\
      forall r, In r (rows (store p)) -> (is_open p' r <-> is_open p r \/ (r_id r = n /\ in_sight p r /\ has_below (rows (store p)) r)).
  Proof.
    intros t b s p n rest H E Hn Hv. pose proof (handled_inv _ _ H) as D. cbn iota beta in D. unfold run_idle. rewrite E.
    destruct (expand_id_ok pf (by_address pf) False (address_rule pf NR) n t b s (set_idle rest p) (keeping_idle (by_address pf) _ _ _ _ _ D) Hn Hv) as (p' & A & B & C & F). exists p'. auto.
  Qed.
End Thm.

Lemma in_use_handled : forall ord pf start asked x p, in_use ord pf start asked x p -> handled ord pf x p.
Proof.
  intros ord pf start asked x p H. induction H; [eapply handled_start|eapply handled_call|eapply handled_sort|eapply handled_node|eapply handled_idle]; eauto.
Qed.
