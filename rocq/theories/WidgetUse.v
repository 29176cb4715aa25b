(** The widget over whole histories. *)
From Coq Require Import Permutation.
From Verif Require Import Base BaseFacts MainTree Spec MainFacts MainReg MainTight Filters FTree SpecApi
  SpecView SpecViewing FtBase FtWalk FtEdge FtUp FtFront FtDown FtSync FtTree FtOps FtSent FtKeep FtState FtView FtThm FtSignals FtHist FtQuiet FtRead
  Gtk SpecGtk GtkFacts GtkView GtkRemove Widget SpecWidget FtMind ClientFacts ConnectFacts WidgetFacts.
Open Scope f_scope.

Definition nonempty (q : list id) : bool := match q with [] => false | _ => true end.

Lemma recached_evolves : forall pf L g g', recached L g g' -> evolves pf L g L g'.
Proof.
  intros pf L g g' (R1 & R2 & R3 & R4). split; [lia|]. split.
  - intros q. destruct (R4 q) as [E|(r & I & E)]; auto. right. left. exists r. auto.
  - intros q r I. left. exists r. auto.
Qed.

Lemma pre_paths : forall l v n, view_paths (pre l v) n = view_paths v n.
Proof. intros l v n. unfold view_paths. apply (fpaths_pre l). Qed.

Section Use.
  Variable ord : nat -> list id -> list id.
  Variable pf : platform.
  Variable full : Prop.
  Hypothesis HO : forall k l, Permutation (ord k l) l.
  Hypothesis AL : faithful pf.
  Variable QO : Prop.
  Variable CI : list (list id * row) -> gtk -> list (list id) -> Prop.
  Hypothesis CR : cache_rule pf QO CI.

  Lemma collapse_ok : forall cs L n ps p, layout L (store p) cs -> CI L (store p) cs ->
    (forall q, In q ps -> q = [] \/ (In q cs /\ last q "" = n)) ->
    exists p', collapse_paths false n ps p = (p', existsb nonempty ps) /\
      layout L (store p') cs /\ CI L (store p') cs /\ idle_calls p' = idle_calls p /\
      collapsed_paths p' = collapsed_paths p ++ filter nonempty ps /\
      forall a, In a (expanded p') <-> In a (expanded p) /\ forall q z, In q ps -> q <> [] -> ~ spot L (q ++ z) a.
  Proof.
    intros cs L n ps. induction ps as [|q ps IH]; intros p HL FC Hp.
    - exists p. split; [reflexivity|]. split; auto. split; auto. split; auto. split; [simpl; rewrite app_nil_r; auto|].
      intros a. split; [intros H; split; [exact H|intros q z []]|tauto].
    - cbn [collapse_paths]. assert (Hq : q = [] \/ In q cs) by (destruct (Hp q) as [|[]]; [left; auto|auto|auto]).
      destruct (get_iter_fwd L cs q (store p) HL (cr_good _ _ _ CR _ _ _ HL FC) Hq) as (g1 & it & E1 & Fo & R). rewrite E1.
      pose proof (layout_recached _ _ _ _ HL R) as HL1. pose proof (cr_step _ _ _ CR _ _ _ _ _ _ _ HL FC (recached_evolves pf L _ _ R) (hear_run cs "" 0) (fun _ => eq_refl)) as FC1.
      destruct Fo as [[-> ->]|(r & I & ->)].
      + destruct (IH (set_store g1 p) HL1 FC1) as (p' & E' & X1 & X2 & X3 & X4 & X5); [intros q Hi; apply Hp; right; auto|].
        exists p'. split; [exact E'|]. split; auto. split; auto. split; auto. split; auto.
        intros a. rewrite X5. cbn [expanded set_store]. split; intros [A B]; (split; [exact A|]); intros q z Hi Hz.
        * destruct Hi as [<-|Hi]; [contradiction|]. apply B; auto.
        * apply B; auto; right; auto.
      + assert (Sq : spot L q (r_addr r)) by (exists r; auto). pose proof (spot_nonempty _ _ _ HL _ _ Sq) as Nq.
        destruct (spot_row _ _ _ HL1 _ _ Sq) as (r1 & R1 & R2 & R3 & R4). rewrite R1.
        assert (Ln : last q "" = n) by (destruct (Hp q) as [|[]]; [left; auto|contradiction|auto]). rewrite R4, Ln, eqb_refl.
        set (p2 := collapse_row (r_addr r) (set_store g1 p)).
        destruct (IH (remember q p2) HL1 FC1) as (p' & E' & X1 & X2 & X3 & X4 & X5); [intros q0 Hi; apply Hp; right; auto|].
        rewrite E'. cbn [fst]. exists p'. split; [cbn [existsb]; destruct q; [contradiction|]; reflexivity|]. split; auto. split; auto. split; [rewrite X3; auto|].
        split; [rewrite X4; cbn [filter]; destruct q; [contradiction|]; cbn [nonempty collapsed_paths remember p2 collapse_row set_expanded set_store]; rewrite <- app_assoc; auto|].
        intros a. rewrite X5. cbn [expanded remember p2 collapse_row set_expanded]. rewrite filter_In. change (expanded (set_store g1 p)) with (expanded p).
        change (store (set_store g1 p)) with g1.
        assert (U : negb (existsb (Nat.eqb a) (map r_addr (rows_under (r_addr r) g1))) = true <-> forall z, ~ spot L (q ++ z) a).
        { rewrite negb_true_iff, <- not_true_iff_false, existsb_exists. split.
          - intros H z S. apply H. exists a. split; [|apply Nat.eqb_refl]. apply (rows_under_spots _ _ _ HL1 q (r_addr r) a Sq). exists z. auto.
          - intros H (x & Hx & Ex). apply Nat.eqb_eq in Ex. subst x. apply (rows_under_spots _ _ _ HL1 q (r_addr r) a Sq) in Hx. destruct Hx as (z & Hz). apply (H z). auto. }
        rewrite U. split.
        * intros [[A B] C]. split; auto. intros q0 z [<-|Hi] Hz; auto.
        * intros [A B]. split; [split; [exact A|]|]; intros; apply B; solve [auto | left; auto | right; auto].
  Qed.

  (** Collapsing all the rows of a node. *)
  Lemma collapse_drawn : forall n ps p cs, drawn CI full p cs -> (forall q, In q ps <-> In q cs /\ last q "" = n) -> ps <> [] ->
    exists p', collapse_paths false n ps p = (p', true) /\ drawn CI full p' cs /\ idle_calls p' = idle_calls p /\
      (forall m, marked p' m <-> marked p m \/ m = n).
  Proof.
    intros n ps p cs (L & HL & FC & O1 & O2) Hp Np.
    assert (NE : forall q, In q ps -> q <> []).
    { intros q Hq ->. apply Hp in Hq. destruct Hq as [Hq _]. destruct (cs_spot _ _ _ HL _ Hq) as (a & S). apply (spot_nonempty _ _ _ HL _ _ S). auto. }
    destruct (collapse_ok cs L n ps p HL FC) as (p' & E & X1 & X2 & X3 & X4 & X5); [intros q Hq; right; apply Hp; auto|].
    assert (Fl : filter nonempty ps = ps).
    { clear - NE. induction ps as [|q ps IH]; auto. simpl. rewrite IH by (intros; apply NE; right; auto). destruct q; [exfalso; apply (NE []); [left|]; auto|]. auto. }
    assert (Se : existsb nonempty ps = true).
    { destruct ps as [|q ps]; [contradiction|]. cbn [existsb]. destruct q; [exfalso; apply (NE []); [left|]; auto|]. auto. }
    rewrite Se in E. rewrite Fl in X4.
    assert (MK : forall m, marked p' m <-> marked p m \/ m = n).
    { intros m. unfold marked. rewrite X4. split.
      - intros (q & Hq & Lq). apply in_app_iff in Hq. destruct Hq as [Hq|Hq]; [left; exists q; auto|]. right. apply Hp in Hq. destruct Hq. congruence.
      - intros [(q & Hq & Lq)| ->]; [exists q; rewrite in_app_iff; auto|]. destruct ps as [|q ps]; [contradiction|]. exists q. rewrite in_app_iff.
        assert (Hq : In q (q :: ps)) by (left; auto). split; auto. apply Hp in Hq. tauto. }
    exists p'. split; auto. split; [|auto]. exists L. split; auto. split; auto. split.
    - intros a Ha. apply X5 in Ha. destruct Ha as [Ha Hu]. destruct (O1 a Ha) as (l & S & B & U). exists l. split; auto. split; auto.
      intros m Hm M. apply MK in M. destruct M as [M| ->]; [apply (U m); auto|].
      apply in_split in Hm. destruct Hm as (l1 & l2 & ->). change (n :: l2) with ([n] ++ l2) in S. rewrite app_assoc in S.
      apply (Hu (l1 ++ [n]) l2); auto; [|destruct l1; discriminate]. apply Hp. rewrite last_last. split; auto.
      destruct (cs_above _ _ _ HL _ _ (spot_cs _ _ _ HL _ _ S)) as [Z|]; auto. destruct l1; discriminate.
    - intros Fu l a m S B U. apply X5. split.
      + apply (O2 Fu l a m); auto. intros x Hx M. apply (U x Hx). apply MK. auto.
      + intros q z Hq _ S'. pose proof (spot_path _ _ _ HL _ _ _ S S') as El.
        apply Hp in Hq. destruct Hq as [Hq Lq]. apply (U n); [|apply MK; auto]. destruct (cs_spot _ _ _ HL _ Hq) as (b & Sb).
        destruct (exists_last (spot_nonempty _ _ _ HL _ _ Sb)) as (q' & y & ->). rewrite last_last in Lq. subst y.
        rewrite El. apply in_app_iff. left. apply in_app_iff. right. left. auto.
  Qed.

  (** What an in-use widget satisfies. *)
  Definition chel := cheld (drawn CI full).

  Record tracked (asked : list id) (s : ft) (p : panel) : Prop := {
    tk_all : forall n, In n asked -> n <> "" /\ (marked p n \/ In (n, false) (idle_calls p) \/ In 0 (waiting s n));
    tk_mark : forall n, marked p n -> In n asked;
    tk_idle : forall n o, In (n, o) (idle_calls p) -> o = false /\ In n asked;
    tk_wait : forall n a, In a (waiting s n) -> 2 <= a \/ (a = 0 /\ In n asked)
  }.

  Lemma callbacks_In : forall l n, In (SRun n 0) l -> In (n, false) (callbacks l).
  Proof. intros l n H. unfold callbacks. apply in_flat_map. exists (SRun n 0). split; [exact H|left; reflexivity]. Qed.

  Lemma fate_runs : forall n acts acts' l a, fate n acts acts' l -> In (SRun n a) l -> In a acts.
  Proof.
    intros n acts acts' l a H I. destruct acts as [|b acts]; simpl in H.
    - destruct H as [_ H]. exfalso. apply (H _ I). simpl. auto.
    - destruct H as [[_ H]|[_ (l1 & q & l2 & -> & H1 & H2)]].
      + exfalso. apply (proj1 (H _ I)). simpl. auto.
      + apply in_app_iff in I. destruct I as [I|I]; [exfalso; apply (proj1 (H1 _ I)); simpl; auto|].
        apply in_app_iff in I. destruct I as [I|[I|I]]; [|discriminate|exfalso; apply (H2 _ I); simpl; auto].
        apply in_map_iff in I. destruct I as (x & E & I). inversion E; subst. auto.
  Qed.

  Lemma fate_wait : forall n acts acts' l, fate n acts acts' l -> (acts' = acts \/ acts' = []) /\ (forall a, In a acts -> In a acts' \/ In (SRun n a) l).
  Proof.
    intros n acts acts' l H. destruct acts as [|b acts]; simpl in H.
    - destruct H as [-> _]. split; auto. 
    - destruct H as [[-> H]|[-> (l1 & q & l2 & -> & H1 & H2)]]; [split; auto|]. split; auto. intros a Ha. right.
      rewrite !in_app_iff. right. left. apply in_map_iff. exists a. auto.
  Qed.

  Lemma news_of : forall s s' l, sent s' = sent s ++ l -> news s s' = l.
  Proof. intros s s' l E. unfold news. rewrite E, skipn_app, skipn_all, Nat.sub_diag. auto. Qed.

  Lemma use_call_ok : forall asked c t b s p, chel t b s p -> tracked asked s p -> supported (t, b, s) c -> (forall n a, c = VQueue n a -> 2 <= a) -> (QO -> lone_call c t) ->
    exists t' b' s' p', panel_call pf ord c (t, b, s) p = (t', b', s', p', Ok tt) /\ chel t' b' s' p' /\ tracked asked s' p' /\
      view_call ord c (t, b, s) = (t', b', s', Ok tt).
  Proof.
    intros asked c t b s p D [T1 T2 T3 T4] X Hq Lc.
    destruct (call_one ord HO (on_panel_signal pf) (drawn CI full) heeded QO heeded_nil heeded_app (fun T x p cs cs' a c d _ => panel_step pf full AL QO CI CR T x p cs cs' a c d) c t b s p D X Lc)
      as (t' & b' & s' & p' & E & D' & EV & [C1 C2] & Ob).
    exists t', b', s', p'. split; auto. split; auto. split; auto.
    assert (MK : forall n, marked p' n <-> marked p n) by (intros n; unfold marked; rewrite C1; tauto).
    assert (Cases : (exists n a, c = VQueue n a) \/ forall n a, c <> VQueue n a) by (destruct c; eauto; right; discriminate).
    destruct Cases as [(n & a & ->)|Nq].
    - specialize (Hq n a eq_refl). simpl in X. cbn [view_call] in EV. destruct (waiting_queue n a s X) as [Q1 Q2].
      assert (W : sent s' = sent s /\ forall m x, In x (waiting s' m) <-> In x (waiting s m) \/ (waiting s' m <> waiting s m /\ x = a)).
      { destruct (is_displayed s n) eqn:Dn.
        - rewrite Q1 in EV by auto. inversion EV; subst. split; auto. intros m x. tauto.
        - destruct (Q2 eq_refl) as (s0 & E0 & F1 & F2 & F3 & F4 & F5 & F6). rewrite E0 in EV. inversion EV; subst. split; auto. intros m x.
          destruct (id_dec m n) as [->|N]; [|rewrite F6 by auto; tauto]. rewrite F5, in_app_iff. simpl. split; [intros [|[|[]]]; auto|intros [|[]]; auto].
          right. split; auto. intros Z. apply (f_equal (@length nat)) in Z. rewrite app_length in Z. simpl in Z. lia. }
      destruct W as [W1 W2]. rewrite (news_same s s') in C2 by auto. unfold callbacks in C2. simpl in C2. rewrite app_nil_r in C2. constructor.
      + intros m Hm. destruct (T1 m Hm) as [A B]. split; auto. rewrite MK, C2, W2. tauto.
      + intros m Hm. apply T2. apply MK. auto.
      + intros m o Hm. rewrite C2 in Hm. auto.
      + intros m x Hx. apply W2 in Hx. destruct Hx as [Hx|[_ ->]]; auto.
    - destruct (Ob Nq) as (l & El & Fa). rewrite (news_of _ _ _ El) in C2. constructor.
      + intros m Hm. destruct (T1 m Hm) as [A B]. split; auto. rewrite MK, C2, in_app_iff. destruct B as [B|[B|B]]; auto.
        destruct (fate_wait _ _ _ _ (Fa m)) as [_ Y]. destruct (Y 0 B) as [Y'|Y']; auto. apply callbacks_In in Y'. auto.
      + intros m Hm. apply T2. apply MK. auto.
      + intros m o Hm. rewrite C2 in Hm. apply in_app_iff in Hm. destruct Hm as [Hm|Hm]; auto. unfold callbacks in Hm. apply in_flat_map in Hm.
        destruct Hm as (x & Hx & Hm). destruct x as [| | |k a]; try (destruct Hm; fail). destruct a as [|[|a]]; try (destruct Hm; fail).
        * destruct Hm as [Hm|[]]. inversion Hm; subst. split; auto. apply (fate_runs _ _ _ _ _ (Fa m)) in Hx. apply T4 in Hx. destruct Hx as [Hx|[_ Hx]]; [lia|auto].
        * exfalso. apply (fate_runs _ _ _ _ _ (Fa k)) in Hx. apply T4 in Hx. destruct Hx as [Hx|[Hx _]]; lia.
      + intros m x Hx. destruct (fate_wait _ _ _ _ (Fa m)) as [[Y|Y] _]; rewrite Y in Hx; [auto|destruct Hx].
  Qed.

  (** *** Collapsing *)
  Lemma collapse_id_ok : forall n t b s p, chel t b s p -> n <> "" -> (QO -> lone_tree t) ->
    exists s' p', collapse_id false n s p = (s', p', Ok tt) /\ chel t b s' p' /\ fnodes s' = fnodes s /\ froot s' = froot s /\
      (forall m, marked p' m <-> marked p m \/ (m = n /\ In n (view_all_nodes s))) /\
      (marked p' n \/ In (n, false) (idle_calls p') \/ In 0 (waiting s' n)) /\
      (forall z, In z (idle_calls p) -> In z (idle_calls p')) /\ (forall z, In z (idle_calls p') -> In z (idle_calls p) \/ z = (n, false)) /\
      (forall m a, In a (waiting s m) -> In a (waiting s' m)) /\ (forall m a, In a (waiting s' m) -> In a (waiting s m) \/ (m = n /\ a = 0)) /\
      (n <> froot s -> idle_calls p' = idle_calls p).
  Proof.
    intros n t b s p D Hn Lt. assert (Tn : truthy n = true) by (destruct n; auto; contradiction). unfold collapse_id. rewrite Tn. cbn [negb].
    destruct D as (l & v & cs & -> & C & Rd & Hh & Fp). rewrite pre_paths.
    destruct (current_heard _ _ _ C) as (cs' & Hh' & K). rewrite (hear_all_det _ _ _ _ Hh' Hh) in K. clear cs' Hh'.
    pose proof (synced_sound _ _ _ (c_sync _ _ _ C)) as So. change (view_all_nodes (pre l v)) with (view_all_nodes v).
    destruct (in_dec id_dec n (view_all_nodes v)) as [Hv|Hv].
    - destruct (sound_paths v n So Hv) as (P & EP & _ & HP). rewrite EP.
      assert (NP : P <> []). { destruct (has_path t b v n C Hv) as (q & Hq). intros ->. apply (proj2 (HP (q ++ [n]))). rewrite last_last. auto. }
      destruct (collapse_drawn n P p cs Fp) as (p' & E & D' & I' & M'); [intros q; rewrite HP, K; tauto|auto|]. rewrite E.
      exists (pre l v), p'. split; [reflexivity|]. split; [exists l, v, cs; auto|]. split; auto. split; auto. split; [intros m; rewrite M'; tauto|].
      split; [left; apply M'; auto|]. rewrite I'. split; [auto|]. split; [auto|]. split; [auto|]. split; [|auto]. intros m a Ha. left. exact Ha.
    - assert (Hd : is_displayed v n = false \/ n = froot v).
      { destruct (is_displayed v n) eqn:Dn; auto. right. destruct (id_dec n (froot v)); auto. exfalso. apply Hv. apply all_nodes_In; [apply So|auto]. }
      rewrite (other_paths v n Hd). cbn [collapse_paths my_get_iter rev my_get_iter_rev]. 
      assert (Sp : set_store (store p) p = p) by (destruct p; auto). rewrite Sp.
      assert (MK : forall m, marked p m <-> marked p m \/ (m = n /\ In n (view_all_nodes v))) by (intros m; tauto).
      destruct (waiting_queue n 0 (pre l v) Hn) as [Q1 Q2]. destruct (is_displayed (pre l v) n) eqn:Dn.
      + rewrite Q1 by auto. eexists _, _. split; [reflexivity|]. split; [exists l, v, cs; auto 6|]. split; auto. split; auto. split; [exact MK|].
        cbn [idle_calls set_idle]. split; [right; left; apply in_app_iff; right; left; auto|]. split; [intros; apply in_app_iff; auto|].
        split; [intros z Hz; apply in_app_iff in Hz; destruct Hz as [|[|[]]]; auto|]. split; auto. split; auto. intros Nr. exfalso. destruct Hd as [Hd|Hd]; [|auto]. change (is_displayed v n = true) in Dn. congruence.
      + destruct (Q2 eq_refl) as (s0 & E0 & F1 & F2 & F3 & F4 & F5 & F6). rewrite E0.
        assert (D' : chel t b s0 p).
        { assert (Dp : chel t b (pre l v) p) by (exists l, v, cs; auto 6).
          destruct (call_one ord HO (on_panel_signal pf) (drawn CI full) heeded QO heeded_nil heeded_app (fun T x p cs cs' a c d _ => panel_step pf full AL QO CI CR T x p cs cs' a c d) (VQueue n 0) t b (pre l v) p Dp Hn (fun o => conj (Lt o) I))
            as (t' & b' & s' & p' & E & D' & EV & _).
          cbn [client_call view_call] in E. rewrite E0 in E. cbn [done snd] in E. rewrite (news_same (pre l v) s0) in E by auto. cbn [tell] in E.
          inversion E; subst. exact D'. }
        exists s0, p. split; [reflexivity|]. split; [exact D'|]. split; [exact F1|]. split; [exact F2|]. split; [exact MK|].
        split; [right; right; rewrite F5; apply in_app_iff; right; left; auto|]. split; [auto|]. split; [auto|]. split; [|split].
        * intros m a Ha. destruct (id_dec m n) as [->|N]; [rewrite F5; apply in_app_iff; auto|rewrite F6; auto].
        * intros m a Ha. destruct (id_dec m n) as [->|N]; [|rewrite F6 in Ha; auto]. rewrite F5 in Ha. apply in_app_iff in Ha. destruct Ha as [|[|[]]]; auto.
        * auto.
  Qed.

  Lemma tell_signals : forall T l g, tell (on_signal pf) T l g = on_signals pf T l g.
  Proof. intros T l. induction l as [|x l IH]; intros g; cbn [tell on_signals]; auto. destruct (on_signal pf T x g) as [g1 [u|e|]]; auto. Qed.
  Lemma build_connect : forall x, client_connect (on_signal pf) x new_gtk = connect pf x.
  Proof. intros [[t b] s]. unfold client_connect, connect. destruct (get_current_state s) as [s1 [u|e|]]; auto. rewrite tell_signals. auto. Qed.

  Lemma seen_step : forall T x g cs cs', (exists L, layout L g cs /\ CI L g cs) -> hear cs x cs' -> names_live (T, x) -> mindful T x cs' -> (QO -> newb cs x = true) ->
    exists g', on_signal pf T x g = (g', Ok tt) /\ (exists L, layout L g' cs' /\ CI L g' cs') /\ True.
  Proof.
    intros T x g cs cs' (L & HL & FC) Hh Hn _ N. destruct (signal_ok pf T x L g cs cs' AL HL (cr_good _ _ _ CR _ _ _ HL FC) Hh Hn) as (g' & L' & E & HL' & EV).
    exists g'. split; auto. split; auto. exists L'. split; auto. apply (cr_step _ _ _ CR _ _ _ _ _ _ _ HL FC EV Hh N).
  Qed.
  Lemma layout_new : layout [] new_gtk [].
  Proof. destruct (follows_new pf) as (L & HL & _). assert (L = []) by (destruct L as [|[l r] L]; auto; destruct (lay_in _ _ _ HL l r (or_introl eq_refl))). subst L. exact HL. Qed.

  Lemma start_ok : forall x, viewing ord x -> (full -> no_nesting x) -> (forall n a, In a (waiting (snd x) n) -> 2 <= a) -> (QO -> lone_tree (fst (fst x))) ->
    exists t b s p, build_panel pf x = (t, b, s, p, Ok tt) /\ chel t b s p /\ tracked [] s p /\ (forall q, view_path s q <-> view_path (snd x) q) /\
      expanded p = [] /\ idle_calls p = [].
  Proof.
    intros x V Nn Hw Lt.
    destruct (connect_one ord HO (on_signal pf) (fun g cs => exists L, layout L g cs /\ CI L g cs) QO seen_step x new_gtk V) as (t & b & s & g & E & (l & v & cs & -> & C & _ & Hh & (L & HL & FC)) & Hp); auto.
    { exists []. split; [exact (layout_new)|apply (cr_new _ _ _ CR)]. }
    rewrite build_connect in E. unfold build_panel. rewrite build_connect, E. exists t, b, (pre l v), (mkPanel g [] [] []). split; [reflexivity|].
    assert (Ro : runonce v = runonce (snd x) /\ fnodes v = fnodes (snd x)).
    { destruct x as [[t0 b0] s0]. cbn [snd]. pose proof (viewing_current ord HO _ V) as C0. simpl in C0.
      destruct (current_state s0) as (ps & s' & E' & Lk & Rn & _).
      - apply (synced_sound _ _ _ (c_sync _ _ _ C0)).
      - intros y Hy Hi. assert (Dy := proj1 (all_nodes_In s0 y (so_keys _ (synced_sound _ _ _ (c_sync _ _ _ C0)))) Hi).
        pose proof (proj1 (synced_D _ _ _ (c_apt _ _ _ C0) (c_sync _ _ _ C0) y) Dy) as Dx.
        destruct (apt_D b0 (filters s0) (froot s0) t0 (c_apt _ _ _ C0) y Dx) as [A B]. apply B. auto.
      - apply (viewing_ready ord HO _ V).
      - unfold connect in E. rewrite E' in E. destruct (on_signals pf t0 (news s0 s') new_gtk) as [g1 r1]. inversion E; subst.
        split; [exact Rn|]. exact (lk_nodes _ _ Lk). }
    destruct Ro as [Ro Fn].
    split; [|split; [|split; [exact Hp|auto]]].
    - exists l, v, cs. split; auto. split; auto. split.
      + pose proof (viewing_ready ord HO _ V) as [R1 R2]. split; [rewrite Ro; auto|]. intros n Hd. unfold waiting. rewrite Ro. apply R2. unfold is_displayed in *. rewrite <- Fn. auto.
      + split; auto. exists L. split; auto. split; auto. split; [intros a []|]. intros Fu l0 a n S B _. exfalso.
        destruct (current_heard _ _ _ C) as (cs' & Hh' & K). rewrite (hear_all_det _ _ _ _ Hh' Hh) in K.
        apply K in B. apply (Hp (l0 ++ [n])) in B. apply (Nn Fu) in B. rewrite app_length in B. simpl in B. apply (spot_nonempty _ _ _ HL _ _ S). destruct l0; auto. simpl in B. lia.
    - constructor.
      + intros n [].
      + intros n (q & [] & _).
      + intros n o [].
      + intros n a Ha. left. apply (Hw n a). change (waiting (pre l v) n) with (waiting v n) in Ha. unfold waiting in *. rewrite <- Ro. auto.
  Qed.

  Lemma sort_drawn : forall p cs rs, drawn CI full p cs -> Permutation rs (rows (store p)) ->
    drawn CI full (set_store (mkGtk rs (clock (store p)) (cache_paths (store p)) (cache_position (store p))) p) cs.
  Proof.
    intros p cs rs (L & HL & FC & O1 & O2) P.
    set (g' := mkGtk rs (clock (store p)) (cache_paths (store p)) (cache_position (store p))).
    destruct (layout_sort L (store p) g' cs HL P eq_refl) as (L' & HL' & PL). exists L'.
    assert (IN : forall z, In z L' <-> In z L) by (intros z; split; apply Permutation_in; [|apply Permutation_sym]; exact PL).
    split; [exact HL'|]. split.
    - apply (cr_sort _ _ _ CR L); auto.
    - assert (SP : forall l a, spot L' l a <-> spot L l a) by (intros l a; unfold spot; split; intros (r & I & E); exists r; (split; [apply IN; exact I|exact E])).
      destruct (open_same L L' cs p (set_store g' p) SP eq_refl eq_refl). auto.
  Qed.

  Lemma tracked_collapse : forall asked n s p s' p', tracked asked s p -> n <> "" ->
    (forall m, marked p' m <-> marked p m \/ (m = n /\ In n (view_all_nodes s))) ->
    (marked p' n \/ In (n, false) (idle_calls p') \/ In 0 (waiting s' n)) ->
    (forall z, In z (idle_calls p) -> In z (idle_calls p')) -> (forall z, In z (idle_calls p') -> In z (idle_calls p) \/ z = (n, false)) ->
    (forall m a, In a (waiting s m) -> In a (waiting s' m)) -> (forall m a, In a (waiting s' m) -> In a (waiting s m) \/ (m = n /\ a = 0)) ->
    tracked (n :: asked) s' p'.
  Proof.
    intros asked n s p s' p' [T1 T2 T3 T4] Hn M A I1 I2 W1 W2. constructor.
    - intros m [<-|Hm]; [auto|]. destruct (T1 m Hm) as [B C]. split; auto. rewrite M. destruct C as [C|[C|C]]; auto.
    - intros m Hm. apply M in Hm. destruct Hm as [Hm|[-> _]]; [right|left]; auto.
    - intros m o Hm. apply I2 in Hm. destruct Hm as [Hm|Hm]; [destruct (T3 m o Hm); split; auto; right; auto|]. inversion Hm; subst. split; [auto|left; auto].
    - intros m a Ha. apply W2 in Ha. destruct Ha as [Ha|[-> ->]]; [|right; split; [auto|left; auto]].
      destruct (T4 m a Ha) as [Y|[Y1 Y2]]; [left; exact Y|]. right. split; [exact Y1|right; exact Y2].
  Qed.

  Lemma idle_ok : forall asked t b s p, chel t b s p -> tracked asked s p -> (QO -> lone_tree t) ->
    exists s' p', run_idle s p = (s', p', Ok tt) /\ chel t b s' p' /\ tracked asked s' p' /\
      (forall n o rest, idle_calls p = (n, o) :: rest -> n <> froot s -> idle_calls p' = rest) /\ fnodes s' = fnodes s /\ froot s' = froot s.
  Proof.
    intros asked t b s p D TK Lt. unfold run_idle. destruct (idle_calls p) as [|[n o] rest] eqn:Ei.
    { exists s, p. split; auto. split; auto. split; auto. split; [discriminate|auto]. }
    destruct TK as [T1 T2 T3 T4]. destruct (T3 n o) as [-> Ha]; [rewrite Ei; left; auto|]. destruct (T1 n Ha) as [Hn _].
    set (p0 := set_idle rest p).
    assert (D0 : chel t b s p0).
    { destruct D as (l & v & cs & E & C & Rd & Hh & (L & HL & FC & O1 & O2)). exists l, v, cs. split; auto. split; auto. split; auto. split; auto. exists L. auto. }
    destruct (collapse_id_ok n t b s p0 D0 Hn Lt) as (s' & p' & E & D' & Fn & Fr & M & A & I1 & I2 & W1 & W2 & Ix).
    rewrite E. exists s', p'. split; auto. split; auto. split; [|split; [|auto]].
    - constructor.
      + intros m Hm. destruct (id_dec m n) as [->|Nm]; [auto|]. destruct (T1 m Hm) as [B K]. split; auto. rewrite M. destruct K as [K|[K|K]]; auto.
        rewrite Ei in K. destruct K as [K|K]; [congruence|]. right. left. apply I1. exact K.
      + intros m Hm. apply M in Hm. destruct Hm as [Hm|[-> _]]; auto.
      + intros m o Hm. apply I2 in Hm. destruct Hm as [Hm|Hm]; [apply T3; rewrite Ei; right; exact Hm|]. inversion Hm; subst. auto.
      + intros m a Hm. apply W2 in Hm. destruct Hm as [Hm|[-> ->]]; auto.
    - intros n0 o0 rest0 Er Nr. inversion Er; subst. apply Ix. auto.
  Qed.

  Lemma in_use_inv : forall (start : viewed -> Prop) asked x p, (full -> forall x, start x -> no_nesting x) -> ~ QO -> in_use ord pf start asked x p ->
    let '(t, b, s) := x in chel t b s p /\ tracked asked s p.
  Proof.
    intros start asked x p St NQ H. induction H as [x x' p r V Sx Hw E|asked [[t b] s] p c x' p' r H IH X Hq E|asked [[t b] s] p rs H IH P
      |asked t b s p above n s' p' r H IH Hn E|asked t b s p s' p' r H IH E].
    - destruct (start_ok x V) as (t & b & s & p0 & E0 & D & T & _); auto; [tauto|]. rewrite E0 in E. inversion E; subst. auto.
    - destruct IH as [D T]. destruct (use_call_ok asked c t b s p D T X Hq) as (t' & b' & s' & p2 & E2 & D' & T' & _); [tauto|]. rewrite E2 in E. inversion E; subst. auto.
    - destruct IH as [(l & v & cs & E & C & Rd & Hh & Fp) [T1 T2 T3 T4]]. split.
      + exists l, v, cs. split; auto. split; auto. split; auto. split; auto. apply sort_drawn; auto.
      + constructor; auto.
    - destruct IH as [D T]. unfold collapse_node in E. rewrite rev_app_distr in E. cbn [rev app] in E.
      destruct (collapse_id_ok (strip n) t b s p D Hn) as (s2 & p2 & E2 & D' & Fn & Fr & M & A & I1 & I2 & W1 & W2 & _); [tauto|]. rewrite E2 in E. inversion E; subst.
      split; auto. apply (tracked_collapse asked (strip n) s p s' p'); auto.
    - destruct IH as [D T]. destruct (idle_ok asked t b s p D T) as (s2 & p2 & E2 & D' & T' & _); [tauto|]. rewrite E2 in E. inversion E; subst. auto.
  Qed.

  Lemma chel_shows : forall t b s p, chel t b s p -> shows (rows (store p)) (view_path s).
  Proof.
    intros t b s p (l & v & cs & -> & C & Rd & Hh & (L & HL & _)).
    destruct (current_heard _ _ _ C) as (cs' & Hh' & K). rewrite (hear_all_det _ _ _ _ Hh' Hh) in K. apply (layout_shows L (store p) cs); auto.
  Qed.

  Lemma chel_open : forall asked t b s p, chel t b s p -> tracked asked s p -> idle_calls p = [] -> forall r l, at_path (rows (store p)) r l ->
    (is_open p r -> has_below (rows (store p)) r /\ forall n, In n l -> ~ In n asked) /\
    (full -> has_below (rows (store p)) r -> (forall n, In n l -> ~ In n asked) -> is_open p r).
  Proof.
    intros asked t b s p (l & v & cs & -> & C & Rd & Hh & (L & HL & FC & O1 & O2)) [T1 T2 T3 T4] Ei r q Hr.
    apply (layout_at _ _ _ HL) in Hr. assert (Sr : spot L q (r_addr r)) by (exists r; auto).
    destruct (current_heard _ _ _ C) as (cs' & Hh' & K). rewrite (hear_all_det _ _ _ _ Hh' Hh) in K.
    assert (MK : forall n, In n q -> (marked p n <-> In n asked)).
    { intros n Hn. split; [apply T2|]. intros Ha. destruct (T1 n Ha) as [_ [B|[B|B]]]; auto; [rewrite Ei in B; destruct B|]. exfalso.
      change (In 0 (waiting v n)) in B. destruct Rd as [_ Rd]. rewrite (Rd n) in B; [destruct B|]. pose proof (synced_sound _ _ _ (c_sync _ _ _ C)) as So.
      apply in_split in Hn. destruct Hn as (q1 & q2 & ->). change (n :: q2) with ([n] ++ q2) in Sr. rewrite app_assoc in Sr.
      destruct (cs_above _ _ _ HL _ _ (spot_cs _ _ _ HL _ _ Sr)) as [Z|Z]; [destruct q1; discriminate|]. apply K in Z. apply sound_last in Z; auto. rewrite last_last in Z.
      apply all_nodes_In in Z; [tauto|apply So]. }
    assert (HB : has_below (rows (store p)) r <-> exists n, In (q ++ [n]) cs).
    { assert (Fo : found L q (Some (r_addr r))) by (right; exists r; auto). rewrite <- (below_rows _ _ _ HL q (r_addr r) Sr). unfold has_below, has_rows, store_children. split.
      - intros (c & Ic & Pc). destruct (filter (parent_is (Some (r_addr r))) (rows (store p))) as [|y z] eqn:Ef; auto.
        assert (Jc : In c (filter (parent_is (Some (r_addr r))) (rows (store p)))) by (apply filter_In; split; auto; unfold parent_is; rewrite Pc; apply Nat.eqb_refl).
        rewrite Ef in Jc. destruct Jc.
      - destruct (filter (parent_is (Some (r_addr r))) (rows (store p))) as [|y z] eqn:Ef; [discriminate|]. intros _. exists y.
        assert (Jy : In y (filter (parent_is (Some (r_addr r))) (rows (store p)))) by (rewrite Ef; left; auto). apply filter_In in Jy. destruct Jy as [J1 J2]. split; auto.
        unfold parent_is in J2. destruct (r_parent y); [|discriminate]. apply Nat.eqb_eq in J2. congruence. }
    split.
    - intros Op. destruct (O1 _ Op) as (q' & S' & B & U). rewrite (spot_path _ _ _ HL _ _ _ S' Sr) in *. split; [apply HB; auto|]. intros n Hn Ha. apply (U n Hn). apply MK; auto.
    - intros Fu B U. apply HB in B. destruct B as (n & B). apply (O2 Fu q (r_addr r) n); auto. intros m Hm M. apply (U m Hm). apply MK; auto.
  Qed.
End Use.

Section Thm.
  Variable ord : nat -> list id -> list id.
  Variable pf : platform.
  Hypothesis HO : forall k l, Permutation (ord k l) l.
  Hypothesis AL : faithful pf.
  Hypothesis NR : never_reuses pf.
  Let CR := address_rule pf NR.

  Lemma in_use_any : forall start asked t b s p, in_use ord pf start asked (t, b, s) p -> chel False (by_address pf) t b s p /\ tracked asked s p.
  Proof. intros start asked t b s p H. apply (in_use_inv ord pf False HO AL False (by_address pf) CR start asked (t, b, s) p); auto. contradiction. Qed.

  Lemma use_shows : forall start asked t b s p, in_use ord pf start asked (t, b, s) p -> shows (rows (store p)) (view_path s).
  Proof. intros start asked t b s p H. apply in_use_any in H. destruct H as [H _]. eapply chel_shows; eauto. Qed.

  Lemma use_build : forall x, viewing ord x -> (forall n a, In a (waiting (snd x) n) -> 2 <= a) ->
    exists t b s p, build_panel pf x = (t, b, s, p, Ok tt) /\ expanded p = [] /\ forall q, view_path s q <-> view_path (snd x) q.
  Proof.
    intros x V Hw. destruct (start_ok ord pf False HO AL False (by_address pf) CR x V) as (t & b & s & p & E & _ & _ & P & X & _); auto; try contradiction. exists t, b, s, p. auto.
  Qed.

  Lemma use_fine : forall start asked t b s p, in_use ord pf start asked (t, b, s) p ->
    (forall c, supported (t, b, s) c -> (forall n a, c = VQueue n a -> 2 <= a) ->
      exists p', panel_call pf ord c (t, b, s) p = (fst (view_call ord c (t, b, s)), p', Ok tt)) /\
    (forall above n, strip n <> "" -> exists s' p', collapse_node false (above ++ [n]) s p = (s', p', Ok tt) /\ fnodes s' = fnodes s) /\
    (exists s' p', run_idle s p = (s', p', Ok tt) /\ fnodes s' = fnodes s /\
      forall n o rest, idle_calls p = (n, o) :: rest -> n <> froot s -> idle_calls p' = rest).
  Proof.
    intros start asked t b s p H. apply in_use_any in H. destruct H as [D T]. split; [|split].
    - intros c X Hq. destruct (use_call_ok ord pf False HO AL False (by_address pf) CR asked c t b s p D T X Hq) as (t' & b' & s' & p' & E & _ & _ & EV); [tauto|]. exists p'. rewrite EV. exact E.
    - intros above n Hn. unfold collapse_node. rewrite rev_app_distr. cbn [rev app].
      destruct (collapse_id_ok ord pf False HO AL False (by_address pf) CR (strip n) t b s p D Hn) as (s2 & p2 & E2 & D' & Fn & _); [tauto|]. exists s2, p2. auto.
    - destruct (idle_ok ord pf False HO AL False (by_address pf) CR asked t b s p D T) as (s2 & p2 & E2 & D' & T' & I & F & _); [tauto|]. exists s2, p2. auto.
  Qed.

  Lemma use_closed : forall start asked t b s p, in_use ord pf start asked (t, b, s) p -> idle_calls p = [] ->
    forall r l n, at_path (rows (store p)) r l -> In n l -> In n asked -> ~ is_open p r.
  Proof.
    intros start asked t b s p H Ei r l n Hr Hn Ha Op. apply in_use_any in H. destruct H as [D T].
    destruct (chel_open False (by_address pf) asked t b s p D T Ei r l Hr) as [A _]. destruct (A Op) as [_ B]. apply (B n); auto.
  Qed.

  Lemma use_exact : forall asked t b s p, in_use ord pf no_nesting asked (t, b, s) p -> idle_calls p = [] ->
    forall r l, at_path (rows (store p)) r l -> (is_open p r <-> has_below (rows (store p)) r /\ forall n, In n l -> ~ In n asked).
  Proof.
    intros asked t b s p H Ei r l Hr. destruct (in_use_inv ord pf True HO AL False (by_address pf) CR no_nesting asked (t, b, s) p (fun _ x Hx => Hx) (fun f => f) H) as [D T].
    destruct (chel_open True (by_address pf) asked t b s p D T Ei r l Hr) as [A B]. split; [exact A|]. intros [X Y]. apply B; auto.
  Qed.
End Thm.
