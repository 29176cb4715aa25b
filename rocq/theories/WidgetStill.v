(** The widget: rows that were closed stay closed. *)
From Coq Require Import Permutation.
From Verif Require Import Base BaseFacts MainTree Spec MainFacts MainReg MainTight Filters FTree SpecApi
  SpecView SpecViewing FtBase FtWalk FtEdge FtUp FtFront FtDown FtSync FtTree FtOps FtSent FtKeep FtState FtView FtThm FtSignals FtHist FtQuiet FtRead
  Gtk SpecGtk GtkFacts GtkView GtkRemove Widget SpecWidget FtMind ClientFacts ConnectFacts WidgetFacts WidgetUse SpecExpand WidgetExpand WidgetClose.
Open Scope f_scope.

Lemma heeded_quiet : forall p p' x, collapsed_paths p' = collapsed_paths p -> idle_calls p' = idle_calls p -> callbacks [x] = [] -> heeded p p' [x].
Proof. intros p p' x A B C. split; auto. rewrite C, app_nil_r. auto. Qed.

Section Still.
  Variable ord : nat -> list id -> list id.
  Variable pf : platform.
  Hypothesis HO : forall k l, Permutation (ord k l) l.
  Hypothesis AL : faithful pf.
  Variable QO : Prop.
  Variable CI : list (list id * row) -> gtk -> list (list id) -> Prop.
  Hypothesis CR : cache_rule pf QO CI.
  Variable n : id.

  (** No open row is one of the node. *)
  Definition shut (L : list (list id * row)) (p : panel) : Prop := forall a, In a (expanded p) -> exists l, spot L l a /\ last l "" <> n.
  Definition still (p : panel) (cs : list (list id)) : Prop := exists L, layout L (store p) cs /\ CI L (store p) cs /\ marked p n /\ shut L p.

  Lemma still_added : forall T m q p cs, still p cs -> ~ In (q ++ [m]) cs -> q = [] \/ In q cs -> has_node T m = true -> (QO -> newb cs (SAdded m (q ++ [m])) = true) ->
    exists p', on_panel_signal pf T (SAdded m (q ++ [m])) p = (p', Ok tt) /\ still p' (cs ++ [q ++ [m]]) /\ heeded p p' [SAdded m (q ++ [m])].
  Proof.
    intros T m q p cs (L & HL & FC & M & S) Hn Hq Ht Nw. cbn [on_panel_signal]. rewrite removelast_last.
    destruct (get_iter_fwd L cs q (store p) HL (cr_good _ _ _ CR _ _ _ HL FC) Hq) as (g0 & it & E0 & Fo & _). rewrite E0. cbn [snd].
    destruct (added_ok pf T L (store p) cs m q AL HL (cr_good _ _ _ CR _ _ _ HL FC) Ht Hn Hq) as (g1 & L1 & E1 & HL1 & EV & r & Fr & Er & P).
    rewrite E1. pose proof (cr_step _ _ _ CR _ _ _ _ _ _ _ HL FC EV (hear_added cs q m Hn Hq) Nw) as FC1.
    assert (SP : forall l a, spot L1 l a <-> spot L l a \/ (l = q ++ [m] /\ a = r_addr r)) by (intros l a; apply (spots_added L L1 (q ++ [m], r)); auto).
    set (p1 := set_store g1 p).
    assert (S1 : shut L1 p1) by (intros a Ha; destruct (S a Ha) as (l & Sl & N); exists l; split; [apply SP; auto|auto]).
    assert (St : forall p', store p' = g1 -> collapsed_paths p' = collapsed_paths p -> shut L1 p' -> still p' (cs ++ [q ++ [m]])).
    { intros p' A B C. exists L1. rewrite A. split; [exact HL1|]. split; [exact FC1|]. split; [|exact C]. unfold marked. rewrite B. exact M. }
    assert (Z : exists p', (p1, Ok tt) = (p', Ok tt) /\ still p' (cs ++ [q ++ [m]]) /\ heeded p p' [SAdded m (q ++ [m])]).
    { exists p1. split; auto. split; [apply St; auto|apply heeded_quiet; auto]. }
    destruct it as [a|]; [|exact Z]. destruct Fo as [[_ X]|(rq & Iq & X)]; [discriminate|]. inversion X; subst a. clear X. set (a := r_addr rq) in *.
    assert (Sq : spot L q a) by (exists rq; auto). assert (Sq1 : spot L1 q a) by (apply SP; auto).
    assert (Fo1 : found L1 q (Some a)) by (destruct Sq1 as (r1 & I1 & X); right; exists r1; split; auto; congruence).
    assert (Ir : In (q ++ [r_id r], r) L1) by (rewrite Er; apply (Permutation_in _ (Permutation_sym P)); apply in_app_iff; right; left; auto).
    destruct (Nat.eqb (length (store_children (Some a) g1)) 1) eqn:Len; [|exact Z].
    unfold on_child_toggled. destruct (spot_row _ _ _ HL1 _ _ Sq1) as (r1 & R1 & R2 & R3 & R4). change (store p1) with g1. rewrite R1.
    destruct (negb (row_expanded a p1) && negb (existsb (fun c => String.eqb (last c "") (r_id r1)) (collapsed_paths p1))) eqn:Q; [|exact Z].
    apply andb_true_iff in Q. destruct Q as [_ Q]. apply negb_true_iff in Q.
    assert (Nq : last q "" <> n).
    { intros X. apply not_true_iff_false in Q. apply Q. apply marked_existsb. rewrite R4, X. exact M. }
    unfold expand_row. destruct (known a p1 && has_rows a (store p1)); [|exact Z].
    set (below := filter (fun x => has_rows x (store p1)) (map r_addr (rows_under a (store p1)))). change (store p1) with g1 in below.
    assert (Bl : forall x, In x below -> x = a).
    { intros x Hx. apply filter_In in Hx. destruct Hx as [Hx Hr]. apply (rows_under_spots _ _ _ HL1 q a x Sq1) in Hx. destruct Hx as (z & Sz).
      destruct z as [|y z]; [rewrite app_nil_r in Sz; apply (spot_addr _ _ _ HL1 _ _ _ Sz Sq1)|]. exfalso.
      apply (below_rows _ _ _ HL1 _ _ Sz) in Hr. destruct Hr as (w & Hw).
      assert (Only : forall v, In (q ++ [v]) (cs ++ [q ++ [m]]) -> v = m).
      { intros v Hv. destruct (lay_cs _ _ _ HL1 _ Hv) as (c & Ic).
        assert (Ec : r_id c = v) by (destruct (l_path _ _ _ HL1 _ _ Ic) as (q' & X & _); apply app_inj_tail in X; destruct X; auto).
        rewrite <- Ec in Ic. pose proof (proj2 (store_children_In _ _ _ _ _ _ HL1 Fo1) Ic) as Jc. pose proof (proj2 (store_children_In _ _ _ _ _ _ HL1 Fo1) Ir) as Jr.
        apply Nat.eqb_eq in Len. destruct (store_children (Some a) g1) as [|u [|u' t]]; simpl in *; [contradiction| |lia]. destruct Jc as [Jc|[]]. destruct Jr as [Jr|[]]. congruence. }
      assert (Hy : In (q ++ [y]) (cs ++ [q ++ [m]])).
      { apply (prefix_cs L1 g1 _ HL1 (z ++ [w])); [destruct q; discriminate|]. replace ((q ++ [y]) ++ z ++ [w]) with ((q ++ y :: z) ++ [w]) by (rewrite <- !app_assoc; auto). auto. }
      apply Only in Hy. subst y. apply in_app_iff in Hw. destruct Hw as [Hw|[Hw|[]]].
      - apply Hn. apply (prefix_cs L (store p) _ HL (z ++ [w])); [destruct q; discriminate|]. replace ((q ++ [m]) ++ z ++ [w]) with ((q ++ m :: z) ++ [w]) by (rewrite <- !app_assoc; auto). auto.
      - rewrite <- app_assoc in Hw. apply app_inv_head in Hw. destruct z; discriminate. }
    eexists. split; [reflexivity|]. split; [|apply heeded_quiet; reflexivity]. apply St; [reflexivity|reflexivity|].
    intros x Hx. cbn [expanded set_expanded] in Hx. apply in_app_iff in Hx.
    assert (Hx' : In x (expanded p) \/ x = a) by (destruct Hx as [Hx|[Hx|Hx]]; [left; exact Hx|right; auto|right; apply Bl; exact Hx]).
    destruct Hx' as [Hx'| ->]; [apply S1; exact Hx'|exists q; auto].
  Qed.

  Lemma still_deleted : forall T m q p cs, still p cs -> In (q ++ [m]) cs -> (forall below, below <> [] -> ~ In (q ++ [m] ++ below) cs) ->
    exists p', on_panel_signal pf T (SDeleted m (q ++ [m])) p = (p', Ok tt) /\
      still p' (filter (fun l => negb (path_eqb l (q ++ [m]))) cs) /\ heeded p p' [SDeleted m (q ++ [m])].
  Proof.
    intros T m q p cs (L & HL & FC & M & S) Hn Hb. cbn [on_panel_signal].
    destruct (deleted_ok pf T L (store p) cs m q HL (cr_good _ _ _ CR _ _ _ HL FC) Hn Hb) as (g1 & L1 & E1 & HL1 & EV & EL).
    rewrite E1. pose proof (cr_step _ _ _ CR _ _ _ _ _ _ _ HL FC EV (hear_deleted cs q m Hn Hb) (fun _ => eq_refl)) as FC1.
    eexists. split; [reflexivity|]. split; [|apply heeded_quiet; reflexivity]. exists L1. split; [exact HL1|]. split; [exact FC1|]. split; [exact M|].
    intros a Ha. cbn [expanded] in Ha. apply filter_In in Ha. destruct Ha as [Ha Hr]. destruct (S a Ha) as (l & (r & I & E) & N). exists l. split; [|exact N].
    unfold has_rows in Hr. destruct (store_children (Some a) g1) as [|c k] eqn:Ec; [discriminate|].
    assert (Jc : In c (store_children (Some a) g1)) by (rewrite Ec; left; auto). unfold store_children in Jc. apply filter_In in Jc. destruct Jc as [Jc Pc].
    unfold parent_is in Pc. destruct (r_parent c) as [b|] eqn:Pb; [|discriminate]. apply Nat.eqb_eq in Pc. subst b.
    destruct (lay_row _ _ _ HL1 c Jc) as (lc & Ic). destruct (l_path _ _ _ HL1 _ _ Ic) as (q0 & _ & [[_ X]|(rq & Iq & X)]); [congruence|].
    rewrite Pb in X. inversion X as [Ea]. exists rq. split; auto.
    assert (Iq0 : In (q0, rq) L) by (rewrite EL in Iq; apply filter_In in Iq; apply Iq).
    destruct (lay_addr _ _ _ HL q0 rq l r Iq0 I) as [-> _]; [congruence|exact Iq].
  Qed.

  Lemma still_step : forall T x p cs cs', still p cs -> hear cs x cs' -> names_live (T, x) -> mindful T x cs' -> (QO -> newb cs x = true) ->
    exists p', on_panel_signal pf T x p = (p', Ok tt) /\ still p' cs' /\ heeded p p' [x].
  Proof.
    intros T x p cs cs' D H Hn _ Nw. destruct H as [cs q m N1 N2|cs q m N1 N2|cs q m N1|cs m k].
    - apply still_added; auto.
    - apply still_deleted; auto.
    - cbn [on_panel_signal]. destruct D as (L & HL & FC & M & S).
      destruct (modified_ok pf T L (store p) cs m q AL HL (cr_good _ _ _ CR _ _ _ HL FC) Hn N1) as (g1 & L1 & E1 & HL1 & EV & r & nd & Ir & _ & EL).
      rewrite E1. eexists. split; [reflexivity|]. split; [|apply heeded_quiet; reflexivity].
      exists L1. split; [exact HL1|]. split; [apply (cr_step _ _ _ CR _ _ _ _ _ _ _ HL FC EV (hear_modified cs q m N1) (fun _ => eq_refl))|].
      assert (SP : forall l a, spot L1 l a <-> spot L l a).
      { apply (spot_modified L L1 (store p) g1 cs HL HL1). intros l a (r' & I & <-). destruct (EL _ I) as ([l0 r0] & I0 & E2 & E3). cbn [fst snd] in *.
        subst l0 r'. exists r0. split; auto. destruct (Nat.eqb (r_addr r0) (r_addr r)) eqn:Q; auto. apply Nat.eqb_eq in Q. auto. }
      split; [exact M|]. intros a Ha. destruct (S a Ha) as (l & Sl & N). exists l. split; [apply SP; auto|auto].
    - assert (DX : forall c, still (set_idle c p) cs) by (intros c; exact D).
      destruct k as [|[|k]]; cbn [on_panel_signal]; eexists; (split; [reflexivity|]); (split; [auto|]); split; try reflexivity; unfold callbacks; simpl; rewrite ?app_nil_r; reflexivity.
  Qed.

  Lemma still_paths : forall opening m cs ps p, still p cs -> (opening = true -> m <> n) -> (forall q, In q ps -> q = [] \/ In q cs) -> still (fst (collapse_paths opening m ps p)) cs.
  Proof.
    intros opening m cs ps. induction ps as [|q ps IH]; intros p D Hm Hp; [exact D|]. destruct D as (L & HL & FC & M & S).
    cbn [collapse_paths]. destruct (get_iter_fwd L cs q (store p) HL (cr_good _ _ _ CR _ _ _ HL FC) (Hp q (or_introl eq_refl))) as (g1 & it & E1 & Fo & R). rewrite E1.
    pose proof (layout_recached _ _ _ _ HL R) as HL1. pose proof (cr_step _ _ _ CR _ _ _ _ _ _ _ HL FC (recached_evolves pf L _ _ R) (hear_run cs "" 0) (fun _ => eq_refl)) as FC1.
    assert (Hp' : forall q, In q ps -> q = [] \/ In q cs) by (intros; apply Hp; right; auto).
    assert (D1 : still (set_store g1 p) cs) by (exists L; auto 6).
    destruct it as [a|]; [|apply IH; auto]. destruct (match row_at a g1 with Some r => String.eqb (r_id r) m | None => false end) eqn:Er; [|apply IH; auto].
    cbn [fst]. apply IH; auto. destruct (row_at a g1) as [r|] eqn:Ra; [|discriminate]. apply String.eqb_eq in Er.
    assert (Mk : forall p2, marked p2 n -> marked (remember q p2) n) by (intros p2 (z & Iz & Lz); exists z; split; [apply in_app_iff; left; exact Iz|exact Lz]).
    exists L. destruct opening.
    - destruct (rows_paths_store a false (set_store g1 p)) as (T1 & _ & T3).
      change (store (remember q (expand_row a false (set_store g1 p)))) with (store (expand_row a false (set_store g1 p))). rewrite T1. split; [exact HL1|]. split; [exact FC1|].
      split; [apply Mk; unfold marked; rewrite T3; exact M|].
      intros x Hx. apply one_row_open in Hx. destruct Hx as [Hx|(-> & _)]; [apply S; exact Hx|].
      destruct (lay_row_at _ _ _ Ra) as [Ir Ea]. destruct (lay_row _ _ _ HL1 r Ir) as (l & Il). exists l. split; [exists r; auto|].
      destruct (l_path _ _ _ HL1 _ _ Il) as (q0 & -> & _). rewrite last_last, Er. auto.
    - split; [exact HL1|]. split; [exact FC1|]. split; [apply Mk; exact M|].
      intros x Hx. cbn [expanded remember collapse_row set_expanded] in Hx. apply filter_In in Hx. destruct Hx as [Hx _]. apply S. exact Hx.
  Qed.

  Lemma still_id : forall opening m t b s p, cheld still t b s p -> (opening = true -> m <> n) -> (QO -> lone_tree t) ->
    let '(s', p', r) := collapse_id opening m s p in cheld still t b s' p'.
  Proof.
    intros opening m t b s p D Hm Lt. unfold collapse_id. destruct (truthy m) eqn:Tn; cbn [negb]; [|exact D].
    assert (Hn : m <> "") by (intros ->; discriminate).
    destruct D as (l & v & cs & -> & C & Rd & Hh & Fp). rewrite pre_paths.
    destruct (current_heard _ _ _ C) as (cs' & Hh' & K). rewrite (hear_all_det _ _ _ _ Hh' Hh) in K. clear cs' Hh'.
    pose proof (synced_sound _ _ _ (c_sync _ _ _ C)) as So.
    assert (PS : exists P, view_paths v m = Ok P /\ forall q, In q P -> q = [] \/ In q cs).
    { destruct (in_dec id_dec m (view_all_nodes v)) as [Hv|Hv].
      - destruct (sound_paths v m So Hv) as (P & EP & _ & HP). exists P. split; auto. intros q Hq. right. apply K. apply HP. exact Hq.
      - exists [[]]. split; [|intros q [<-|[]]; auto]. apply other_paths. destruct (is_displayed v m) eqn:Dn; auto. right. destruct (id_dec m (froot v)); auto. exfalso. apply Hv. apply all_nodes_In; [apply So|auto]. }
    destruct PS as (P & -> & HP). pose proof (still_paths opening m cs P p Fp Hm HP) as K1. destruct (collapse_paths opening m P p) as [p1 seen]. cbn [fst] in K1.
    destruct seen; [exists l, v, cs; auto 6|].
    set (a := if opening then 1 else 0). destruct (waiting_queue m a (pre l v) Hn) as [Q1 Q2]. destruct (is_displayed (pre l v) m) eqn:Dn.
    - rewrite Q1 by auto. exists l, v, cs. auto 6.
    - destruct (Q2 eq_refl) as (s0 & E0 & F1 & F2 & F3 & _). rewrite E0.
      assert (Dp : cheld still t b (pre l v) p1) by (exists l, v, cs; auto 6).
      destruct (call_one ord HO (on_panel_signal pf) still heeded QO heeded_nil heeded_app still_step (VQueue m a) t b (pre l v) p1 Dp Hn (fun o => conj (Lt o) I)) as (t' & b' & s' & p' & E & D' & _).
      cbn [client_call view_call] in E. rewrite E0 in E. cbn [done snd] in E. rewrite (news_same (pre l v) s0) in E by auto. cbn [tell] in E.
      inversion E; subst. exact D'.
  Qed.

  Lemma still_call : forall c t b s p, cheld still t b s p -> supported (t, b, s) c -> (QO -> lone_call c t) ->
    exists t' b' s' p', panel_call pf ord c (t, b, s) p = (t', b', s', p', Ok tt) /\ cheld still t' b' s' p'.
  Proof.
    intros c t b s p D X Lc. destruct (call_one ord HO (on_panel_signal pf) still heeded QO heeded_nil heeded_app still_step c t b s p D X Lc) as (t2 & b2 & s2 & p2 & E2 & D2 & _).
    exists t2, b2, s2, p2. auto.
  Qed.
  Lemma still_sort : forall t b s p rs, cheld still t b s p -> Permutation rs (rows (store p)) ->
    cheld still t b s (set_store (mkGtk rs (clock (store p)) (cache_paths (store p)) (cache_position (store p))) p).
  Proof.
    intros t b s p rs (l & v & cs & E2 & C & Rd & Hh & (L & HL & FC & M & S)) P. exists l, v, cs. repeat (split; [assumption|]).
    set (g' := mkGtk rs (clock (store p)) (cache_paths (store p)) (cache_position (store p))).
    destruct (layout_sort L (store p) g' cs HL P eq_refl) as (L' & HL' & PL). exists L'. split; [exact HL'|]. split; [apply (cr_sort _ _ _ CR L); auto|].
    split; [exact M|]. intros a Ha. destruct (S a Ha) as (q & (r & I & Ea) & N). exists q. split; [exists r; split; [apply (Permutation_in _ (Permutation_sym PL)); exact I|exact Ea]|exact N].
  Qed.
  Lemma still_node : forall opening above m t b s p s' p' r, cheld still t b s p -> (opening = true -> strip m <> n) -> (QO -> lone_tree t) ->
    collapse_node opening (above ++ [m]) s p = (s', p', r) -> cheld still t b s' p'.
  Proof.
    intros opening above m t b s p s' p' r D Hm Lt E. unfold collapse_node in E. rewrite rev_app_distr in E. cbn [rev List.app] in E.
    pose proof (still_id opening (strip m) t b s p D Hm Lt) as K. rewrite E in K. exact K.
  Qed.
  Lemma still_turn : forall t b s p s' p' r, cheld still t b s p -> (forall rest, idle_calls p <> (n, true) :: rest) -> (QO -> lone_tree t) ->
    run_idle s p = (s', p', r) -> cheld still t b s' p'.
  Proof.
    intros t b s p s' p' r D Hi Lt E. unfold run_idle in E. destruct (idle_calls p) as [|[m o] rest] eqn:Ei; [inversion E; subst; exact D|].
    assert (D' : cheld still t b s (set_idle rest p)) by exact D.
    assert (Hm : o = true -> m <> n) by (intros -> ->; apply (Hi rest); reflexivity).
    pose proof (still_id o m t b s (set_idle rest p) D' Hm Lt) as K. rewrite E in K. exact K.
  Qed.
  Lemma still_user : forall t b s p l, cheld still t b s p ->
    (forall a, In a l -> In a (expanded p) \/ exists r, In r (rows (store p)) /\ r_addr r = a /\ r_id r <> n) -> cheld still t b s (set_expanded l p).
  Proof.
    intros t b s p l (k & v & cs & E & C & Rd & Hh & (L & HL & FC & M & S)) Hl. exists k, v, cs. repeat (split; [assumption|]).
    exists L. split; [exact HL|]. split; [exact FC|]. split; [exact M|]. intros a Ha. destruct (Hl a Ha) as [Hx|(r & Ir & Ea & Ni)]; [apply S; exact Hx|].
    destruct (lay_row _ _ _ HL r Ir) as (l0 & Il). exists l0. split; [exists r; auto|]. destruct (l_path _ _ _ HL _ _ Il) as (q0 & -> & _). rewrite last_last. exact Ni.
  Qed.

  Lemma still_shut : forall t b s p, cheld still t b s p -> forall r, In r (rows (store p)) -> r_id r = n -> ~ is_open p r.
  Proof.
    intros t b s p (k & v & cs & _ & _ & _ & _ & (L & HL & _ & _ & S)) r Hr En Ho. destruct (S _ Ho) as (l & (r0 & I0 & E0) & N).
    destruct (lay_row _ _ _ HL r Hr) as (l1 & I1). destruct (lay_addr _ _ _ HL l r0 l1 r I0 I1 E0) as [-> _].
    destruct (l_path _ _ _ HL _ _ I1) as (q & -> & _). rewrite last_last in N. auto.
  Qed.

  Lemma close_still : forall t b s p s' p' r, cheld (kept CI) t b s p -> rows_open p -> n <> "" -> In n (view_all_nodes s) ->
    collapse_id false n s p = (s', p', r) -> cheld still t b s' p'.
  Proof.
    intros t b s p s' p' r D RO Hn Hv. assert (Tn : truthy n = true) by (destruct n; auto; contradiction). unfold collapse_id. rewrite Tn. cbn [negb].
    destruct D as (l & v & cs & -> & C & Rd & Hh & (L & HL & FC)). rewrite pre_paths. change (view_all_nodes (pre l v)) with (view_all_nodes v) in Hv.
    destruct (current_heard _ _ _ C) as (cs' & Hh' & K). rewrite (hear_all_det _ _ _ _ Hh' Hh) in K. clear cs' Hh'.
    pose proof (synced_sound _ _ _ (c_sync _ _ _ C)) as So.
    destruct (sound_paths v n So Hv) as (P & EP & _ & HP). rewrite EP.
    assert (HP' : forall q, In q P <-> In q cs /\ last q "" = n) by (intros q; rewrite HP, K; tauto).
    destruct (has_path t b v n C Hv) as (q1 & Hq1). assert (I1 : In (q1 ++ [n]) P) by (apply HP; rewrite last_last; auto).
    assert (Se : existsb nonempty P = true) by (apply existsb_exists; exists (q1 ++ [n]); split; [exact I1|destruct q1; reflexivity]).
    destruct (collapse_ok pf QO CI CR cs L n P p HL FC) as (p2 & E & X1 & X2 & X3 & X4 & X5); [intros q Hq; right; apply HP'; auto|].
    rewrite Se in E. rewrite E. intros Z. inversion Z; subst. exists l, v, cs. split; auto. split; auto. split; auto. split; auto.
    exists L. split; [exact X1|]. split; [exact X2|]. split.
    - exists (q1 ++ [n]). split; [|apply last_last]. rewrite X4. apply in_app_iff. right. apply filter_In. split; [exact I1|destruct q1; reflexivity].
    - intros a Ha. apply X5 in Ha. destruct Ha as [Ha Hx]. destruct (RO a Ha) as (r0 & Ir & Ea). destruct (lay_row _ _ _ HL r0 Ir) as (q & Iq). exists q.
      assert (Sq : spot L q a) by (exists r0; auto). split; [exact Sq|]. intros Lq. apply (Hx q []); [apply HP'; split; [apply (spot_cs _ _ _ HL _ _ Sq)|exact Lq]|apply (spot_nonempty _ _ _ HL _ _ Sq)|rewrite app_nil_r; exact Sq].
  Qed.
End Still.

Lemma still_on : forall ord pf, (forall k l, Permutation (ord k l) l) -> faithful pf -> never_reuses pf ->
  forall n x0 p0, (let '(t, b, s) := x0 in cheld (still (by_address pf) n) t b s p0) -> forall x p, meanwhile ord pf n x0 p0 x p ->
  let '(t, b, s) := x in cheld (still (by_address pf) n) t b s p.
Proof.
  intros ord pf HO AL NR n x0 p0 D0 x p H. pose proof (address_rule pf NR) as CR.
  induction H as [|x p c x' p' r H IH X E|x p rs H IH P|opening above m t b s p s' p' r H IH Hm E|t b s p s' p' r H IH Hi E|x p l H IH Hl].
  - exact D0.
  - destruct x as [[t b] s]. destruct (still_call ord pf HO AL False (by_address pf) CR n c t b s p IH X) as (t2 & b2 & s2 & p2 & E2 & D); [tauto|].
    rewrite E2 in E. inversion E; subst. exact D.
  - destruct x as [[t b] s]. apply (still_sort pf False (by_address pf) CR); auto.
  - apply (still_node ord pf HO AL False (by_address pf) CR n opening above m t b s p s' p' r); auto; tauto.
  - apply (still_turn ord pf HO AL False (by_address pf) CR n t b s p s' p' r); auto; tauto.
  - destruct x as [[t b] s]. apply still_user; auto.
Qed.

Lemma use_stays : forall ord pf, (forall k l, Permutation (ord k l) l) -> faithful pf -> never_reuses pf ->
  forall t b s p above n s' p' r x'' p'', handled ord pf (t, b, s) p -> rows_open p -> strip n <> "" -> In (strip n) (view_all_nodes s) ->
  collapse_node false (above ++ [n]) s p = (s', p', r) -> meanwhile ord pf (strip n) (t, b, s') p' x'' p'' ->
  forall w, In w (rows (store p'')) -> r_id w = strip n -> ~ is_open p'' w.
Proof.
  intros ord pf HO AL NR t b s p above n s' p' r x'' p'' H RO Hn Hv E M. pose proof (handled_inv ord pf HO AL NR _ _ H) as D. cbn iota beta in D.
  unfold collapse_node in E. rewrite rev_app_distr in E. cbn [rev List.app] in E.
  pose proof (close_still pf False (by_address pf) (address_rule pf NR) (strip n) t b s p s' p' r D RO Hn Hv E) as D1.
  pose proof (still_on ord pf HO AL NR (strip n) (t, b, s') p' D1 x'' p'' M) as D2. destruct x'' as [[t2 b2] s2]. apply (still_shut (by_address pf) (strip n) t2 b2 s2 p'' D2).
Qed.

Lemma use_stays_idle : forall ord pf, (forall k l, Permutation (ord k l) l) -> faithful pf -> never_reuses pf ->
  forall t b s p n rest s' p' r x'' p'', handled ord pf (t, b, s) p -> rows_open p -> idle_calls p = (n, false) :: rest -> n <> "" -> In n (view_all_nodes s) ->
  run_idle s p = (s', p', r) -> meanwhile ord pf n (t, b, s') p' x'' p'' ->
  forall w, In w (rows (store p'')) -> r_id w = n -> ~ is_open p'' w.
Proof.
  intros ord pf HO AL NR t b s p n rest s' p' r x'' p'' H RO Ei Hn Hv E M. pose proof (handled_inv ord pf HO AL NR _ _ H) as D. cbn iota beta in D.
  unfold run_idle in E. rewrite Ei in E.
  pose proof (close_still pf False (by_address pf) (address_rule pf NR) n t b s (set_idle rest p) s' p' r (keeping_idle (by_address pf) _ _ _ _ _ D) RO Hn Hv E) as D1.
  pose proof (still_on ord pf HO AL NR n (t, b, s') p' D1 x'' p'' M) as D2. destruct x'' as [[t2 b2] s2]. apply (still_shut (by_address pf) n t2 b2 s2 p'' D2).
Qed.
