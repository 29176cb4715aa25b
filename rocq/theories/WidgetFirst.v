(** The widget: which rows a call opens. *)
From Coq Require Import Permutation.
From Verif Require Import Base BaseFacts MainTree Spec MainFacts MainInv MainRun MainReg MainTight MainPaths SpecMove MoveFacts Filters FTree SpecApi SpecView SpecViewing
  FtBase FtWalk FtEdge FtUp FtFront FtDown FtSync FtTree FtOps FtSent FtKeep FtState FtView FtThm FtSignals FtHist FtQuiet FtRead
  Gtk SpecGtk GtkFacts GtkView GtkRemove Widget SpecWidget FtMind ClientFacts ConnectFacts WidgetFacts WidgetUse SpecExpand WidgetExpand WidgetClose WidgetStill
  SpecLone LoneTree LoneFacts LoneWidget SpecExpandLone WidgetExpandLone.
Open Scope f_scope.

(** The row with address [a] is at the path and open. *)
Definition open_at (p : panel) (q : list id) (a : nat) : Prop := (exists r, at_path (rows (store p)) r q /\ r_addr r = a) /\ In a (expanded p).
Definition opening_only (p p' : panel) (l : list sig) : Prop := collapsed_paths p' = collapsed_paths p /\
  forall q a, open_at p' q a -> open_at p q a \/ ((exists m, In (SAdded m (q ++ [m])) l) /\ forall c, In c (collapsed_paths p) -> last c "" <> last q "").

Lemma opening_nil : forall p, opening_only p p [].
Proof. intros p. split; auto. Qed.
Lemma opening_app : forall p p1 p2 l l', opening_only p p1 l -> opening_only p1 p2 l' -> opening_only p p2 (l ++ l').
Proof.
  intros p p1 p2 l l' [A1 A2] [B1 B2]. split; [congruence|]. intros q a H. destruct (B2 q a H) as [H1|((m & I) & C)].
  - destruct (A2 q a H1) as [H2|((m & I) & C)]; [left; exact H2|right]. split; [exists m; apply in_app_iff; auto|exact C].
  - right. split; [exists m; apply in_app_iff; auto|rewrite <- A1; exact C].
Qed.

Section First.
  Variable ord : nat -> list id -> list id.
  Variable pf : platform.
  Hypothesis HO : forall k l, Permutation (ord k l) l.
  Hypothesis AL : faithful pf.
  Variable QO : Prop.
  Variable CI : list (list id * row) -> gtk -> list (list id) -> Prop.
  Hypothesis CR : cache_rule pf QO CI.

  Definition tidily (p : panel) (cs : list (list id)) : Prop := exists L, layout L (store p) cs /\ CI L (store p) cs /\ forall a, In a (expanded p) -> exists l, spot L l a.

  Lemma open_spot : forall L cs p q a, layout L (store p) cs -> (open_at p q a <-> spot L q a /\ In a (expanded p)).
  Proof.
    intros L cs p q a HL. unfold open_at. split; intros [(r & A & E) B]; (split; [|exact B]); exists r; (split; [|exact E]); apply (layout_at _ _ _ HL); exact A.
  Qed.

  Lemma first_added : forall T m q p cs, tidily p cs -> ~ In (q ++ [m]) cs -> q = [] \/ In q cs -> has_node T m = true -> (QO -> newb cs (SAdded m (q ++ [m])) = true) ->
    exists p', on_panel_signal pf T (SAdded m (q ++ [m])) p = (p', Ok tt) /\ tidily p' (cs ++ [q ++ [m]]) /\ opening_only p p' [SAdded m (q ++ [m])].
  Proof.
    intros T m q p cs (L & HL & FC & S) Hn Hq Ht Nw. cbn [on_panel_signal]. rewrite removelast_last.
    destruct (get_iter_fwd L cs q (store p) HL (cr_good _ _ _ CR _ _ _ HL FC) Hq) as (g0 & it & E0 & Fo & _). rewrite E0. cbn [snd].
    destruct (added_ok pf T L (store p) cs m q AL HL (cr_good _ _ _ CR _ _ _ HL FC) Ht Hn Hq) as (g1 & L1 & E1 & HL1 & EV & r & Fr & Er & P).
    rewrite E1. pose proof (cr_step _ _ _ CR _ _ _ _ _ _ _ HL FC EV (hear_added cs q m Hn Hq) Nw) as FC1.
    assert (SP : forall l a, spot L1 l a <-> spot L l a \/ (l = q ++ [m] /\ a = r_addr r)) by (intros l a; apply (spots_added L L1 (q ++ [m], r)); auto).
    set (p1 := set_store g1 p).
    assert (Old : forall p', store p' = g1 -> forall q' a, spot L1 q' a -> In a (expanded p) -> open_at p q' a).
    { intros p' _ q' a S1 Ha. apply (open_spot L cs p q' a HL). split; [|exact Ha]. destruct (S a Ha) as (l & Sl).
      assert (l = q') by (apply (spot_path _ _ _ HL1 l q' a); [apply SP; auto|exact S1]). subst l. exact Sl. }
    assert (Z : exists p', (p1, Ok tt) = (p', Ok tt) /\ tidily p' (cs ++ [q ++ [m]]) /\ opening_only p p' [SAdded m (q ++ [m])]).
    { exists p1. split; auto. split.
      - exists L1. split; [exact HL1|]. split; [exact FC1|]. intros a Ha. destruct (S a Ha) as (l & Sl). exists l. apply SP. auto.
      - split; [reflexivity|]. intros q' a H. apply (open_spot L1 (cs ++ [q ++ [m]]) p1 q' a HL1) in H. left. apply (Old p1); [reflexivity|apply H|apply H]. }
    destruct it as [a|]; [|exact Z]. destruct Fo as [[_ X]|(rq & Iq & X)]; [discriminate|]. inversion X; subst a. clear X. set (a := r_addr rq) in *.
    assert (Sq : spot L q a) by (exists rq; auto). assert (Sq1 : spot L1 q a) by (apply SP; auto).
    assert (Fo1 : found L1 q (Some a)) by (destruct Sq1 as (r1 & I1 & X); right; exists r1; split; auto; congruence).
    assert (Ir : In (q ++ [r_id r], r) L1) by (rewrite Er; apply (Permutation_in _ (Permutation_sym P)); apply in_app_iff; right; left; auto).
    destruct (Nat.eqb (length (store_children (Some a) g1)) 1) eqn:Len; [|exact Z].
    unfold on_child_toggled. destruct (spot_row _ _ _ HL1 _ _ Sq1) as (r1 & R1 & R2 & R3 & R4). change (store p1) with g1. rewrite R1.
    destruct (negb (row_expanded a p1) && negb (existsb (fun c => String.eqb (last c "") (r_id r1)) (collapsed_paths p1))) eqn:Q; [|exact Z].
    apply andb_true_iff in Q. destruct Q as [_ Q]. apply negb_true_iff in Q.
    assert (Nq : forall c, In c (collapsed_paths p) -> last c "" <> last q "").
    { intros c Hc Hx. apply not_true_iff_false in Q. apply Q. apply existsb_exists. exists c. split; [exact Hc|]. apply String.eqb_eq. rewrite R4. exact Hx. }
    unfold expand_row. destruct (known a p1 && has_rows a (store p1)); [|exact Z].
    set (below := filter (fun x => has_rows x (store p1)) (map r_addr (rows_under a (store p1)))). change (store p1) with g1 in below.
    assert (Bl : forall x, In x below -> x = a).
    { intros x Hx. apply filter_In in Hx. destruct Hx as [Hx Hr]. apply (rows_under_spots _ _ _ HL1 q a x Sq1) in Hx. destruct Hx as (z & Sz).
      destruct z as [|y z]; [rewrite app_nil_r in Sz; apply (spot_addr _ _ _ HL1 _ _ _ Sz Sq1)|]. exfalso.
      apply (below_rows _ _ _ HL1 _ _ Sz) in Hr. destruct Hr as (w & Hw).
      assert (Only : forall v, In (q ++ [v]) (cs ++ [q ++ [m]]) -> v = m).
      { intros v Hv. destruct (lay_cs _ _ _ HL1 _ Hv) as (c & Ic).
        assert (Ec : r_id c = v) by (destruct (l_path _ _ _ HL1 _ _ Ic) as (q' & X & _); apply app_inj_tail in X; destruct X; auto).
        rewrite <- Ec in Ic. pose proof (proj2 (store_children_In _ _ _ _ _ _ HL1 Fo1) Ic) as Jc. pose proof (proj2 (store_children_In _ _ _ _ _ _ HL1 Fo1) Ir) as Jr.
        apply Nat.eqb_eq in Len. destruct (store_children (Some a) g1) as [|u [|u' t]]; simpl in *; [contradiction| |lia]. destruct Jc as [Jc|[]]. destruct Jr as [Jr|[]]. congruence. }
      assert (Hy : In (q ++ [y]) (cs ++ [q ++ [m]])).
      { apply (prefix_cs L1 g1 _ HL1 (z ++ [w])); [destruct q; discriminate|]. replace ((q ++ [y]) ++ z ++ [w]) with ((q ++ y :: z) ++ [w]) by (rewrite <- !app_assoc; auto). auto. }
      apply Only in Hy. subst y. apply in_app_iff in Hw. destruct Hw as [Hw|[Hw|[]]].
      - apply Hn. apply (prefix_cs L (store p) _ HL (z ++ [w])); [destruct q; discriminate|]. replace ((q ++ [m]) ++ z ++ [w]) with ((q ++ m :: z) ++ [w]) by (rewrite <- !app_assoc; auto). auto.
      - rewrite <- app_assoc in Hw. apply app_inv_head in Hw. destruct z; discriminate. }
    assert (Ex : forall x, In x (expanded p ++ a :: below) -> In x (expanded p) \/ x = a).
    { intros x Hx. apply in_app_iff in Hx. destruct Hx as [Hx|[Hx|Hx]]; [left; exact Hx|right; auto|right; apply Bl; exact Hx]. }
    eexists. split; [reflexivity|]. split.
    - exists L1. split; [exact HL1|]. split; [exact FC1|]. intros x Hx. apply Ex in Hx. destruct Hx as [Hx| ->]; [|exists q; exact Sq1]. destruct (S x Hx) as (l & Sl). exists l. apply SP. auto.
    - split; [reflexivity|]. intros q' x H. apply (open_spot L1 (cs ++ [q ++ [m]]) (set_expanded (expanded p1 ++ a :: below) p1) q' x HL1) in H. destruct H as [S1 Hx]. apply Ex in Hx. destruct Hx as [Hx| ->].
      + left. apply (Old p1); auto.
      + right. rewrite (spot_path _ _ _ HL1 q' q a S1 Sq1). split; [exists m; left; reflexivity|exact Nq].
  Qed.

  Lemma first_step : forall T x p cs cs', tidily p cs -> hear cs x cs' -> names_live (T, x) -> mindful T x cs' -> (QO -> newb cs x = true) ->
    exists p', on_panel_signal pf T x p = (p', Ok tt) /\ tidily p' cs' /\ opening_only p p' [x].
  Proof.
    intros T x p cs cs' D H Hn _ Nw. pose proof H as H0. destruct H as [cs q m N1 N2|cs q m N1 N2|cs q m N1|cs m k].
    - apply first_added; auto.
    - cbn [on_panel_signal]. destruct D as (L & HL & FC & S).
      destruct (deleted_ok pf T L (store p) cs m q HL (cr_good _ _ _ CR _ _ _ HL FC) N1 N2) as (g1 & L1 & E1 & HL1 & EV & EL).
      rewrite E1. pose proof (cr_step _ _ _ CR _ _ _ _ _ _ _ HL FC EV H0 Nw) as FC1.
      eexists. split; [reflexivity|]. split.
      + exists L1. split; [exact HL1|]. split; [exact FC1|]. intros a Ha. cbn [expanded] in Ha. apply filter_In in Ha. destruct Ha as [_ Hr].
        unfold has_rows in Hr. cbn [store] in Hr. destruct (store_children (Some a) g1) as [|c k] eqn:Ec; [discriminate|].
        assert (Jc : In c (store_children (Some a) g1)) by (rewrite Ec; left; auto). unfold store_children in Jc. apply filter_In in Jc. destruct Jc as [Jc Pc].
        unfold parent_is in Pc. destruct (r_parent c) as [b|] eqn:Pb; [|discriminate]. apply Nat.eqb_eq in Pc. subst b.
        destruct (lay_row _ _ _ HL1 c Jc) as (lc & Ic). destruct (l_path _ _ _ HL1 _ _ Ic) as (q0 & _ & [[_ X]|(rq & Iq & X)]); [congruence|].
        rewrite Pb in X. inversion X as [Ea]. exists q0, rq. auto.
      + split; [reflexivity|]. intros q' a H. apply (open_spot L1 _ (mkPanel g1 _ _ _) q' a HL1) in H. destruct H as [(r & I & E) Ha]. cbn [expanded] in Ha. apply filter_In in Ha.
        left. apply (open_spot L cs p q' a HL). split; [|apply Ha]. exists r. split; [|exact E]. rewrite EL in I. apply filter_In in I. apply I.
    - cbn [on_panel_signal]. destruct D as (L & HL & FC & S).
      destruct (modified_ok pf T L (store p) cs m q AL HL (cr_good _ _ _ CR _ _ _ HL FC) Hn N1) as (g1 & L1 & E1 & HL1 & EV & r & nd & Ir & _ & EL).
      rewrite E1. pose proof (cr_step _ _ _ CR _ _ _ _ _ _ _ HL FC EV H0 Nw) as FC1. eexists. split; [reflexivity|].
      assert (SP : forall l a, spot L1 l a <-> spot L l a).
      { apply (spot_modified L L1 (store p) g1 cs HL HL1). intros l a (r' & I & <-). destruct (EL _ I) as ([l0 r0] & I0 & E2 & E3). cbn [fst snd] in *.
        subst l0 r'. exists r0. split; auto. destruct (Nat.eqb (r_addr r0) (r_addr r)) eqn:Q; auto. apply Nat.eqb_eq in Q. auto. }
      split.
      + exists L1. split; [exact HL1|]. split; [exact FC1|]. intros a Ha. destruct (S a Ha) as (l & Sl). exists l. apply SP. exact Sl.
      + split; [reflexivity|]. intros q' a H. apply (open_spot L1 cs (set_store g1 p) q' a HL1) in H. left. apply (open_spot L cs p q' a HL). split; [apply SP|]; apply H.
    - assert (DX : forall c, tidily (set_idle c p) cs) by (intros c; exact D).
      destruct k as [|[|k]]; cbn [on_panel_signal]; eexists; (split; [reflexivity|]); (split; [auto|]); (split; [reflexivity|]); intros q' a W; left; exact W.
  Qed.

  Lemma first_call : forall c t b s p t' b' s' p' r, cheld (kept CI) t b s p -> rows_open p -> supported (t, b, s) c -> (QO -> lone_call c t) ->
    panel_call pf ord c (t, b, s) p = (t', b', s', p', r) -> opening_only p p' (news s s').
  Proof.
    intros c t b s p t' b' s' p' r (l & v & cs & E0 & C & Rd & Hh & (L & HL & FC)) RO X Lc E.
    assert (D : cheld tidily t b s p).
    { exists l, v, cs. repeat (split; [assumption|]). exists L. split; [exact HL|]. split; [exact FC|]. intros a Ha. destruct (RO a Ha) as (r0 & Ir & Ea).
      destruct (lay_row _ _ _ HL r0 Ir) as (q & Iq). exists q, r0. auto. }
    destruct (call_one ord HO (on_panel_signal pf) tidily opening_only QO opening_nil opening_app first_step c t b s p D X Lc) as (t2 & b2 & s2 & p2 & E2 & _ & _ & R & _).
    unfold panel_call in E. rewrite E2 in E. inversion E; subst. exact R.
  Qed.
  Lemma tidy_paths : forall opening m cs ps p, tidily p cs -> (forall q, In q ps -> q = [] \/ In q cs) -> tidily (fst (collapse_paths opening m ps p)) cs.
  Proof.
    intros opening m cs ps. induction ps as [|q ps IH]; intros p D Hp; [exact D|]. destruct D as (L & HL & FC & S).
    cbn [collapse_paths]. destruct (get_iter_fwd L cs q (store p) HL (cr_good _ _ _ CR _ _ _ HL FC) (Hp q (or_introl eq_refl))) as (g1 & it & E1 & Fo & R). rewrite E1.
    pose proof (layout_recached _ _ _ _ HL R) as HL1. pose proof (cr_step _ _ _ CR _ _ _ _ _ _ _ HL FC (recached_evolves pf L _ _ R) (hear_run cs "" 0) (fun _ => eq_refl)) as FC1.
    assert (Hp' : forall q, In q ps -> q = [] \/ In q cs) by (intros; apply Hp; right; auto).
    assert (D1 : tidily (set_store g1 p) cs) by (exists L; auto 6).
    destruct it as [a|]; [|apply IH; auto]. destruct (match row_at a g1 with Some r => String.eqb (r_id r) m | None => false end) eqn:Er; [|apply IH; auto].
    cbn [fst]. apply IH; auto. destruct (row_at a g1) as [r|] eqn:Ra; [|discriminate]. exists L. destruct opening.
    - destruct (rows_paths_store a false (set_store g1 p)) as (T1 & _ & T3).
      change (store (remember q (expand_row a false (set_store g1 p)))) with (store (expand_row a false (set_store g1 p))). rewrite T1. split; [exact HL1|]. split; [exact FC1|].
      intros x Hx. apply one_row_open in Hx. destruct Hx as [Hx|(-> & _)]; [apply S; exact Hx|].
      destruct (lay_row_at _ _ _ Ra) as [Ir Ea]. destruct (lay_row _ _ _ HL1 r Ir) as (l & Il). exists l, r. auto.
    - split; [exact HL1|]. split; [exact FC1|]. intros x Hx. cbn [expanded remember collapse_row set_expanded] in Hx. apply filter_In in Hx. destruct Hx as [Hx _]. apply S. exact Hx.
  Qed.

  Lemma tidy_id : forall opening m t b s p, cheld tidily t b s p -> (QO -> lone_tree t) ->
    let '(s', p', r) := collapse_id opening m s p in cheld tidily t b s' p'.
  Proof.
    intros opening m t b s p D Lt. unfold collapse_id. destruct (truthy m) eqn:Tn; cbn [negb]; [|exact D].
    assert (Hn : m <> "") by (intros ->; discriminate).
    destruct D as (l & v & cs & -> & C & Rd & Hh & Fp). rewrite pre_paths.
    destruct (current_heard _ _ _ C) as (cs' & Hh' & K). rewrite (hear_all_det _ _ _ _ Hh' Hh) in K. clear cs' Hh'.
    pose proof (synced_sound _ _ _ (c_sync _ _ _ C)) as So.
    assert (PS : exists P, view_paths v m = Ok P /\ forall q, In q P -> q = [] \/ In q cs).
    { destruct (in_dec id_dec m (view_all_nodes v)) as [Hv|Hv].
      - destruct (sound_paths v m So Hv) as (P & EP & _ & HP). exists P. split; auto. intros q Hq. right. apply K. apply HP. exact Hq.
      - exists [[]]. split; [|intros q [<-|[]]; auto]. apply other_paths. destruct (is_displayed v m) eqn:Dn; auto. right. destruct (id_dec m (froot v)); auto. exfalso. apply Hv. apply all_nodes_In; [apply So|auto]. }
    destruct PS as (P & -> & HP). pose proof (tidy_paths opening m cs P p Fp HP) as K1. destruct (collapse_paths opening m P p) as [p1 seen]. cbn [fst] in K1.
    destruct seen; [exists l, v, cs; auto 6|].
    set (a := if opening then 1 else 0). destruct (waiting_queue m a (pre l v) Hn) as [Q1 Q2]. destruct (is_displayed (pre l v) m) eqn:Dn.
    - rewrite Q1 by auto. exists l, v, cs. auto 6.
    - destruct (Q2 eq_refl) as (s0 & E0 & F1 & F2 & F3 & _). rewrite E0.
      assert (Dp : cheld tidily t b (pre l v) p1) by (exists l, v, cs; auto 6).
      destruct (call_one ord HO (on_panel_signal pf) tidily opening_only QO opening_nil opening_app first_step (VQueue m a) t b (pre l v) p1 Dp Hn (fun o => conj (Lt o) I)) as (t' & b' & s' & p' & E & D' & _).
      cbn [client_call view_call] in E. rewrite E0 in E. cbn [done snd] in E. rewrite (news_same (pre l v) s0) in E by auto. cbn [tell] in E.
      inversion E; subst. exact D'.
  Qed.

  Lemma kept_tidy : forall t b s p, cheld (kept CI) t b s p -> rows_open p -> cheld tidily t b s p.
  Proof.
    intros t b s p (l & v & cs & E0 & C & Rd & Hh & (L & HL & FC)) RO. exists l, v, cs. repeat (split; [assumption|]). exists L. split; [exact HL|]. split; [exact FC|].
    intros a Ha. destruct (RO a Ha) as (r0 & Ir & Ea). destruct (lay_row _ _ _ HL r0 Ir) as (q & Iq). exists q, r0. auto.
  Qed.
  Lemma tidy_rows : forall t b s p, cheld tidily t b s p -> rows_open p.
  Proof. intros t b s p (l & v & cs & _ & _ & _ & _ & (L & HL & _ & S)) a Ha. destruct (S a Ha) as (q & r & I & E). exists r. split; [apply (lay_row_at (store p) (r_addr r) r (lay_row_at_ok _ _ _ HL _ _ I))|exact E]. Qed.

  Lemma rows_kept : forall t b s p, cheld (kept CI) t b s p -> rows_open p -> (QO -> lone_tree t) ->
    (forall c t' b' s' p' r, supported (t, b, s) c -> (QO -> lone_call c t) -> panel_call pf ord c (t, b, s) p = (t', b', s', p', r) -> rows_open p') /\
    (forall opening llpath s' p' r, collapse_node opening llpath s p = (s', p', r) -> rows_open p') /\
    (forall s' p' r, run_idle s p = (s', p', r) -> rows_open p').
  Proof.
    intros t b s p K RO Lt. pose proof (kept_tidy t b s p K RO) as D. split; [|split].
    - intros c t' b' s' p' r X Lc E.
      destruct (call_one ord HO (on_panel_signal pf) tidily opening_only QO opening_nil opening_app first_step c t b s p D X Lc) as (t2 & b2 & s2 & p2 & E2 & D2 & _).
      unfold panel_call in E. rewrite E2 in E. inversion E; subst. apply (tidy_rows _ _ _ _ D2).
    - intros opening llpath s' p' r E. unfold collapse_node in E. destruct (rev llpath) as [|n rest]; [inversion E; subst; exact RO|].
      pose proof (tidy_id opening (strip n) t b s p D Lt) as Z. rewrite E in Z. apply (tidy_rows _ _ _ _ Z).
    - intros s' p' r E. unfold run_idle in E. destruct (idle_calls p) as [|[n o] rest]; [inversion E; subst; exact RO|].
      assert (D' : cheld tidily t b s (set_idle rest p)) by exact D.
      pose proof (tidy_id o n t b s (set_idle rest p) D' Lt) as Z. rewrite E in Z. apply (tidy_rows _ _ _ _ Z).
  Qed.
End First.

Lemma at_path_last : forall rs r q, at_path rs r q -> last q "" = r_id r.
Proof. intros rs r q H. destruct H; [reflexivity|apply last_last]. Qed.

Lemma opening_stated : forall p p' l, opening_only p p' l -> forall r' q, at_path (rows (store p')) r' q -> is_open p' r' ->
  (exists r, at_path (rows (store p)) r q /\ r_addr r = r_addr r' /\ is_open p r) \/
  ((exists m, In (SAdded m (q ++ [m])) l) /\ forall c, In c (collapsed_paths p) -> last c "" <> r_id r').
Proof.
  intros p p' l [_ H] r' q A B. destruct (H q (r_addr r')) as [((r & A1 & E1) & B1)|[M N]]; [split; [exists r'; auto|exact B]| |].
  - left. exists r. split; [exact A1|]. split; [exact E1|]. unfold is_open. rewrite E1. exact B1.
  - right. split; [exact M|]. intros c Hc. rewrite <- (at_path_last _ _ _ A). apply N. exact Hc.
Qed.

Lemma use_first : forall ord pf, (forall k l, Permutation (ord k l) l) -> faithful pf -> never_reuses pf ->
  forall t b s p c t' b' s' p' res, handled ord pf (t, b, s) p -> rows_open p -> supported (t, b, s) c -> panel_call pf ord c (t, b, s) p = (t', b', s', p', res) ->
  forall r' q, at_path (rows (store p')) r' q -> is_open p' r' ->
  (exists r, at_path (rows (store p)) r q /\ r_addr r = r_addr r' /\ is_open p r) \/
  ((exists m, In (SAdded m (q ++ [m])) (news s s')) /\ forall d, In d (collapsed_paths p) -> last d "" <> r_id r').
Proof.
  intros ord pf HO AL NR t b s p c t' b' s' p' res H RO X E. apply opening_stated.
  apply (first_call ord pf HO AL False (by_address pf) (address_rule pf NR) c t b s p t' b' s' p' res (handled_inv ord pf HO AL NR _ _ H) RO X (False_ind _) E).
Qed.

Lemma use_first_single : forall ord pf, (forall k l, Permutation (ord k l) l) -> faithful pf ->
  forall t b s p c t' b' s' p' res, handled_single ord pf (t, b, s) p -> rows_open p -> supported (t, b, s) c -> panel_call pf ord c (t, b, s) p = (t', b', s', p', res) -> one_parent t' ->
  forall r' q, at_path (rows (store p')) r' q -> is_open p' r' ->
  (exists r, at_path (rows (store p)) r q /\ r_addr r = r_addr r' /\ is_open p r) \/
  ((exists m, In (SAdded m (q ++ [m])) (news s s')) /\ forall d, In d (collapsed_paths p) -> last d "" <> r_id r').
Proof.
  intros ord pf HO AL t b s p c t' b' s' p' res H RO X E L'. apply opening_stated. destruct (hsingle_inv ord pf HO AL _ _ H) as [D L].
  pose proof (panel_base ord pf c (t, b, s) p) as PB. rewrite E in PB. cbn [fst] in PB.
  apply (first_call ord pf HO AL True _ (place_rule pf) c t b s p t' b' s' p' res D RO X); [|exact E].
  intros _. apply (lone_after ord c t b s); [apply (chel_reg _ _ _ _ _ D)|exact L|rewrite <- PB; exact L'].
Qed.

Lemma use_rows : forall ord pf, (forall k l, Permutation (ord k l) l) -> faithful pf -> never_reuses pf ->
  (forall x x' p r, build_panel pf x = (x', p, r) -> rows_open p) /\
  forall t b s p, handled ord pf (t, b, s) p -> rows_open p ->
  (forall c t' b' s' p' r, supported (t, b, s) c -> panel_call pf ord c (t, b, s) p = (t', b', s', p', r) -> rows_open p') /\
  (forall rs, Permutation rs (rows (store p)) -> rows_open (set_store (mkGtk rs (clock (store p)) (cache_paths (store p)) (cache_position (store p))) p)) /\
  (forall opening llpath s' p' r, collapse_node opening llpath s p = (s', p', r) -> rows_open p') /\
  (forall s' p' r, run_idle s p = (s', p', r) -> rows_open p').
Proof.
  intros ord pf HO AL NR. split.
  { intros x x' p r E. unfold build_panel in E. destruct (client_connect (on_signal pf) x new_gtk) as [[x1 g] r1]. inversion E; subst. intros a []. }
  intros t b s p H RO.
  destruct (rows_kept ord pf HO AL False (by_address pf) (address_rule pf NR) t b s p (handled_inv ord pf HO AL NR _ _ H) RO (False_ind _)) as (A & B & C).
  split; [|split; [|split; assumption]].
  - intros c t' b' s' p' r X E. apply (A c t' b' s' p' r X (False_ind _) E).
  - intros rs P a Ha. destruct (RO a Ha) as (r & Ir & Ea). exists r. split; [apply (Permutation_in _ (Permutation_sym P)); exact Ir|exact Ea].
Qed.

Lemma use_rows_single : forall ord pf, (forall k l, Permutation (ord k l) l) -> faithful pf ->
  forall t b s p, handled_single ord pf (t, b, s) p -> rows_open p ->
  (forall c t' b' s' p' r, supported (t, b, s) c -> panel_call pf ord c (t, b, s) p = (t', b', s', p', r) -> one_parent t' -> rows_open p') /\
  (forall opening llpath s' p' r, collapse_node opening llpath s p = (s', p', r) -> rows_open p') /\
  (forall s' p' r, run_idle s p = (s', p', r) -> rows_open p').
Proof.
  intros ord pf HO AL t b s p H RO. destruct (hsingle_inv ord pf HO AL _ _ H) as [D L].
  destruct (rows_kept ord pf HO AL True _ (place_rule pf) t b s p D RO (fun _ => L)) as (A & B & C). split; [|split; assumption].
  intros c t' b' s' p' r X E L'. pose proof (panel_base ord pf c (t, b, s) p) as PB. rewrite E in PB. cbn [fst] in PB.
  apply (A c t' b' s' p' r X); [|exact E]. intros _. apply (lone_after ord c t b s); [apply (chel_reg _ _ _ _ _ D)|exact L|rewrite <- PB; exact L'].
Qed.
