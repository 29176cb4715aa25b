(** Opening and closing rows when no node has two parents. *)
From Coq Require Import Permutation.
From Verif Require Import Base BaseFacts MainTree Spec MainFacts MainInv MainRun MainReg MainTight MainPaths SpecMove MoveFacts Filters FTree SpecApi SpecView SpecViewing
  FtBase FtWalk FtEdge FtUp FtFront FtDown FtSync FtTree FtOps FtSent FtKeep FtState FtView FtThm FtSignals FtHist FtQuiet FtRead
  Gtk SpecGtk GtkFacts GtkView GtkRemove Widget SpecWidget FtMind ClientFacts ConnectFacts WidgetFacts WidgetUse SpecExpand WidgetExpand WidgetClose WidgetStill
  SpecLone LoneTree LoneFacts LoneWidget SpecExpandLone.
Open Scope f_scope.

Section Lone.
  Variable ord : nat -> list id -> list id.
  Variable pf : platform.
  Hypothesis HO : forall k l, Permutation (ord k l) l.
  Hypothesis AL : faithful pf.
  Let CI (L : list (list id * row)) (g : gtk) (cs : list (list id)) : Prop := one_place cs.
  Let CR : cache_rule pf True CI := place_rule pf.
  Let keeping := kept CI.

  Lemma hsingle_inv : forall x p, handled_single ord pf x p -> let '(t, b, s) := x in cheld keeping t b s p /\ one_parent t.
  Proof.
    intros x p H. induction H as [x x' p r V L W E|[[t b] s] p c x' p' r H IH X Hq E L|x p rs H IH P|opening llpath t b s p s' p' r H IH E|t b s p s' p' r H IH E|x p l H IH].
    - pose proof (keeping_start ord pf HO AL True CI CR x x' p r V W (fun _ => L) E) as D. destruct x' as [[t b] s]. split; [exact D|].
      unfold build_panel, client_connect in E. destruct x as [[t0 b0] s0]. destruct (get_current_state s0) as [s1 [u|e|]]; [destruct (tell _ _ _ _)| |]; inversion E; subst; exact L.
    - destruct IH as [D L0]. pose proof (panel_base ord pf c (t, b, s) p) as PB. rewrite E in PB. cbn [fst] in PB.
      assert (Lc : lone_call c t) by (apply (lone_after ord c t b s); [apply (chel_reg _ _ _ _ _ D)|exact L0|rewrite <- PB; exact L]).
      destruct (keeping_call ord pf HO AL True CI CR c t b s p D X (fun _ => Lc)) as (t2 & b2 & s2 & p2 & E2 & D2 & _).
      rewrite E2 in E. inversion E; subst. split; [exact D2|exact L].
    - destruct x as [[t b] s]. destruct IH as [D L]. split; [|exact L]. apply (keeping_sort pf True CI CR); auto.
    - destruct IH as [D L]. split; [|exact L]. apply (keeping_node ord pf HO AL True CI CR opening llpath t b s p s' p' r D (fun _ => L) E).
    - destruct IH as [D L]. split; [|exact L]. apply (keeping_turn ord pf HO AL True CI CR t b s p s' p' r D (fun _ => L) E).
    - destruct x as [[t b] s]. destruct IH as [D L]. split; [|exact L]. apply keeping_user. exact D.
  Qed.

  Lemma hsingle_shows : forall t b s p, handled_single ord pf (t, b, s) p -> shows (rows (store p)) (view_path s).
  Proof. intros t b s p H. apply (keeping_shows CI t b s p). exact (proj1 (hsingle_inv _ _ H)). Qed.

  Lemma hsingle_fine : forall t b s p, handled_single ord pf (t, b, s) p ->
    (forall c, supported (t, b, s) c -> one_parent (base_tree (fst (view_call ord c (t, b, s)))) ->
      exists p', panel_call pf ord c (t, b, s) p = (fst (view_call ord c (t, b, s)), p', Ok tt)) /\
    (forall opening above n, strip n <> "" -> exists s' p', collapse_node opening (above ++ [n]) s p = (s', p', Ok tt) /\ fnodes s' = fnodes s /\ rows (store p') = rows (store p)) /\
    (forall n o rest, idle_calls p = (n, o) :: rest -> n <> "" -> exists s' p', run_idle s p = (s', p', Ok tt) /\ fnodes s' = fnodes s /\ rows (store p') = rows (store p)).
  Proof.
    intros t b s p H. destruct (hsingle_inv _ _ H) as [D L]. destruct (keeping_fine ord pf HO AL True CI CR t b s p D (fun _ => L)) as (A & B & C). split; [|split; assumption].
    intros c X L'. apply A; auto. intros _. apply (lone_after ord c t b s); auto. apply (chel_reg _ _ _ _ _ D).
  Qed.

  Lemma hsingle_expand : forall t b s p above n, handled_single ord pf (t, b, s) p -> strip n <> "" -> In (strip n) (view_all_nodes s) ->
    exists p', collapse_node true (above ++ [n]) s p = (s, p', Ok tt) /\ rows (store p') = rows (store p) /\ idle_calls p' = idle_calls p /\
      forall r, In r (rows (store p)) -> (is_open p' r <-> is_open p r \/ (r_id r = strip n /\ in_sight p r /\ has_below (rows (store p)) r)).
  Proof.
    intros t b s p above n H Hn Hv. destruct (hsingle_inv _ _ H) as [D L]. unfold collapse_node. rewrite rev_app_distr. cbn [rev List.app].
    apply (expand_id_ok pf CI True CR (strip n) t b s p); auto.
  Qed.

  Lemma hsingle_expand_idle : forall t b s p n rest, handled_single ord pf (t, b, s) p -> idle_calls p = (n, true) :: rest -> n <> "" -> In n (view_all_nodes s) ->
    exists p', run_idle s p = (s, p', Ok tt) /\ rows (store p') = rows (store p) /\ idle_calls p' = rest /\
      forall r, In r (rows (store p)) -> (is_open p' r <-> is_open p r \/ (r_id r = n /\ in_sight p r /\ has_below (rows (store p)) r)).
  Proof.
    intros t b s p n rest H E Hn Hv. destruct (hsingle_inv _ _ H) as [D L]. unfold run_idle. rewrite E.
    destruct (expand_id_ok pf CI True CR n t b s (set_idle rest p) (keeping_idle CI _ _ _ _ _ D) Hn Hv) as (p' & A & B & C & F). exists p'. auto.
  Qed.

  Lemma hsingle_close : forall t b s p above n, handled_single ord pf (t, b, s) p -> strip n <> "" -> In (strip n) (view_all_nodes s) ->
    exists p', collapse_node false (above ++ [n]) s p = (s, p', Ok tt) /\ rows (store p') = rows (store p) /\ idle_calls p' = idle_calls p /\
      forall r l, at_path (rows (store p)) r l -> (is_open p' r <-> is_open p r /\ ~ In (strip n) l).
  Proof.
    intros t b s p above n H Hn Hv. destruct (hsingle_inv _ _ H) as [D L]. unfold collapse_node. rewrite rev_app_distr. cbn [rev List.app].
    apply (close_id_ok pf True CI CR (strip n) t b s p); auto.
  Qed.

  Lemma hsingle_close_idle : forall t b s p n rest, handled_single ord pf (t, b, s) p -> idle_calls p = (n, false) :: rest -> n <> "" -> In n (view_all_nodes s) ->
    exists p', run_idle s p = (s, p', Ok tt) /\ rows (store p') = rows (store p) /\ idle_calls p' = rest /\
      forall r l, at_path (rows (store p)) r l -> (is_open p' r <-> is_open p r /\ ~ In n l).
  Proof.
    intros t b s p n rest H E Hn Hv. destruct (hsingle_inv _ _ H) as [D L]. unfold run_idle. rewrite E.
    destruct (close_id_ok pf True CI CR n t b s (set_idle rest p) (keeping_idle CI _ _ _ _ _ D) Hn Hv) as (p' & A & B & C & F). exists p'. auto.
  Qed.

  Lemma hsingle_comes : forall (o : bool) t b s p n c t' b' s' p' r, handled_single ord pf (t, b, s) p -> supported (t, b, s) c -> (forall m a, c <> VQueue m a) ->
    In (if o then 1 else 0) (waiting s n) -> panel_call pf ord c (t, b, s) p = (t', b', s', p', r) -> one_parent t' ->
    (is_displayed s' n = true -> In (n, o) (idle_calls p')) /\ (is_displayed s' n = false -> In (if o then 1 else 0) (waiting s' n) \/ In (n, o) (idle_calls p')).
  Proof.
    intros o t b s p n c t' b' s' p' r H X Nq W E L'. destruct (hsingle_inv _ _ H) as [D L]. pose proof (panel_base ord pf c (t, b, s) p) as PB. rewrite E in PB. cbn [fst] in PB.
    apply (keeping_comes ord pf HO AL True CI CR o t b s p n c t' b' s' p' r D X); auto.
    intros _. apply (lone_after ord c t b s); [apply (chel_reg _ _ _ _ _ D)|exact L|rewrite <- PB; exact L'].
  Qed.

  Lemma still_single : forall n x0 p0, (let '(t, b, s) := x0 in cheld (still CI n) t b s p0 /\ one_parent t) -> forall x p, meanwhile_single ord pf n x0 p0 x p ->
    let '(t, b, s) := x in cheld (still CI n) t b s p /\ one_parent t.
  Proof.
    intros n x0 p0 D0 x p H.
    induction H as [|[[t b] s] p c x' p' r H IH X E L|x p rs H IH P|opening above m t b s p s' p' r H IH Hm E|t b s p s' p' r H IH Hi E|x p l H IH Hl].
    - exact D0.
    - destruct IH as [D L0]. pose proof (panel_base ord pf c (t, b, s) p) as PB. rewrite E in PB. cbn [fst] in PB.
      assert (Lc : lone_call c t) by (apply (lone_after ord c t b s); [apply (chel_reg _ _ _ _ _ D)|exact L0|rewrite <- PB; exact L]).
      destruct (still_call ord pf HO AL True CI CR n c t b s p D X (fun _ => Lc)) as (t2 & b2 & s2 & p2 & E2 & D2).
      rewrite E2 in E. inversion E; subst. split; [exact D2|exact L].
    - destruct x as [[t b] s]. destruct IH as [D L]. split; [|exact L]. apply (still_sort pf True CI CR); auto.
    - destruct IH as [D L]. split; [|exact L]. apply (still_node ord pf HO AL True CI CR n opening above m t b s p s' p' r D Hm (fun _ => L) E).
    - destruct IH as [D L]. split; [|exact L]. apply (still_turn ord pf HO AL True CI CR n t b s p s' p' r D Hi (fun _ => L) E).
    - destruct x as [[t b] s]. destruct IH as [D L]. split; [|exact L]. apply still_user; auto.
  Qed.

  Lemma hsingle_stays : forall t b s p above n s' p' r x'' p'', handled_single ord pf (t, b, s) p -> rows_open p -> strip n <> "" -> In (strip n) (view_all_nodes s) ->
    collapse_node false (above ++ [n]) s p = (s', p', r) -> meanwhile_single ord pf (strip n) (t, b, s') p' x'' p'' ->
    forall w, In w (rows (store p'')) -> r_id w = strip n -> ~ is_open p'' w.
  Proof.
    intros t b s p above n s' p' r x'' p'' H RO Hn Hv E M. destruct (hsingle_inv _ _ H) as [D L].
    unfold collapse_node in E. rewrite rev_app_distr in E. cbn [rev List.app] in E.
    pose proof (close_still pf True CI CR (strip n) t b s p s' p' r D RO Hn Hv E) as D1.
    pose proof (still_single (strip n) (t, b, s') p' (conj D1 L) x'' p'' M) as D2. destruct x'' as [[t2 b2] s2]. apply (still_shut CI (strip n) t2 b2 s2 p'' (proj1 D2)).
  Qed.

  Lemma hsingle_stays_idle : forall t b s p n rest s' p' r x'' p'', handled_single ord pf (t, b, s) p -> rows_open p -> idle_calls p = (n, false) :: rest -> n <> "" -> In n (view_all_nodes s) ->
    run_idle s p = (s', p', r) -> meanwhile_single ord pf n (t, b, s') p' x'' p'' ->
    forall w, In w (rows (store p'')) -> r_id w = n -> ~ is_open p'' w.
  Proof.
    intros t b s p n rest s' p' r x'' p'' H RO Ei Hn Hv E M. destruct (hsingle_inv _ _ H) as [D L]. unfold run_idle in E. rewrite Ei in E.
    pose proof (close_still pf True CI CR n t b s (set_idle rest p) s' p' r (keeping_idle CI _ _ _ _ _ D) RO Hn Hv E) as D1.
    pose proof (still_single n (t, b, s') p' (conj D1 L) x'' p'' M) as D2. destruct x'' as [[t2 b2] s2]. apply (still_shut CI n t2 b2 s2 p'' (proj1 D2)).
  Qed.
End Lone.

Lemma usingle_handled : forall ord pf start asked x p, in_use_single ord pf start asked x p -> handled_single ord pf x p.
Proof.
  intros ord pf start asked x p H. induction H; [eapply hsingle_start|eapply hsingle_call|eapply hsingle_sort|eapply hsingle_node|eapply hsingle_idle]; eauto.
Qed.
