(** The widget: closing the rows of a node. *)
From Coq Require Import Permutation.
From Verif Require Import Base BaseFacts MainTree Spec MainFacts MainReg MainTight Filters FTree SpecApi
  SpecView SpecViewing FtBase FtWalk FtEdge FtUp FtFront FtDown FtSync FtTree FtOps FtSent FtKeep FtState FtView FtThm FtSignals FtHist FtQuiet FtRead
  Gtk SpecGtk GtkFacts GtkView GtkRemove Widget SpecWidget FtMind ClientFacts ConnectFacts WidgetFacts WidgetUse SpecExpand WidgetExpand.
Open Scope f_scope.

Lemma prefix_cs : forall L g cs, layout L g cs -> forall z q, q <> [] -> In (q ++ z) cs -> In q cs.
Proof.
  intros L g cs HL z. induction z as [|x z IH] using rev_ind; intros q Nq H; [rewrite app_nil_r in H; exact H|].
  rewrite app_assoc in H. destruct (lay_prefix L g cs (q ++ z) x HL H) as [E|E]; [|apply IH; auto]. apply app_eq_nil in E. destruct E. contradiction.
Qed.

Section Any.
  Variable pf : platform.
  Variable QO : Prop.
  Variable CI : list (list id * row) -> gtk -> list (list id) -> Prop.
  Hypothesis CR : cache_rule pf QO CI.

  Lemma close_id_ok : forall n t b s p, cheld (kept CI) t b s p -> n <> "" -> In n (view_all_nodes s) ->
    exists p', collapse_id false n s p = (s, p', Ok tt) /\ rows (store p') = rows (store p) /\ idle_calls p' = idle_calls p /\
      forall r l, at_path (rows (store p)) r l -> (is_open p' r <-> is_open p r /\ ~ In n l).
  Proof.
    intros n t b s p D Hn Hv. assert (Tn : truthy n = true) by (destruct n; auto; contradiction). unfold collapse_id. rewrite Tn. cbn [negb].
    destruct D as (l & v & cs & -> & C & Rd & Hh & (L & HL & FC)). rewrite pre_paths. change (view_all_nodes (pre l v)) with (view_all_nodes v) in Hv.
    destruct (current_heard _ _ _ C) as (cs' & Hh' & K). rewrite (hear_all_det _ _ _ _ Hh' Hh) in K. clear cs' Hh'.
    pose proof (synced_sound _ _ _ (c_sync _ _ _ C)) as So.
    destruct (sound_paths v n So Hv) as (P & EP & _ & HP). rewrite EP.
    assert (NP : P <> []). { destruct (has_path t b v n C Hv) as (q & Hq). intros ->. apply (proj2 (HP (q ++ [n]))). rewrite last_last. auto. }
    assert (NE : forall q, In q P -> q <> []) by (intros q Hq; apply HP in Hq; destruct Hq as [[Hq _] _]; exact Hq).
    assert (Se : existsb nonempty P = true).
    { destruct P as [|q P']; [contradiction|]. cbn [existsb]. destruct q; [exfalso; apply (NE []); [left|]; auto|]. auto. }
    assert (HP' : forall q, In q P <-> In q cs /\ last q "" = n) by (intros q; rewrite HP, K; tauto).
    destruct (collapse_ok pf QO CI CR cs L n P p HL FC) as (p' & E & X1 & _ & X3 & _ & X5); [intros q Hq; right; apply HP'; auto|].
    rewrite Se in E. rewrite E. exists p'. split; [reflexivity|]. split; [rewrite <- (l_rows _ _ _ X1); apply (l_rows _ _ _ HL)|]. split; auto.
    intros r q Hr. apply (layout_at _ _ _ HL) in Hr. unfold is_open. rewrite X5. split; intros [A B]; (split; [exact A|]).
    - intros Hi. apply in_split in Hi. destruct Hi as (q1 & q2 & ->).
      apply (B (q1 ++ [n]) q2); [|destruct q1; discriminate|rewrite <- app_assoc; exists r; auto].
      apply HP'. split; [|apply last_last]. apply (prefix_cs L (store p) cs HL q2); [destruct q1; discriminate|]. rewrite <- app_assoc. apply (lay_in_cs _ _ _ HL _ _ Hr).
    - intros q0 z H0 N0 S. apply B. assert (Z : q0 ++ z = q) by (apply (spot_path _ _ _ HL _ _ (r_addr r)); [exact S|exists r; auto]). subst q.
      apply HP' in H0. destruct H0 as [_ L0]. destruct (exists_last N0) as (q1 & y & ->). rewrite last_last in L0. subst y. rewrite !in_app_iff. left. right. left. auto.
  Qed.

End Any.

Section Close.
  Variable ord : nat -> list id -> list id.
  Variable pf : platform.
  Hypothesis HO : forall k l, Permutation (ord k l) l.
  Hypothesis AL : faithful pf.
  Hypothesis NR : never_reuses pf.

  Lemma use_close : forall t b s p above n, handled ord pf (t, b, s) p -> strip n <> "" -> In (strip n) (view_all_nodes s) ->
    exists p', collapse_node false (above ++ [n]) s p = (s, p', Ok tt) /\ rows (store p') = rows (store p) /\ idle_calls p' = idle_calls p /\
      forall r l, at_path (rows (store p)) r l -> (is_open p' r <-> is_open p r /\ ~ In (strip n) l).
  Proof.
    intros t b s p above n H Hn Hv. pose proof (handled_inv ord pf HO AL NR _ _ H) as D. cbn iota beta in D. unfold collapse_node. rewrite rev_app_distr. cbn [rev List.app].
    apply (close_id_ok pf False (by_address pf) (address_rule pf NR) (strip n) t b s p); auto.
  Qed.

  Lemma use_close_idle : forall t b s p n rest, handled ord pf (t, b, s) p -> idle_calls p = (n, false) :: rest -> n <> "" -> In n (view_all_nodes s) ->
    exists p', run_idle s p = (s, p', Ok tt) /\ rows (store p') = rows (store p) /\ idle_calls p' = rest /\
      forall r l, at_path (rows (store p)) r l -> (is_open p' r <-> is_open p r /\ ~ In n l).
  Proof.
    intros t b s p n rest H E Hn Hv. pose proof (handled_inv ord pf HO AL NR _ _ H) as D. cbn iota beta in D. unfold run_idle. rewrite E.
    destruct (close_id_ok pf False (by_address pf) (address_rule pf NR) n t b s (set_idle rest p) (keeping_idle (by_address pf) _ _ _ _ _ D) Hn Hv) as (p' & A & B & C & F). exists p'. auto.
  Qed.

  Lemma use_close_wait : forall t b s p above n, handled ord pf (t, b, s) p -> strip n <> "" -> is_displayed s (strip n) = false ->
    exists s', collapse_node false (above ++ [n]) s p = (s', p, Ok tt) /\ fnodes s' = fnodes s /\ In 0 (waiting s' (strip n)).
  Proof.
    intros t b s p above n H Hn Hd. unfold collapse_node. rewrite rev_app_distr. cbn [rev List.app]. unfold collapse_id.
    assert (Tn : truthy (strip n) = true) by (destruct (strip n); auto; contradiction). rewrite Tn. cbn [negb]. rewrite (other_paths s (strip n) (or_introl Hd)).
    cbn [collapse_paths my_get_iter rev my_get_iter_rev]. assert (Sp : set_store (store p) p = p) by (destruct p; auto). rewrite Sp.
    destruct (waiting_queue (strip n) 0 s Hn) as [_ Q2]. destruct (Q2 Hd) as (s0 & E0 & F1 & _ & _ & _ & F5 & _). rewrite E0. exists s0. split; auto. split; auto. rewrite F5. apply in_app_iff. right; left; auto.
  Qed.

  Lemma use_close_comes : forall t b s p n c t' b' s' p' r, handled ord pf (t, b, s) p -> supported (t, b, s) c -> (forall m a, c <> VQueue m a) ->
    In 0 (waiting s n) -> panel_call pf ord c (t, b, s) p = (t', b', s', p', r) ->
    (is_displayed s' n = true -> In (n, false) (idle_calls p')) /\ (is_displayed s' n = false -> In 0 (waiting s' n) \/ In (n, false) (idle_calls p')).
  Proof.
    intros t b s p n c t' b' s' p' r H X Nq W E.
    apply (keeping_comes ord pf HO AL False (by_address pf) (address_rule pf NR) false t b s p n c t' b' s' p' r (handled_inv ord pf HO AL NR _ _ H) X (False_ind _) Nq W E).
  Qed.
End Close.
