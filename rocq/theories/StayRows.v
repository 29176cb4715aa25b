(** Rows of undisturbed paths stay where they are. *)
From Coq Require Import Permutation.
From Verif Require Import Base BaseFacts MainTree Spec MainFacts MainReg MainTight MainPaths Filters FTree SpecApi
  SpecView SpecViewing SpecStay FtBase FtWalk FtEdge FtUp FtFront FtDown FtSync FtTree FtOps FtSent FtKeep FtState FtView FtThm FtSignals FtHist FtQuiet FtRead
  Gtk SpecGtk GtkFacts GtkView Widget ClientFacts StayFacts FtStay.
Open Scope f_scope.

(** The rows of paths that are not deleted keep their place in memory. *)
Definition seated (g g' : gtk) (l : list sig) : Prop :=
  forall r q, at_path (rows g) r q -> (forall n, ~ In (SDeleted n q) l) -> exists r', at_path (rows g') r' q /\ r_addr r' = r_addr r.

Lemma seated_nil : forall g, seated g g [].
Proof. intros g r q H _. exists r. auto. Qed.
Lemma seated_app : forall g1 g2 g3 l l', seated g1 g2 l -> seated g2 g3 l' -> seated g1 g3 (l ++ l').
Proof.
  intros g1 g2 g3 l l' H1 H2 r q P N. destruct (H1 r q P) as (r1 & P1 & A1); [intros n Hn; apply (N n), in_or_app; auto|].
  destruct (H2 r1 q P1) as (r2 & P2 & A2); [intros n Hn; apply (N n), in_or_app; auto|]. exists r2. split; auto. congruence.
Qed.

Lemma seated_step : forall pf T x L g cs cs' g', faithful pf -> layout L g cs -> (forall p, In p cs -> cache_good L g p) ->
  hear cs x cs' -> names_live (T, x) -> on_signal pf T x g = (g', Ok tt) -> seated g g' [x].
Proof.
  intros pf T x L g cs cs' g' AL HL HC Hh Hn E r l P N. apply (layout_at _ _ _ HL) in P.
  destruct Hh as [cs q n N1 N2|cs q n N1 N2|cs q n N1|cs n a].
  - destruct (added_ok pf T L g cs n q AL) as (g2 & L' & H1 & H2 & H3 & r0 & _ & _ & Pe); auto. rewrite E in H1. inv H1.
    exists r. split; auto. apply (layout_at _ _ _ H2). apply (Permutation_in _ (Permutation_sym Pe)). apply in_or_app; auto.
  - destruct (deleted_ok pf T L g cs n q) as (g2 & L' & H1 & H2 & H3 & EL); auto. rewrite E in H1. inv H1.
    exists r. split; auto. apply (layout_at _ _ _ H2). apply filter_In. split; auto. simpl. apply negb_true_iff.
    destruct (path_eqb l (q ++ [n])) eqn:Ep; auto. apply path_eqb_eq in Ep. subst. destruct (N n). left; auto.
  - destruct (modified_ok pf T L g cs n q AL) as (g2 & L' & H1 & H2 & H3 & r0 & nd & I0 & En & EL); auto. rewrite E in H1. inv H1.
    assert (I : In l (map fst L')) by (apply (l_cs _ _ _ H2), (l_cs _ _ _ HL), in_map_iff; exists (l, r); auto).
    apply in_map_iff in I. destruct I as ((l' & r') & E1 & I). simpl in E1. subst. exists r'. split; [apply (layout_at _ _ _ H2); auto|].
    destruct (EL _ I) as ((l2 & r2) & I2 & E2 & E3). simpl in *. subst l2. assert (r2 = r) by (pose proof (NoDup_map_inj _ _ fst L _ _ (l_nd _ _ _ HL) I2 P eq_refl) as Z; inv Z; auto). subst r2.
    rewrite E3. destruct (Nat.eqb (r_addr r) (r_addr r0)) eqn:Ea; auto. simpl. apply Nat.eqb_eq in Ea. auto.
  - simpl in E. inv E. exists r. split; auto. apply (layout_at _ _ _ HL). auto.
Qed.

Section Rows.
  Variable ord : nat -> list id -> list id.
  Variable pf : platform.
  Hypothesis HO : forall k l, Permutation (ord k l) l.
  Hypothesis AL : faithful pf.
  Hypothesis NR : never_reuses pf.

  Lemma follows_rooted : forall T x g cs cs', follows pf g cs -> hear cs x cs' -> names_live (T, x) ->
    exists g', on_signal pf T x g = (g', Ok tt) /\ follows pf g' cs' /\ seated g g' [x].
  Proof.
    intros T x g cs cs' (L & HL & FC) Hh Hn.
    destruct (signal_ok pf T x L g cs cs' AL HL (fun p _ => fc_good _ _ _ FC p) Hh Hn) as (g' & L' & E & HL' & EV).
    exists g'. split; auto. split; [exists L'; split; auto; apply (fresh_evolves pf L g cs); auto|].
    apply (seated_step pf T x L g cs cs'); auto. intros p _. apply (fc_good _ _ _ FC p).
  Qed.

  Lemma tell_signals : forall T l g, tell (on_signal pf) T l g = on_signals pf T l g.
  Proof. intros T l. induction l as [|x l IH]; intros g; cbn [tell on_signals]; auto. destruct (on_signal pf T x g) as [g1 [[]|e|]]; auto. Qed.
  Lemma client_widget : forall b es s g, feed_client ord (on_signal pf) b es s g = feed_widget ord pf b es s g.
  Proof.
    intros b es. induction es as [|e es IH]; intros s g; cbn [feed_client feed_widget]; auto.
    destruct (external_modify ord b (ev_tree e) (ev_id e) s) as [s1 [[]|x|]]; auto. rewrite tell_signals.
    destruct (on_signals pf (ev_tree e) (news s s1) g) as [g1 [[]|x|]]; auto.
  Qed.

  Lemma held_rooted : forall o t b s g s' g', held pf t b s g -> supported (t, b, s) (VTree o) ->
    widget_call ord pf (VTree o) (t, b, s) g = (after o t, b, s', g', Ok tt) -> seated g g' (news s s').
  Proof.
    intros o t b s g s' g' (l & v & cs & -> & C & Hh & Fo) X E. change (supported (t, b, v) (VTree o)) in X.
    destruct (current_call ord HO (VTree o) t b v C X) as (v' & E1 & C' & _). cbn [new_tree new_bank] in *.
    destruct (current_heard _ _ _ C') as (cs' & Hh' & _). destruct X as [Cm X].
    destruct (sync_call_checked ord b (filters v) (froot v) (any_flat b (filters v)) HO (c_local _ _ _ C) o t v (c_reg _ _ _ C) (c_apt _ _ _ C)) as [_ W].
    { split; auto. }
    { apply (c_sync _ _ _ C). }
    apply fwp_run in W. destruct W as (v2 & [] & E2 & _).
    assert (v2 = v').
    { assert (W : fwp (feed_checked ord b (events o t)) (fun _ z => z = v2) v) by (unfold fwp, events; rewrite E2; auto).
      apply feed_of_checked in W. cbn [view_call] in E1. unfold fwp in W. destruct (feed ord b (events o t) v) as [z q]. inversion E1; subst. auto. }
    subst v2. destruct (client_feed ord (on_signal pf) (follows pf) seated seated_nil seated_app (fun T x p cs cs' a c d _ => follows_rooted T x p cs cs' a c d) b (events o t) v v' g cs cs' E2 Hh Hh' Fo)
      as (_ & g2 & E3 & _ & R).
    rewrite client_widget in E3. rewrite pre_widget in E. cbn [widget_call] in E. rewrite E3 in E. inv E. rewrite news_pre. auto.
  Qed.

  (** *** Theorems *)
  Lemma watching_stays : forall o t b s g t' b' s' g' r0, watching ord pf (t, b, s) g -> supported (t, b, s) (VTree o) ->
    widget_call ord pf (VTree o) (t, b, s) g = (t', b', s', g', r0) ->
    forall r q, at_path (rows g) r q -> view_path s' q -> exists r', at_path (rows g') r' q /\ r_addr r' = r_addr r.
  Proof.
    intros o t b s g t' b' s' g' r0 W X E r q P V.
    pose proof (watching_held ord pf HO AL NR _ _ W) as H. cbn in H.
    destruct (held_call ord pf HO AL NR (VTree o) t b s g H X) as (t2 & b2 & s2 & g2 & E2 & _ & E3). rewrite E in E2. inversion E2; subst t2 b2 s2 g2 r0.
    assert (Et : t' = after o t /\ b' = b) by (cbn [view_call] in E3; destruct (feed ord b (events o t) s); inv E3; auto). destruct Et; subst t' b'.
    pose proof (held_rooted o t b s g s' g' H X E) as R. apply R; auto.
    pose proof (watching_shows ord pf HO AL NR t b s g W) as (_ & _ & S3 & _).
    assert (V0 : view_path s q) by (apply (S3 r); auto).
    destruct H as (l & v & cs & -> & C & _). intros n. destruct (current_call ord HO (VTree o) t b v C X) as (v' & E1 & _). cbn [new_tree new_bank] in E1.
    rewrite pre_call, E1 in E3. inversion E3; subst. rewrite news_pre. apply (stays_current ord HO o t b v v' (Ok tt)); auto.
  Qed.
End Rows.
