(** A path that is there before and after a call is there all the time. *)
From Coq Require Import Permutation.
From Verif Require Import Base BaseFacts MainTree Spec MainFacts MainInv MainAdd MainReg MainRegDel MainTight MainPaths Filters FTree SpecApi SpecView SpecViewing SpecStay
  FtBase FtWalk FtEdge FtUp FtFront FtDown FtNoop FtDel FtSync FtTree FtMind FtOps FtView FtSent FtSignals FtAny GtkView ClientFacts StayFacts FtStill DataFacts.
Open Scope f_scope.

Notation frame := MainRegDel.frame.

Section Stay.
  Variable b : bank.
  Variable fs : list id.
  Variable root : id.
  Variable fl : bool.
  Hypothesis HL : local_bank b.
  Notation D T := (D b fs T).

  Definition wanted (T : mtree) (q : list id) : Prop := wantb (D T) (sp T (D T) root fl) root q = true.
  Definition edge (T : mtree) (p x : id) : Prop := D T x = true /\ In p (sp T (D T) root fl x).

  Lemma wanted_edges : forall T q p, wantb (D T) (sp T (D T) root fl) p q = true <->
    match q with [] => True | x :: q' => edge T p x /\ wantb (D T) (sp T (D T) root fl) x q' = true end.
  Proof.
    intros T [|x q] p; simpl; [tauto|]. unfold edge. rewrite !andb_true_iff, mem_In. tauto.
  Qed.

  (** What the view looks at, at one moment. *)
  Record amid (t T t' : mtree) : Prop := {
    am_flags : flags_on T;
    am_show : forall x, D t x = true -> D t' x = true -> D T x = true;
    am_in : forall p x, In p (parents t x) -> D t p = true -> In p (parents t' x) -> D t' p = true -> D t x = true -> D t' x = true ->
      In p (parents T x) /\ D T p = true;
    am_out : forall p x, In p (parents T x) -> D T p = true -> (In p (parents t x) /\ D t p = true) \/ (In p (parents t' x) /\ D t' p = true)
  }.

  Lemma frame_data : forall t t' x, frame t t' -> has_node t' x = true -> data_of t' x = data_of t x.
  Proof.
    intros t t' x F H. destruct (has_node_get _ _ H) as (nd & E). destruct (F _ _ E) as (nd0 & E0 & _ & _ & Ed & _).
    unfold data_of. rewrite E, E0. simpl. congruence.
  Qed.

  Lemma frame_D : forall t t' x, frame t t' -> D t' x = true -> D t x = true.
  Proof. intros t t' x F H. rewrite <- (D_data b fs HL t t'); auto. apply frame_data; auto. eapply D_alive; eauto. Qed.

  Lemma frame_D_back : forall t t' x, frame t t' -> D t x = true -> has_node t' x = true -> D t' x = true.
  Proof. intros t t' x F H H'. rewrite (D_data b fs HL t t'); auto. apply frame_data; auto. Qed.

  Lemma flags_frame : forall t t', frame t t' -> flags_on t -> flags_on t'.
  Proof. intros t t' F H x nd E. destruct (F _ _ E) as (nd0 & E0 & -> & -> & _). apply (H x). auto. Qed.

  Lemma attrs_data : forall t t' x, attrs t' x = attrs t x -> data_of t' x = data_of t x.
  Proof.
    intros t t' x H. unfold attrs, data_of in *. destruct (dget x (nodes t')), (dget x (nodes t)); simpl in *; try discriminate; auto. inv H. auto.
  Qed.

  Lemma moment_amid : forall t T t', reg t -> reg t' -> moment t T t' -> amid t T t'.
  Proof.
    intros t T t' R R' [E|[[F1 F2]|(A & Rm & DJ & [P1 P2] & [P3 P4])]].
    - assert (ED : forall x, D T x = D t' x) by (intros; apply D_nodes; auto).
      assert (EP : forall x, parents T x = parents t' x) by (intros; unfold parents; rewrite E; auto). constructor.
      + intros x nd. rewrite E. apply (r_flags _ R').
      + intros x _. rewrite ED. auto.
      + intros p x. rewrite EP, ED. auto.
      + intros p x. rewrite EP, ED. auto.
    - constructor.
      + apply (flags_frame t); auto. apply R.
      + intros x _ H. apply (frame_D T t'); auto.
      + intros p x _ _ H1 H2 _ _. split; [eapply frame_parents_In; eauto|apply (frame_D T t'); auto].
      + intros p x H1 H2. left. split; [eapply frame_parents_In; eauto|apply (frame_D t T); auto].
    - assert (E1 : forall x, D T x = D t x) by (intros; apply D_data; auto; apply attrs_data; auto).
      assert (E2 : forall x, D t' x = D T x) by (intros; apply D_data; auto; apply attrs_data; auto). constructor.
      + intros x nd E. pose proof (P1 x) as P. unfold attrs in P. rewrite E in P. destruct (dget x (nodes t)) as [nd0|] eqn:E0; [|discriminate].
        simpl in P. destruct (r_flags _ R x nd0 E0) as [Q1 Q2]. inv P. split; congruence.
      + intros x H _. rewrite E1. auto.
      + intros p x H1 H2 H3 _ _ _. split; [|rewrite E1; auto]. destruct (P2 p x) as [_ Q1]. destruct (P4 p x) as [Q2 _].
        destruct (Q1 H1) as [|X1]; auto. destruct (Q2 H3) as [|X2]; auto. destruct (DJ p x); auto.
      + intros p x H1 H2. rewrite E2. destruct (P2 p x) as [Q1 _]. destruct (P4 p x) as [_ Q2].
        destruct (Q1 H1) as [|X1]; [left; split; auto; rewrite <- E1; auto|]. destruct (Q2 H1) as [|X2]; auto. destruct (DJ p x); auto.
  Qed.

  Lemma shown_parents_In : forall T p x, flags_on T -> In p (filter (D T) (get_parents T x)) <-> In p (parents T x) /\ D T p = true.
  Proof.
    intros T p x F. rewrite filter_In. unfold get_parents, parents. destruct (dget x (nodes T)) as [nd|] eqn:E; [|simpl; tauto].
    destruct (F _ _ E) as [-> _]. rewrite filter_In. split; [tauto|]. intros [H1 H2]. split; auto. split; auto. eapply D_alive; eauto.
  Qed.

  Lemma amid_edge : forall t T t' p x, flags_on t -> flags_on t' -> has_node t root = false -> has_node t' root = false -> amid t T t' ->
    edge t p x -> edge t' p x -> edge T p x.
  Proof.
    intros t T t' p x F F' N N' A [D1 I1] [D2 I2]. split; [apply (am_show _ _ _ A); auto|]. unfold sp in *. destruct fl; auto.
    assert (Nr : forall t, flags_on t -> has_node t root = false -> ~ In root (filter (D t) (get_parents t x))).
    { intros t0 F0 N0 H. apply shown_parents_In in H; auto. destruct H as [_ H]. apply D_alive in H. congruence. }
    destruct (filter (D t) (get_parents t x)) as [|y l] eqn:E1.
    - destruct I1 as [<-|[]]. destruct (filter (D t') (get_parents t' x)) as [|y' l'] eqn:E2.
      + destruct (filter (D T) (get_parents T x)) as [|z m] eqn:E3; [left; auto|]. exfalso.
        assert (H : In z (filter (D T) (get_parents T x))) by (rewrite E3; left; auto).
        apply shown_parents_In in H; [|apply A]. destruct H as [H1 H2]. destruct (am_out _ _ _ A z x H1 H2) as [H|H].
        * apply (shown_parents_In t) in H; auto. rewrite E1 in H. destruct H.
        * apply (shown_parents_In t') in H; auto. rewrite E2 in H. destruct H.
      + exfalso. apply (Nr t'); auto. rewrite E2. auto.
    - rewrite <- E1 in I1. destruct (filter (D t') (get_parents t' x)) as [|y' l'] eqn:E2.
      + destruct I2 as [<-|[]]. exfalso. apply (Nr t); auto.
      + rewrite <- E2 in I2. apply shown_parents_In in I1, I2; auto. destruct I1 as [I1 I1'], I2 as [I2 I2'].
        assert (H : In p (filter (D T) (get_parents T x))).
        { apply shown_parents_In; [apply A|]. apply (am_in _ _ _ A); auto. }
        destruct (filter (D T) (get_parents T x)); auto.
  Qed.

  Lemma amid_wanted : forall t T t' q, flags_on t -> flags_on t' -> has_node t root = false -> has_node t' root = false -> amid t T t' ->
    wanted t q -> wanted t' q -> wanted T q.
  Proof.
    intros t T t' q F F' N N' A. unfold wanted. generalize root at 2 4 6. induction q as [|x q IH]; intros p H1 H2; auto.
    apply wanted_edges in H1, H2. apply wanted_edges. destruct H1 as [H1 H1'], H2 as [H2 H2']. split; auto. apply (amid_edge t T t'); auto.
  Qed.

  (** Where only the parents of [n] change, the other edges stay. *)
  Lemma pm_edge : forall t T n p x, flags_on t -> flags_on T -> pm (fun _ x => x = n) (fun _ x => x = n) t T -> x <> n -> edge t p x -> edge T p x.
  Proof.
    intros t T n p x F F' [P1 P2] Nx [D1 I1].
    assert (E1 : forall y, D T y = D t y) by (intros; apply D_data; auto; apply attrs_data; auto).
    split; [rewrite E1; auto|]. unfold sp in *. destruct fl; auto.
    assert (EI : forall y, In y (filter (D t) (get_parents t x)) <-> In y (filter (D T) (get_parents T x))).
    { intros y. rewrite !shown_parents_In by auto. rewrite E1. destruct (P2 y x) as [Q1 Q2]. split; intros [H1 H2]; (split; [|auto]).
      - destruct (Q2 H1); tauto.
      - destruct (Q1 H1); tauto. }
    destruct (filter (D t) (get_parents t x)) as [|y l] eqn:E2.
    - destruct (filter (D T) (get_parents T x)) as [|z m]; auto. exfalso. apply (EI z). left; auto.
    - rewrite <- E2 in *. apply EI in I1. destruct (filter (D T) (get_parents T x)); auto.
  Qed.

  Lemma pm_flags : forall A R t T, pm A R t T -> flags_on t -> flags_on T.
  Proof.
    intros A R t T [P1 _] F x nd E. pose proof (P1 x) as P. unfold attrs in P. rewrite E in P. destruct (dget x (nodes t)) as [nd0|] eqn:E0; [|discriminate].
    simpl in P. destruct (F x nd0 E0) as [Q1 Q2]. inv P. split; congruence.
  Qed.

  Lemma pm_wanted : forall t T n q, flags_on t -> pm (fun _ x => x = n) (fun _ x => x = n) t T -> ~ In n q -> wanted t q -> wanted T q.
  Proof.
    intros t T n q F P. pose proof (pm_flags _ _ _ _ P F) as F'. unfold wanted. generalize root at 2 4. induction q as [|x q IH]; intros p N H; auto.
    apply wanted_edges in H. apply wanted_edges. destruct H as [H1 H2]. simpl in N. split; [|apply IH; tauto]. apply (pm_edge t T n); auto.
  Qed.

  Lemma synced_path : forall T s q, synced b fs root fl T s -> (view_path s q <-> q <> [] /\ wanted T q).
  Proof.
    intros T s q (r & Hr & I & F). pose proof (in_base _ _ _ _ _ _ _ I) as B. pose proof (b_g _ _ _ _ _ B) as G. unfold view_path, wanted.
    rewrite (gb_root _ _ _ _ _ G). assert (H : forall q p, downward (kids s) p q <-> wantb (D T) (sp T (D T) root fl) p q = true).
    { assert (K : forall p x, In x (kids s p) <-> edge T p x).
      { intros p x. rewrite <- (gb_sym _ _ _ _ _ G) by auto. unfold edge. split.
        - intros H. assert (Dx : D T x = true).
          { destruct (in_stale _ _ _ _ _ _ _ I x (pars_disp _ _ _ H)) as [->|]; auto. rewrite (gb_top _ _ _ _ _ G) in H. destruct H. }
          split; auto. rewrite <- (in_pars _ _ _ _ _ _ _ I); auto.
        - intros [Dx H]. rewrite (in_pars _ _ _ _ _ _ _ I); auto. }
      clear q. induction q as [|x q IH]; intros p; simpl; [tauto|]. rewrite K, IH. symmetry. apply (wanted_edges T (x :: q) p). }
    rewrite H. tauto.
  Qed.
End Stay.

Section Feed.
  Variable ord : nat -> list id -> list id.
  Hypothesis HO : forall k l, Permutation (ord k l) l.

  Lemma feed_samef : forall b es s, samef s (fst (feed ord b es s)).
  Proof. intros. apply still_for. intros. apply still_external. Qed.

  Lemma feed_spares : forall b es s s', feed_checked ord b es s = (s', Ok tt) -> longer s s' /\
    forall n q, In (SDeleted n q) (news s s') -> exists e, In e es /\ ~ wanted b (filters s) (froot s) (flat s) (ev_tree e) q.
  Proof.
    intros b es. induction es as [|e es IH]; intros s s' E.
    - unfold feed_checked in E. simpl in E. inversion E; subst. split; [exists []; rewrite app_nil_r; auto|].
      intros n q H. rewrite news_same in H by auto. destruct H.
    - unfold feed_checked in E. cbn [ffor] in E. unfold fbind in E. unfold ext_checked at 1 in E.
      pose proof (blind_extends _ _ s (blind_external ord b (ev_tree e) (ev_id e))) as X1.
      pose proof (still_external ord b (ev_tree e) (ev_id e) s) as (S1 & S2 & S3).
      destruct (external_modify ord b (ev_tree e) (ev_id e) s) as [s1 r1]. cbn [fst] in *.
      destruct (forallb (liveb (ev_tree e)) (news s s1)) eqn:Lv; [|discriminate].
      match type of E with context [forallb ?g (news s s1)] => destruct (forallb g (news s s1)) eqn:Sp; [|discriminate] end.
      destruct (mindsb _ _ _); [|discriminate]. destruct (oneb _ _ _); [|discriminate].
      destruct r1 as [[]|x|]; try discriminate. change (feed_checked ord b es s1 = (s', Ok tt)) in E.
      destruct (IH s1 s' E) as [X2 H2]. split; [eapply longer_trans; eauto|]. intros n q H. rewrite (news_app s s1 s') in H by auto.
      apply in_app_iff in H. destruct H as [H|H].
      + exists e. split; [left; auto|]. rewrite forallb_forall in Sp. apply Sp in H. unfold sparesb in H. apply negb_true_iff in H.
        unfold wanted. change (D b (filters s) (ev_tree e)) with (shown b (ev_tree e) s). rewrite H. discriminate.
      + destruct (H2 n q H) as (e' & He & Hq). exists e'. split; [right; auto|]. rewrite S1, S2, S3 in Hq. auto.
  Qed.

  Lemma stays_current : forall o t b s s' r, current t b s -> supported (t, b, s) (VTree o) ->
    view_call ord (VTree o) (t, b, s) = (after o t, b, s', r) ->
    forall n q, view_path s q -> view_path s' q -> ~ In (SDeleted n q) (news s s').
  Proof.
    intros o t b s s' r C X E n q V V' I.
    destruct (current_call ord HO (VTree o) t b s C X) as (s2 & E2 & C' & F' & Ro'). cbn [new_tree new_bank new_filters] in *.
    rewrite E in E2. inv E2. destruct X as [Cm X].
    destruct (sync_call_checked ord b (filters s) (froot s) (any_flat b (filters s)) HO (c_local _ _ _ C) o t s (c_reg _ _ _ C) (c_apt _ _ _ C)) as [_ W].
    { split; auto. }
    { apply (c_sync _ _ _ C). }
    apply fwp_run in W. destruct W as (v2 & [] & E2 & _).
    assert (v2 = s2).
    { assert (W : fwp (feed_checked ord b (events o t)) (fun _ z => z = v2) s) by (unfold fwp, events; rewrite E2; auto).
      apply feed_of_checked in W. cbn [view_call] in E. unfold fwp in W. destruct (feed ord b (events o t) s) as [z q0]. inversion E; subst. auto. }
    subst v2. destruct (feed_spares b (events o t) s s2 E2) as [_ H]. destruct (H n q I) as (e & He & Hw). apply Hw. clear H Hw.
    destruct (current_base _ _ _ C) as (r0 & B). rewrite (b_flat _ _ _ _ _ B).
    pose proof (c_sync _ _ _ C') as Sy'. rewrite F', Ro' in Sy'.
    apply (synced_path b (filters s) (froot s) (any_flat b (filters s))) with (T := t) in V; [|apply C].
    apply (synced_path b (filters s) (froot s) (any_flat b (filters s))) with (T := after o t) in V'; [|apply Sy'].
    apply (amid_wanted b (filters s) (froot s) (any_flat b (filters s)) t (ev_tree e) (after o t)); try tauto.
    - apply (r_flags _ (c_reg _ _ _ C)).
    - apply (r_flags _ (c_reg _ _ _ C')).
    - apply (a_root _ _ (c_apt _ _ _ C)).
    - rewrite <- Ro'. apply (a_root _ _ (c_apt _ _ _ C')).
    - apply moment_amid; [apply C|apply C|apply C'|]. apply call_moments; auto. apply C.
  Qed.

  Lemma elsewhere_current : forall o c t b s s' r, current t b s -> supported (t, b, s) (VTree o) -> about o = Some c ->
    view_call ord (VTree o) (t, b, s) = (after o t, b, s', r) ->
    forall q, view_path s q -> ~ In c q -> view_path s' q /\ forall n, ~ In (SDeleted n q) (news s s').
  Proof.
    intros o c t b s s' r C X Ab E q V Nc. enough (V' : view_path s' q) by (split; auto; intros n; apply (stays_current o t b s s' r C X E n q V V')).
    destruct (current_call ord HO (VTree o) t b s C X) as (s2 & E2 & C' & F' & Ro'). cbn [new_tree new_bank new_filters] in *.
    rewrite E in E2. inv E2. pose proof (c_sync _ _ _ C') as Sy'. rewrite F', Ro' in Sy'.
    apply (synced_path b (filters s) (froot s) (any_flat b (filters s))) with (T := t) in V; [|apply C].
    apply (synced_path b (filters s) (froot s) (any_flat b (filters s))) with (T := after o t); auto. split; [tauto|].
    apply (pm_wanted b (filters s) (froot s) (any_flat b (filters s)) (c_local _ _ _ C) t (after o t) c); auto; try tauto.
    - apply (r_flags _ (c_reg _ _ _ C)).
    - apply about_pm; auto. apply C.
  Qed.

  Lemma hear_kept : forall cs l cs', hear_all cs l cs' -> forall q, In q cs -> (forall n, ~ In (SDeleted n q) l) -> In q cs' /\ forall n, ~ In (SAdded n q) l.
  Proof.
    intros cs l cs' H. induction H as [cs|cs l cs1 x cs2 H IH Hx]; intros q I N; [split; auto|].
    destruct (IH q I) as [I1 A1]; [intros n Hn; apply (N n), in_or_app; auto|].
    assert (Nx : forall n, x <> SDeleted n q) by (intros n ->; apply (N n), in_or_app; simpl; auto).
    assert (G : In q cs2 /\ forall n, x <> SAdded n q).
    { inv Hx.
      - split; [apply in_or_app; auto|]. intros m Em. inv Em. tauto.
      - split; [|discriminate]. apply filter_In. split; auto. apply negb_true_iff. destruct (path_eqb q (q0 ++ [n])) eqn:E; auto.
        apply path_eqb_eq in E. subst. destruct (Nx n). auto.
      - split; [auto|discriminate].
      - split; [auto|discriminate]. }
    destruct G as [G1 G2]. split; auto. intros n Hn. apply in_app_or in Hn. destruct Hn as [Hn|[Hn|[]]]; [apply (A1 n Hn)|apply (G2 n Hn)].
  Qed.

  Lemma view_kept : forall c x q, viewing ord x -> supported x c -> view_path (snd x) q ->
    (forall n, ~ In (SDeleted n q) (news (snd x) (snd (fst (view_call ord c x))))) ->
    undisturbed q (news (snd x) (snd (fst (view_call ord c x)))).
  Proof.
    intros c x q V X P N. destruct (viewing_mirrored ord HO x V) as (cs & _ & K2 & K3).
    destruct (viewing_signals ord HO x (fst (view_call ord c x)) cs V) as (l & cs' & E & H & _); auto.
    { apply onward_call; auto. constructor. }
    assert (El : news (snd x) (snd (fst (view_call ord c x))) = l) by (unfold news; rewrite E, skipn_app, skipn_all, Nat.sub_diag; auto).
    rewrite El in *. intros n. split; [apply N|]. apply (hear_kept cs l cs' H); [apply K3; auto|auto].
  Qed.

  Lemma view_elsewhere : forall o c t b s t' b' s' r, viewing ord (t, b, s) -> supported (t, b, s) (VTree o) -> about o = Some c ->
    view_call ord (VTree o) (t, b, s) = (t', b', s', r) ->
    forall q, view_path s q -> ~ In c q -> view_path s' q /\ undisturbed q (news s s').
  Proof.
    intros o c t b s t' b' s' r V X Ab E q P Nc. pose proof (viewing_current ord HO _ V) as C. cbn in C.
    destruct (elsewhere_current o c t b s s' r C X Ab) with (q := q) as [P' N]; auto.
    { rewrite E. cbn [view_call] in E. destruct (feed ord b (events o t) s). inv E. auto. }
    split; auto. pose proof (view_kept (VTree o) (t, b, s) q V X P) as K. rewrite E in K. cbn [fst snd] in K. auto.
  Qed.

  Lemma view_stays : forall o t b s t' b' s' r, viewing ord (t, b, s) -> supported (t, b, s) (VTree o) ->
    view_call ord (VTree o) (t, b, s) = (t', b', s', r) ->
    forall q, view_path s q -> view_path s' q -> undisturbed q (news s s').
  Proof.
    intros o t b s t' b' s' r V X E q P P'. pose proof (viewing_current ord HO _ V) as C. cbn in C.
    pose proof (view_kept (VTree o) (t, b, s) q V X P) as K. rewrite E in K. cbn [fst snd] in K. apply K. intros n.
    apply (stays_current o t b s s' r C X); auto. rewrite E. cbn [view_call] in E. destruct (feed ord b (events o t) s). inv E. auto.
  Qed.
End Feed.
