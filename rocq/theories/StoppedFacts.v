(** Proofs about functions of the application that raise. *)
From Coq Require Import Permutation Lia.
From Verif Require Import Base BaseFacts AddFacts FrameFacts MainEvents MainTree Spec MainFacts MainInv MainReg Filters FTree ViewCount Api ViewApi SpecApi ApiFacts CountFacts
  SpecView SpecViewing FtBase FtQuiet FtRead SpecSys SysFacts Stopped SpecStopped.

Section Facts.
  Variable ord : nat -> list id -> list id.
  Variable bad : outcry.

  Lemma went_snoc : forall b es l l1 l2 e, went ord b es l l1 -> notify ord b e l1 = (l2, Ok tt) -> went ord b (es ++ [e]) l l2.
  Proof.
    intros b es l l1 l2 e W. induction W; simpl; intros N; [econstructor; eauto; constructor|]. econstructor; eauto.
  Qed.
  Lemma went_app : forall b es l l1 es' l2, went ord b es l l1 -> went ord b es' l1 l2 -> went ord b (es ++ es') l l2.
  Proof. intros b es l l1 es' l2 W. induction W; simpl; auto. intros. econstructor; eauto. Qed.

  Lemma notify_x_ok : forall b i e l l1, notify_x ord bad b i e l = (l1, Ok tt) -> notify ord b e l = (l1, Ok tt).
  Proof.
    intros b i e l l1. unfold notify_x. destruct (notify ord b e l) as [l2 [[]|x|]]; intros H; inv H; auto.
  Qed.

  Lemma notify_from_ok : forall b e ls i ls1, notify_from ord bad b i e ls = (ls1, Ok tt) ->
    Forall2 (fun l l1 => notify ord b e l = (l1, Ok tt)) ls ls1.
  Proof.
    induction ls as [|l ls IH]; intros i ls1; cbn [notify_from]; intros H; [inv H; constructor|].
    destruct (notify_x ord bad b i e l) as [l1 [[]|x|]] eqn:E; try (inv H; fail).
    destruct (notify_from ord bad b (S i) e ls) as [r1 r] eqn:E2. inv H. constructor; [eapply notify_x_ok; eauto|eauto].
  Qed.

  Lemma notify_from_stop : forall b e ls i ls1 r, notify_from ord bad b i e ls = (ls1, r) -> r <> Ok tt ->
    length ls1 = length ls /\ exists k, k < length ls /\ forall j l, nth_error ls j = Some l -> exists l', nth_error ls1 j = Some l' /\
      (j < k -> notify ord b e l = (l', Ok tt)) /\ (k < j -> l' = l) /\ (j = k -> notify_x ord bad b (i + k) e l = (l', r)).
  Proof.
    induction ls as [|l ls IH]; intros i ls1 r; cbn [notify_from]; intros H Nr; [inv H; congruence|].
    destruct (notify_x ord bad b i e l) as [l1 r1] eqn:E. destruct r1 as [[]|x|].
    - destruct (notify_from ord bad b (S i) e ls) as [q1 q] eqn:E2. inv H. destruct (IH _ _ _ E2 Nr) as (L & k & Kl & P).
      split; [simpl; auto|]. exists (S k). split; [simpl; lia|]. intros j l0 Hj. destruct j as [|j]; simpl in Hj.
      + inv Hj. exists l1. split; auto. split; [intros _; eapply notify_x_ok; eauto|]. split; lia.
      + destruct (P j l0 Hj) as (l' & A & B & C & D). exists l'. split; auto. split; [intros; apply B; lia|]. split; [intros; apply C; lia|].
        intros Q. replace (i + S k) with (S i + k) by lia. apply D. lia.
    - inv H. split; auto. exists 0. split; [simpl; lia|]. intros j l0 Hj. destruct j as [|j]; simpl in Hj.
      + inv Hj. exists l1. split; auto. split; [lia|]. split; [lia|]. intros _. rewrite Nat.add_0_r. auto.
      + exists l0. split; auto. split; [lia|]. split; [auto|lia].
    - inv H. split; auto. exists 0. split; [simpl; lia|]. intros j l0 Hj. destruct j as [|j]; simpl in Hj.
      + inv Hj. exists l1. split; auto. split; [lia|]. split; [lia|]. intros _. rewrite Nat.add_0_r. auto.
      + exists l0. split; auto. split; [lia|]. split; [auto|lia].
  Qed.

  Lemma Forall2_nth : forall A B (R : A -> B -> Prop) l l', Forall2 R l l' -> forall i x, nth_error l i = Some x -> exists x', nth_error l' i = Some x' /\ R x x'.
  Proof.
    intros A B R l l' F. induction F; intros [|i] z Hz; simpl in *; try discriminate; eauto. inv Hz. eauto.
  Qed.
  Lemma Forall2_back : forall A B (R : A -> B -> Prop) l l', Forall2 R l l' -> forall i x', nth_error l' i = Some x' -> exists x, nth_error l i = Some x /\ R x x'.
  Proof.
    intros A B R l l' F. induction F; intros [|i] z Hz; simpl in *; try discriminate; eauto. inv Hz. eauto.
  Qed.
  Lemma Forall2_len : forall A B (R : A -> B -> Prop) l l', Forall2 R l l' -> length l = length l'.
  Proof. intros A B R l l' F. induction F; simpl; auto. Qed.
  Lemma Forall2_trans_went : forall b e es ls l1 l2, Forall2 (fun l l1 => notify ord b e l = (l1, Ok tt)) ls l1 ->
    Forall2 (went ord b es) l1 l2 -> Forall2 (went ord b (e :: es)) ls l2.
  Proof.
    intros b e es ls l1 l2 F. revert l2. induction F; intros l2 G; inv G; constructor; auto. econstructor; eauto.
  Qed.

  Lemma deliver_x_all : forall b es ls ls1, deliver_x ord bad b es ls = (ls1, None) -> Forall2 (went ord b es) ls ls1.
  Proof.
    induction es as [|e es IH]; intros ls ls1; cbn [deliver_x]; intros H.
    - inv H. clear. induction ls1; constructor; auto. constructor.
    - destruct (notify_from ord bad b 0 e ls) as [l1 [[]|x|]] eqn:E; try (inv H; fail).
      eapply Forall2_trans_went; [eapply notify_from_ok; eauto|]. apply IH; auto.
  Qed.

  Lemma deliver_x_stop : forall b es ls ls1 t r, deliver_x ord bad b es ls = (ls1, Some (t, r)) ->
    r <> Ok tt /\ length ls1 = length ls /\ exists pre e post k, es = pre ++ e :: post /\ t = ev_tree e /\ k < length ls /\
      forall i l, nth_error ls i = Some l -> exists l', nth_error ls1 i = Some l' /\
        (i < k -> went ord b (pre ++ [e]) l l') /\ (k < i -> went ord b pre l l') /\
        (i = k -> exists l0, went ord b pre l l0 /\ notify_x ord bad b k e l0 = (l', r)).
  Proof.
    induction es as [|e es IH]; intros ls ls1 t r; cbn [deliver_x]; intros H; [inv H|].
    destruct (notify_from ord bad b 0 e ls) as [l1 q] eqn:E.
    assert (Case : q <> Ok tt -> (l1, Some (ev_tree e, q)) = (ls1, Some (t, r)) ->
      r <> Ok tt /\ length ls1 = length ls /\ exists pre e0 post k, e :: es = pre ++ e0 :: post /\ t = ev_tree e0 /\ k < length ls /\
      forall i l, nth_error ls i = Some l -> exists l', nth_error ls1 i = Some l' /\
        (i < k -> went ord b (pre ++ [e0]) l l') /\ (k < i -> went ord b pre l l') /\
        (i = k -> exists l0, went ord b pre l l0 /\ notify_x ord bad b k e0 l0 = (l', r))).
    { intros Nq Q. inv Q. destruct (notify_from_stop _ _ _ _ _ _ E Nq) as (L & k & Kl & P). split; auto. split; auto.
      exists [], e, es, k. split; auto. split; auto. split; auto. intros i l Hi. destruct (P i l Hi) as (l' & A & B & C & D).
      exists l'. split; auto. split; [intros X; econstructor; [apply B; auto|constructor]|].
      split; [intros X; rewrite (C X); constructor|]. intros X. exists l. split; [constructor|]. rewrite <- (D X). auto. }
    destruct q as [[]|x|]; [|apply Case; auto; discriminate|apply Case; auto; discriminate].
    clear Case. pose proof (notify_from_ok _ _ _ _ _ E) as F. destruct (IH _ _ _ _ H) as (Nr & L & pre & e0 & post & k & -> & T & Kl & P).
    assert (Ll : length ls = length l1) by (eapply Forall2_len; eauto).
    split; auto. split; [congruence|]. exists (e :: pre), e0, post, k. split; auto. split; auto. split; [lia|].
    intros i l Hi. destruct (Forall2_nth _ _ _ _ _ F i l Hi) as (l2 & Hi2 & N). destruct (P i l2 Hi2) as (l' & A & B & C & D).
    exists l'. split; auto. split; [intros X; simpl; econstructor; eauto|]. split; [intros X; econstructor; eauto|].
    intros X. destruct (D X) as (l0 & W & Z). exists l0. split; auto. econstructor; eauto.
  Qed.

  Lemma call_x_exact : forall o y y' r, tree_call_x ord bad o y = (y', r) ->
    s_bank y' = s_bank y /\ s_views y' = s_views y /\ s_counts y' = s_counts y /\ length (s_listeners y') = length (s_listeners y) /\
    ((s_tree y' = after o (s_tree y) /\ r = outcome o (s_tree y) /\
      Forall2 (went ord (s_bank y) (events o (s_tree y))) (s_listeners y) (s_listeners y')) \/
     (r <> Ok tt /\ exists pre e post k, events o (s_tree y) = pre ++ e :: post /\ s_tree y' = ev_tree e /\ k < length (s_listeners y) /\
      forall i l, nth_error (s_listeners y) i = Some l -> exists l', nth_error (s_listeners y') i = Some l' /\
        (i < k -> went ord (s_bank y) (pre ++ [e]) l l') /\ (k < i -> went ord (s_bank y) pre l l') /\
        (i = k -> exists l0, went ord (s_bank y) pre l l0 /\ notify_x ord bad (s_bank y) k e l0 = (l', r)))).
  Proof.
    intros o y y' r. unfold tree_call_x, after, outcome, events. destruct (run_op o (s_tree y)) as [[t1 es] r1]. cbn [fst snd].
    destruct (deliver_x ord bad (s_bank y) es (s_listeners y)) as [ls [[t2 r2]|]] eqn:D; intros H; inv H; cbn [s_bank s_views s_counts s_tree s_listeners].
    - destruct (deliver_x_stop _ _ _ _ _ _ D) as (Nr & L & P). repeat split; auto.
    - pose proof (deliver_x_all _ _ _ _ D) as F. repeat split; auto. symmetry. eapply Forall2_len; eauto.
  Qed.
End Facts.

Section Library.
  Variable ord : nat -> list id -> list id.
  Hypothesis HO : forall k l, Permutation (ord k l) l.
  Variable bad : outcry.

  Lemma went_det : forall b es l l1 l2, went ord b es l l1 -> went ord b es l l2 -> l1 = l2.
  Proof.
    intros b es l l1 l2 W. revert l2. induction W; intros l3 V; inv V; auto. apply IHW. congruence.
  Qed.
  Lemma hear_went : forall b es l, snd (hear_list ord b es l) = Ok tt -> went ord b es l (fst (hear_list ord b es l)).
  Proof.
    induction es as [|e es IH]; intros l H.
    - rewrite hear_list_nil. constructor.
    - destruct (hear_list_cons ord b e es l H) as [N E]. rewrite E. rewrite E in H. econstructor; [|apply IH; auto].
      destruct (notify ord b e l); simpl in *; congruence.
  Qed.
  Lemma show_went : forall o y i l l', sinv y -> fits y (LTree o) -> nth_error (s_listeners y) i = Some l ->
    went ord (s_bank y) (events o (s_tree y)) l l' -> linv (after o (s_tree y)) (s_bank y) l'.
  Proof.
    intros o y i l l' I X Hl W. destruct (hear_list_ok ord HO o y i l I X Hl) as (A & B & _).
    pose proof (hear_went _ _ _ A) as W'. rewrite (went_det _ _ _ _ _ W W'). auto.
  Qed.
  Lemma linv_shows : forall t b l, linv t b l -> shows t b l.
  Proof.
    intros t b [h|s|v]; simpl; auto. intros [N E K Hn L Ha Hk G].
    assert (E' : forall x, In x (vnodes v) <-> In x (satisfying b t (vfilters v))) by (intros x; rewrite E, satisfying_In; tauto).
    split; auto. unfold vc_n_nodes. apply Permutation_length. apply NoDup_Permutation; auto.
    unfold satisfying. apply filter_NoDup. apply (ok_keys _ (g_ok _ _ _ G)).
  Qed.

  Lemma went_split : forall b es es' l l2, went ord b (es ++ es') l l2 -> exists l1, went ord b es l l1 /\ went ord b es' l1 l2.
  Proof.
    induction es as [|e es IH]; intros es' l l2 W; simpl in W; [exists l; split; auto; constructor|].
    inversion W as [|? ? ? l1 ? N0 W0]; subst. destruct (IH _ _ _ W0) as (l3 & A & B). exists l3. split; auto. econstructor; eauto.
  Qed.

  (** What the listener at the place where the call stopped has gone through. *)
  Lemma stopper : forall o y pre e post k l l0 l' r, sinv y -> fits y (LTree o) -> events o (s_tree y) = pre ++ e :: post ->
    nth_error (s_listeners y) k = Some l -> went ord (s_bank y) pre l l0 -> notify_x ord bad (s_bank y) k e l0 = (l', r) -> r <> Ok tt ->
    went ord (s_bank y) (pre ++ [e]) l l' /\ exists x, bad k e = Some x /\ r = Err x.
  Proof.
    intros o y pre e post k l l0 l' r I X E Hl W N Nr. destruct (hear_list_ok ord HO o y k l I X Hl) as (A & _).
    pose proof (hear_went _ _ _ A) as V. rewrite E in V. apply went_split in V. destruct V as (l1 & V1 & V2).
    pose proof (went_det _ _ _ _ _ W V1) as <-. inversion V2 as [|? ? ? l2 ? N0 W0]; subst. unfold notify_x in N. rewrite N0 in N. inv N.
    split; [eapply went_snoc; eauto|]. destruct (calls_out l0 l'); [|congruence]. destruct (bad k e); [eauto|congruence].
  Qed.

  Lemma last_right : forall o y y' r e, library ord y -> fits y (LTree o) -> ends_with o (s_tree y) e ->
    (forall i e', In e' (removelast (events o (s_tree y))) -> bad i e' = None) -> tree_call_x ord bad o y = (y', r) ->
    s_tree y' = after o (s_tree y) /\
    ((r = outcome o (s_tree y) /\ forall l, In l (s_listeners y') -> shows (s_tree y') (s_bank y') l) \/
     (exists k x, bad k e = Some x /\ r = Err x /\ k < length (s_listeners y) /\
       forall i l, i <= k -> nth_error (s_listeners y') i = Some l -> shows (s_tree y') (s_bank y') l)).
  Proof.
    intros o y y' r e Li X (pre0 & Ev & Et) Hb H. pose proof (library_sinv ord HO y Li) as I.
    destruct (call_x_exact _ _ _ _ _ _ H) as (B & _ & _ & Len & [(T & R & F)|(Nr & pre & e0 & post & k & E & T & Kl & P)]).
    - split; auto. left. split; auto. intros l Hl. apply In_nth_error in Hl. destruct Hl as (i & Hi).
      destruct (Forall2_back _ _ _ _ _ F i l Hi) as (l0 & H0 & W). rewrite T, B. apply linv_shows. eapply show_went; eauto.
    - destruct (nth_error (s_listeners y) k) as [l|] eqn:Hk; [|apply nth_error_None in Hk; lia].
      destruct (P k l Hk) as (l' & A & _ & _ & D). destruct (D eq_refl) as (l0 & W & N).
      destruct (stopper o y pre e0 post k l l0 l' r I X E Hk W N Nr) as (W2 & x & Bx & Rx).
      assert (Q : post = [] /\ pre = pre0 /\ e0 = e).
      { destruct post as [|p post].
        - rewrite Ev in E. apply app_inj_tail in E. destruct E; auto.
        - exfalso. rewrite (Hb k e0) in Bx; [discriminate|]. rewrite E. rewrite removelast_app by discriminate. apply in_or_app. right.
          cbn [removelast]. left. auto. }
      destruct Q as (-> & -> & ->). split; [congruence|]. right. exists k, x. split; auto. split; auto. split; auto.
      intros i l1 Hi H1. assert (Hi' : exists l2, nth_error (s_listeners y) i = Some l2).
      { destruct (nth_error (s_listeners y) i) eqn:Z; eauto. apply nth_error_None in Z. lia. }
      destruct Hi' as (l2 & H2). destruct (P i l2 H2) as (l3 & A3 & A4 & _). assert (l3 = l1) by congruence. subst l3.
      rewrite B. replace (s_tree y') with (after o (s_tree y)) by congruence. apply linv_shows. eapply show_went; eauto.
      rewrite Ev. destruct (Nat.eq_dec i k) as [->|Ne]; [|apply A4; lia]. replace l1 with l' by congruence. replace l2 with l by congruence. auto.
  Qed.

  Lemma single_right : forall o y y' r e, library ord y -> fits y (LTree o) -> one_event o (s_tree y) e -> tree_call_x ord bad o y = (y', r) -> r <> outcome o (s_tree y) ->
    exists k x, bad k e = Some x /\ r = Err x /\ s_tree y' = after o (s_tree y) /\
      (forall i l, i <= k -> nth_error (s_listeners y') i = Some l -> shows (s_tree y') (s_bank y') l) /\
      (forall i, k < i -> nth_error (s_listeners y') i = nth_error (s_listeners y) i) /\
      (forall i s, nth_error (s_listeners y') i = Some (LView s) -> exists s', refilter ord (s_bank y') (s_tree y') s = (s', Ok tt) /\
        filters s' = filters s /\ shows (s_tree y') (s_bank y') (LView s')).
  Proof.
    intros o y y' r e Li X [Ev Et] H Nr. pose proof (library_sinv ord HO y Li) as I.
    assert (EW : ends_with o (s_tree y) e) by (exists []; auto).
    destruct (last_right o y y' r e Li X EW) as (T & [[R _]|(k0 & x0 & _ & Rx0 & _)]); auto; [intros i e'; rewrite Ev; intros []|congruence|].
    destruct (call_x_exact _ _ _ _ _ _ H) as (B & _ & _ & Len & [(_ & R & _)|(Nr2 & pre & e0 & post & k & E & T2 & Kl & P)]); [congruence|].
    assert (Q : post = [] /\ pre = [] /\ e0 = e).
    { rewrite Ev in E. destruct pre as [|p pre]; [|destruct pre; discriminate]. inv E. auto. }
    destruct Q as (-> & -> & ->).
    destruct (nth_error (s_listeners y) k) as [l|] eqn:Hk; [|apply nth_error_None in Hk; lia].
    destruct (P k l Hk) as (l' & A & _ & _ & D). destruct (D eq_refl) as (l0 & W & N).
    destruct (stopper o y [] e [] k l l0 l' r I X E Hk W N Nr2) as (W2 & x & Bx & Rx).
    assert (Old : forall i l1, nth_error (s_listeners y') i = Some l1 -> exists l2, nth_error (s_listeners y) i = Some l2).
    { intros i l1 H1. destruct (nth_error (s_listeners y) i) eqn:Z; eauto. apply nth_error_None in Z. rewrite <- Len in Z. apply nth_error_None in Z. congruence. }
    assert (Low : forall i l1, i <= k -> nth_error (s_listeners y') i = Some l1 -> linv (s_tree y') (s_bank y') l1).
    { intros i l1 Hi H1. destruct (Old i l1 H1) as (l2 & H2). destruct (P i l2 H2) as (l3 & A3 & A4 & _). assert (l3 = l1) by congruence. subst l3.
      rewrite B, T. eapply show_went; eauto. rewrite Ev. destruct (Nat.eq_dec i k) as [->|Ne]; [|apply A4; lia].
      replace l1 with l' by congruence. replace l2 with l by congruence. auto. }
    assert (High : forall i, k < i -> nth_error (s_listeners y') i = nth_error (s_listeners y) i).
    { intros i Hi. destruct (nth_error (s_listeners y) i) as [l1|] eqn:Z.
      - destruct (P i l1 Z) as (l2 & Z2 & _ & V & _). specialize (V Hi). inv V. auto.
      - apply nth_error_None in Z. apply nth_error_None. lia. }
    exists k, x. split; auto. split; auto. split; auto. split; [intros; apply linv_shows; eapply Low; eauto|]. split; auto.
    intros i s Hs.
    destruct (tree_step ord HO o y I X) as (_ & Ta & _ & I').
    assert (Rc : reach calm (s_tree y')) by (rewrite T, <- Ta; apply I').
    assert (Q : no_clash (s_tree y') s /\ sound s /\ proper s).
    { destruct (le_lt_dec i k) as [Hi|Hi].
      - destruct (Low i _ Hi Hs) as [Nc U]. split; auto. split; [apply U|]. intros z Hz Hi2. apply (up_nodes _ _ _ U) in Hi2.
        apply satisfying_In in Hi2. destruct Nc as [_ Nc]. pose proof (Nc z Hz). destruct Hi2. congruence.
      - rewrite (High i Hi) in Hs. destruct (i_all _ I i _ Hs) as [Nc U].
        split; [|split; [apply U|]].
        + split.
          * destruct (hear_list_ok ord HO o y i _ I X Hs) as (_ & Lv & s' & Fs & _ & Ro). rewrite Fs in Lv. destruct Lv as [[Nf _] _]. rewrite T, <- Ro. auto.
          * rewrite T. intros z Hz. apply (res_step o y I X z Hz). apply Nc; auto.
        + intros z Hz Hi2. apply (up_nodes _ _ _ U) in Hi2. apply satisfying_In in Hi2. destruct Nc as [_ Nc]. pose proof (Nc z Hz).
          destruct Hi2. congruence. }
    destruct Q as (Nc & So & Pr).
    destruct (refilter_sound ord HO (s_tree y') (s_bank y') s (with_reach _ Rc) Nc So Pr) as (s' & Ec & U & Fs & Ro).
    exists s'. split; auto. split; auto. simpl. split; auto. destruct Nc. split; auto. congruence.
  Qed.
End Library.
