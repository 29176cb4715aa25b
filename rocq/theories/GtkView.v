(** The Gtk model connected to a view. *)
From Coq Require Import Permutation.
From Verif Require Import Base BaseFacts MainTree Spec MainFacts MainReg MainTight Filters FTree SpecApi
  SpecView SpecViewing FtBase FtWalk FtEdge FtUp FtFront FtDown FtSync FtTree FtMind FtOps FtSent FtKeep FtState FtView FtThm FtSignals FtHist FtQuiet FtRead
  Gtk SpecGtk GtkFacts.
Open Scope f_scope.

Lemma live_names : forall T l, forallb (liveb T) l = true -> forall x, In x l -> names_live (T, x).
Proof. intros T l H x Hx. rewrite forallb_forall in H. specialize (H x Hx). destruct x; try exact H; exact I. Qed.

Lemma news_extends : forall s s', longer s s' -> sent s' = sent s ++ news s s'.
Proof. intros s s' (l & E). unfold news. rewrite E, skipn_app, skipn_all, Nat.sub_diag. auto. Qed.

Lemma news_pre : forall l s s', news (pre l s) (pre l s') = news s s'.
Proof. intros l s s'. unfold news, pre. simpl. rewrite app_length, skipn_app, skipn_all2 by lia. simpl. f_equal. lia. Qed.

Lemma news_same : forall s s', sent s' = sent s -> news s s' = [].
Proof. intros s s' E. unfold news. rewrite E. apply skipn_all. Qed.

Section GView.
  Variable ord : nat -> list id -> list id.
  Variable pf : platform.
  Hypothesis HO : forall k l, Permutation (ord k l) l.
  Hypothesis AL : faithful pf.
  Hypothesis NR : never_reuses pf.

  (** *** Blindness *)
  Lemma pre_feed_widget : forall b es l s g, feed_widget ord pf b es (pre l s) g =
    let '(s1, g1, r) := feed_widget ord pf b es s g in (pre l s1, g1, r).
  Proof.
    intros b es l. induction es as [|e es IH]; intros s g; cbn [feed_widget]; auto.
    rewrite (blind_external ord b (ev_tree e) (ev_id e) l s). destruct (external_modify ord b (ev_tree e) (ev_id e) s) as [s1 [[]|x|]]; cbn [fst snd]; auto.
    rewrite news_pre. destruct (on_signals pf (ev_tree e) (news s s1) g) as [g1 [[]|x|]]; auto.
  Qed.

  Lemma pre_apply : forall t n p rs b l s, apply_filter ord t n p rs true b (pre l s) =
    let '(b1, s1, r) := apply_filter ord t n p rs true b s in (b1, pre l s1, r).
  Proof.
    intros t n p rs b l s. unfold apply_filter.
    set (s1 := if rs then set_filters [] s else s).
    assert (E1 : (if rs then set_filters [] (pre l s) else pre l s) = pre l s1) by (unfold s1; destruct rs; auto).
    rewrite E1. cbv zeta.
    assert (E2 : forall fr : bool, (if fr then set_filters (filters (pre l s1) ++ [n]) (pre l s1) else pre l s1) = pre l (if fr then set_filters (filters s1 ++ [n]) s1 else s1)) by (intros []; auto).
    change (filters (pre l s1)) with (filters s1) in *. 
    destruct p as [d|]; [destruct (get_filter b n)|]; rewrite ?E2; auto.
    all: destruct (true && _); auto.
    all: rewrite blind_refilter; destruct (refilter _ _ _ _) as [s3 [[]| |]]; auto.
  Qed.

  Lemma pre_call : forall c t b l s, view_call ord c (t, b, pre l s) =
    let '(t1, b1, s1, r) := view_call ord c (t, b, s) in (t1, b1, pre l s1, r).
  Proof.
    intros c t b l s. destruct c as [o|n p rs|n| | |n a|c]; cbn [view_call].
    - rewrite blind_feed. destruct (feed ord b (events o t) s). auto.
    - rewrite pre_apply. destruct (apply_filter ord t n p rs true b s) as [[b1 s1] r]. auto.
    - rewrite blind_unapply. destruct (unapply_filter ord b t n true s). auto.
    - rewrite blind_reset. destruct (reset_filters ord b t true s). auto.
    - rewrite blind_refilter. destruct (refilter ord b t s). auto.
    - rewrite blind_queue. destruct (queue_action n a s). auto.
    - auto.
  Qed.

  Lemma pre_widget : forall c t b l s g, widget_call ord pf c (t, b, pre l s) g =
    let '(t1, b1, s1, g1, r) := widget_call ord pf c (t, b, s) g in (t1, b1, pre l s1, g1, r).
  Proof.
    intros c t b l s g. destruct c as [o|n p rs|n| | |n a|c]; cbn [widget_call].
    { rewrite pre_feed_widget. destruct (feed_widget ord pf b (events o t) s g) as [[s1 g1] r]. auto. }
    all: rewrite pre_call; destruct (view_call _ _ _) as [[[t1 b1] s1] [[]|e|]]; auto; cbn [snd]; rewrite news_pre;
      destruct (on_signals _ _ _ _) as [g1 [[]|e|]]; auto.
  Qed.

  (** *** What a call on the view sends, other than a call on the tree: nothing, or what [refilter] sends *)
  Lemma news_call : forall (G : list sig -> Prop) c t b s, current t b s -> (forall o, c <> VTree o) -> G [] ->
    (forall b' fs, exists s', refilter ord b' t (set_filters fs s) = (s', Ok tt) /\ G (news s s')) ->
    G (news s (snd (fst (view_call ord c (t, b, s))))).
  Proof.
    intros P0 c t b s C Hc H0 HR.
    assert (Same : forall s', sent s' = sent s -> P0 (news s s')) by (intros s' E; rewrite news_same; auto).
    assert (SF : set_filters (filters s) s = s) by (destruct s; auto).
    destruct c as [o|n p rs|n| | |n a|c]; cbn [view_call].
    - exfalso. apply (Hc o). auto.
    - assert (G : forall b' should, P0 (news s (snd (fst (let s1 := if rs then set_filters [] s else s in let fresh := negb (mem n (filters s1)) in
          let s2 := if fresh then set_filters (filters s1 ++ [n]) s1 else s1 in
          if true && (should || fresh) then match refilter ord b' t s2 with
            | (s3, Ok _) => (b', s3, Ok fresh) | (s3, Err e) => (b', s3, Err e) | (s3, Diverge) => (b', s3, Diverge) end
          else (b', s2, Ok fresh)))))).
      { intros b' should. cbv zeta. set (s1 := if rs then set_filters [] s else s).
        set (s2 := if negb (mem n (filters s1)) then set_filters (filters s1 ++ [n]) s1 else s1).
        assert (E2 : exists fs, s2 = set_filters fs s).
        { unfold s2, s1. destruct rs; destruct (negb _); try (eexists; reflexivity). exists (filters s). auto. }
        destruct E2 as (fs & E2). rewrite E2. destruct (true && (should || negb (mem n (filters s1)))).
        - destruct (HR b' fs) as (s' & -> & H). auto.
        - apply Same. auto. }
      assert (P : forall X : bank * ft * res bool, snd (fst (let '(b1, s1, r) := X in (t, b1, s1, done r))) = snd (fst X)) by (intros [[? ?] ?]; auto).
      rewrite P. unfold apply_filter. destruct p as [d|]; [|exact (G b false)].
      destruct (get_filter b n); [exact (G (bank_call (BParam n (Some d)) b) true)|].
      cbn [fst snd]. apply Same. destruct rs; auto.
    - unfold unapply_filter, fbind, fget, fmodify. destruct (mem n (filters s)); [|apply Same; auto].
      destruct (HR b (remove1 n (filters s))) as (s' & -> & H). auto.
    - unfold reset_filters, fbind, fmodify. destruct (HR b []) as (s' & -> & H). auto.
    - destruct (HR b (filters s)) as (s' & E & H). rewrite SF in E. rewrite E. auto.
    - unfold queue_action. destruct (negb (truthy n)); [apply Same; auto|]. destruct (is_displayed s n); apply Same; auto.
    - apply Same. auto.
  Qed.

  (** *** Signals name nodes of the tree *)
  Lemma live_call : forall c t b s, current t b s -> (forall o, c <> VTree o) ->
    forallb (liveb t) (news s (snd (fst (view_call ord c (t, b, s))))) = true.
  Proof.
    intros c t b s C Hc. apply (news_call (fun l => forallb (liveb t) l = true)); auto. intros b' fs. destruct (current_base _ _ _ C) as (r & B).
    destruct (refilter_live ord HO t b' (set_filters fs s) r (any_flat b (filters s)) (c_reg _ _ _ C) (c_apt _ _ _ C)) as (s' & E & _ & _ & _ & H).
    { apply base_filters. auto. }
    exists s'. split; auto. apply (heeds_news t _ _ (set_filters fs s) s') in H. exact H.
  Qed.

  (** *** They name no node that is known already *)
  Lemma current_lone : forall t b v, current t b v -> lone_tree t -> lone_ch (kids v).
  Proof.
    intros t b v C L x p q Hp Hq. destruct (c_sync _ _ _ C) as (r & R & [I _]). pose proof (in_base _ _ _ _ _ _ _ I) as B.
    destruct (base_kid _ _ _ _ _ _ _ B Hp) as [Dx Rx].
    apply (gb_sym _ _ _ _ _ (b_g _ _ _ _ _ B)) in Hp, Hq; auto.
    destruct (in_stale _ _ _ _ _ _ _ I x Dx) as [->|Dn]; [rewrite (gb_top _ _ _ _ _ (b_g _ _ _ _ _ B)) in Hp; destruct Hp|].
    rewrite (in_pars _ _ _ _ _ _ _ I x Dn) in Hp, Hq by auto.
    unfold sp in Hp, Hq. rewrite vreg_parents in Hp, Hq by apply (a_reg _ _ (c_apt _ _ _ C)).
    destruct (any_flat b (filters v)); [destruct Hp as [<-|[]], Hq as [<-|[]]; auto|].
    destruct (filter (D b (filters v) t) (parents t x)) as [|y l] eqn:E; [destruct Hp as [<-|[]], Hq as [<-|[]]; auto|].
    rewrite <- E in Hp, Hq. apply filter_In in Hp, Hq. apply (L x); tauto.
  Qed.

  Lemma fresh_call : forall c t b s, current t b s -> (forall o, c <> VTree o) -> lone_tree t ->
    freshb (FtMind.heard (sent s)) (news s (snd (fst (view_call ord c (t, b, s))))) = true.
  Proof.
    intros c t b s C Hc L. apply (news_call (fun l => freshb (FtMind.heard (sent s)) l = true)); auto. intros b' fs. destruct (current_base _ _ _ C) as (r & B).
    destruct (refilter_live ord HO t b' (set_filters fs s) r (any_flat b (filters s)) (c_reg _ _ _ C) (c_apt _ _ _ C)) as (s' & E & Sy & _ & _ & H).
    { apply base_filters. auto. }
    exists s'. split; auto.
    assert (Lo : lonely t (set_filters fs s)) by (split; auto; exact (current_lone t b s C L)).
    pose proof (heeds_fresh _ _ _ (set_filters fs s) s' H Lo) as Fr.
    destruct (gb_knows _ _ _ _ _ (b_g _ _ _ _ _ B)) as (cs & (Hs & _) & _).
    destruct Sy as (r1 & _ & [I1 _]). destruct (gb_knows _ _ _ _ _ (b_g _ _ _ _ _ (in_base _ _ _ _ _ _ _ I1))) as (cs1 & (Hs1 & _) & _).
    assert (Ex : sent s' = sent s ++ news s s') by (destruct H as (l & El & _); unfold news; rewrite El; simpl; rewrite skipn_app, skipn_all, Nat.sub_diag; auto).
    rewrite Ex in Hs1. apply FtMind.hear_all_cut in Hs1. destruct Hs1 as (m & Hm & Hc1). rewrite (learn_fun _ _ _ _ Hm Hs) in Hc1.
    unfold FtMind.heard. rewrite <- (FtMind.hear_all_learn _ _ _ Hs). apply (fresh_freshb _ (sent s) cs cs1); auto.
  Qed.

  (** *** The Gtk model follows *)
  Lemma longer_feed : forall b es s, longer s (fst (feed ord b es s)).
  Proof. intros. apply blind_extends. apply blind_feed. Qed.

  Lemma widget_feed : forall b es s s' g cs cs', feed_checked ord b es s = (s', Ok tt) ->
    hear_all [] (sent s) cs -> hear_all [] (sent s') cs' -> follows pf g cs ->
    exists g', feed_widget ord pf b es s g = (s', g', Ok tt) /\ follows pf g' cs'.
  Proof.
    intros b es. induction es as [|e es IH]; intros s s' g cs cs' E H H' F.
    - unfold feed_checked in E. simpl in E. inversion E; subst. rewrite (hear_all_det _ _ _ _ H' H). exists g. auto.
    - unfold feed_checked in E. cbn [ffor] in E. unfold fbind in E. unfold ext_checked at 1 in E. cbn [feed_widget].
      pose proof (blind_extends _ _ s (blind_external ord b (ev_tree e) (ev_id e))) as X1.
      destruct (external_modify ord b (ev_tree e) (ev_id e) s) as [s1 r1]. cbn [fst] in X1.
      destruct (forallb (liveb (ev_tree e)) (news s s1)) eqn:Lv; [|discriminate].
      match type of E with context [forallb ?g (news s s1)] => destruct (forallb g (news s s1)); [|discriminate] end.
      destruct (mindsb _ _ _); [|discriminate]. destruct (oneb _ _ _); [|discriminate]. destruct r1 as [[]|x|]; try discriminate.
      change (feed_checked ord b es s1 = (s', Ok tt)) in E.
      assert (X2 : exists l, sent s' = sent s1 ++ l).
      { assert (W : fwp (feed_checked ord b es) (fun _ z => z = s') s1) by (unfold fwp; rewrite E; auto).
        apply feed_of_checked in W. pose proof (longer_feed b es s1) as X. unfold fwp in W. destruct (feed ord b es s1) as [z [[]|y|]]; try contradiction.
        subst z. exact X. }
      destruct X2 as (l2 & X2). pose proof H' as H2. rewrite X2 in H2. apply hear_split in H2. destruct H2 as (c1 & H2 & _).
      pose proof H2 as H3. rewrite (news_extends s s1 X1) in H3. apply hear_split in H3. destruct H3 as (c0 & H3 & H4).
      rewrite (hear_all_det _ _ _ _ H3 H) in H4.
      destruct (follows_signals pf (ev_tree e) (news s s1) g cs c1 AL NR F H4) as (g1 & E1 & F1); [apply live_names; auto|].
      rewrite E1. apply (IH s1 s' g1 c1 cs'); auto.
  Qed.

  Definition held (t : mtree) (b : bank) (s : ft) (g : gtk) : Prop :=
    exists l v cs, s = pre l v /\ current t b v /\ hear_all [] (sent v) cs /\ follows pf g cs.

  Lemma current_heard : forall t b v, current t b v -> exists cs, hear_all [] (sent v) cs /\ forall q, In q cs <-> view_path v q.
  Proof.
    intros t b v C. destruct (current_base _ _ _ C) as (r & B). destruct (gb_knows _ _ _ _ _ (b_g _ _ _ _ _ B)) as (cs & (K & _) & _ & K1). exists cs. auto.
  Qed.

  Lemma held_call : forall c t b s g, held t b s g -> supported (t, b, s) c ->
    exists t' b' s' g', widget_call ord pf c (t, b, s) g = (t', b', s', g', Ok tt) /\ held t' b' s' g' /\
      view_call ord c (t, b, s) = (t', b', s', Ok tt).
  Proof.
    intros c t b s g (l & v & cs & -> & C & Hh & F) X. change (supported (t, b, v) c) in X.
    destruct (current_call ord HO c t b v C X) as (v' & E & C' & _).
    destruct (current_heard _ _ _ C') as (cs' & Hh' & _).
    assert (Go : exists g', widget_call ord pf c (t, b, v) g = (new_tree c t, new_bank c b, v', g', Ok tt) /\ follows pf g' cs').
    { destruct c as [o|n p rs|n| | |n a|c].
      { cbn [widget_call]. destruct X as [Cm X].
        destruct (sync_call_checked ord b (filters v) (froot v) (any_flat b (filters v)) HO (c_local _ _ _ C) o t v (c_reg _ _ _ C) (c_apt _ _ _ C)) as [_ W].
        { split; auto. }
        { apply (c_sync _ _ _ C). }
        apply fwp_run in W. destruct W as (v2 & [] & E2 & _).
        assert (v2 = v').
        { assert (W : fwp (feed_checked ord b (events o t)) (fun _ z => z = v2) v) by (unfold fwp, events; rewrite E2; auto).
          apply feed_of_checked in W. cbn [view_call] in E. unfold fwp in W. destruct (feed ord b (events o t) v) as [z q]. inversion E; subst. auto. }
        subst v2. destruct (widget_feed b (events o t) v v' g cs cs' E2 Hh Hh' F) as (g' & E3 & F'). rewrite E3. exists g'. auto. }
      all: cbn [widget_call]; rewrite E; cbn [snd].
      all: match type of E with view_call ord ?c _ = _ => pose proof (live_call c t b v C ltac:(discriminate)) as Lv; pose proof (longer_call ord c t b v) as Lg end.
      all: rewrite E in Lv, Lg; cbn [fst snd] in Lv, Lg.
      all: rewrite (news_extends v v' Lg) in Hh'; apply hear_split in Hh'; destruct Hh' as (c0 & Hh1 & Hh2); rewrite (hear_all_det _ _ _ _ Hh1 Hh) in Hh2.
      all: destruct (follows_signals pf t (news v v') g cs cs' AL NR F Hh2 (live_names _ _ Lv)) as (g' & E3 & F'); rewrite E3; exists g'; auto. }
    destruct Go as (g' & E2 & F'). exists (new_tree c t), (new_bank c b), (pre l v'), g'. split; [|split].
    - rewrite pre_widget, E2. auto.
    - exists l, v', cs'. auto.
    - rewrite pre_call, E. auto.
  Qed.

  Lemma synced_heard : forall fs root fl b t s s', synced b fs root fl t s -> like s s' -> filters s' = filters s -> knows s' (paths (kids s) root) -> synced b fs root fl t s'.
  Proof.
    intros fs root fl b t s s' (r & R & [] & F) L E K. exists r. split; auto. split; [|congruence]. constructor.
    - eapply base_like; eauto.
    - intros x. rewrite (like_disp _ _ _ L). auto.
    - intros x. rewrite (like_disp _ _ _ L). auto.
    - intros x. rewrite (like_pars _ _ _ L). auto.
  Qed.

  Lemma held_connect : forall x, viewing ord x -> exists t b s g, connect pf x = (t, b, s, g, Ok tt) /\ held t b s g /\
    (forall q, view_path s q <-> view_path (snd x) q).
  Proof.
    intros [[t b] s] V. pose proof (viewing_current ord HO _ V) as C. simpl in C.
    pose proof (synced_sound _ _ _ (c_sync _ _ _ C)) as So. unfold connect.
    pose proof (@state_all (tree_ear t [] (fun _ => True) False) (unsent s)) as W.
    assert (W' : fwp get_current_state (fun _ s' => like (unsent s) s' /\ @knows (tree_ear t [] (fun _ => True) False) s' (paths (kids (unsent s)) (froot (unsent s)))) (unsent s)).
    { apply W; [apply (sound_same s); auto| |intros []|].
      - intros x Nx Hx. change (is_displayed s x = true) in Hx. change (x <> froot s) in Nx.
        pose proof (proj1 (synced_D _ _ _ (c_apt _ _ _ C) (c_sync _ _ _ C) x) (conj Hx Nx)) as Dx.
        destruct (apt_D b (filters s) (froot s) t (c_apt _ _ _ C) x Dx). split; auto.
      - exists []. split; [split; [constructor|exists []; split; [|split]; auto; intros []]|]. split; [constructor|]. intros l. split; [intros []|auto]. }
    apply fwp_run in W'. destruct W' as (v & [] & E & L & K). pose proof (blind_state (sent s) (unsent s)) as B. rewrite pre_unsent, E in B.
    rewrite B. cbn [fst snd].
    assert (L2 : like s v) by (destruct L; constructor; auto).
    assert (Nw : news s (pre (sent s) v) = sent v).
    { unfold news. simpl. rewrite skipn_app, skipn_all, Nat.sub_diag. auto. }
    rewrite Nw.
    pose proof K as (cs & (Hh & l & El & Fl & _) & Nd & Kc). simpl in El.
    destruct (follows_signals pf t (sent v) new_gtk [] cs AL NR (follows_new pf) Hh) as (g & Eg & F).
    { intros x Hx. rewrite El in Hx. rewrite Forall_forall in Fl. specialize (Fl x Hx). destruct x; simpl in *; auto. }
    rewrite Eg. exists t, b, (pre (sent s) v), g. split; auto.
    assert (Ro : froot v = froot s) by (apply (lk_root _ _ L)).
    assert (Ff : filters v = filters s) by (apply (lk_filters _ _ L)).
    split.
    - exists (sent s), v, cs. split; auto. split; [|auto]. destruct C. constructor; auto; rewrite ?Ro, ?Ff; auto.
      apply (synced_heard _ _ _ _ _ s v); auto. apply (knows_ear (tree_ear t [] (fun _ => True) False)); auto. apply heeds_any.
    - intros q. unfold view_path. assert (Kd : forall x, kids (pre (sent s) v) x = kids s x) by (intros x; apply (like_kids _ _ x L2)).
      cbn [snd]. change (froot (pre (sent s) v)) with (froot v). rewrite Ro.
      assert (DW : forall (h1 h2 : id -> list id) a l0, (forall x, h1 x = h2 x) -> downward h1 a l0 <-> downward h2 a l0).
      { intros h1 h2 a l0. revert a. induction l0 as [|z l0 IH]; simpl; intros a Hh12; [tauto|]. rewrite Hh12, IH by auto. tauto. }
      rewrite (DW _ _ _ _ Kd). tauto.
  Qed.

  Lemma watching_held : forall x g, watching ord pf x g -> let '(t, b, s) := x in held t b s g.
  Proof.
    intros x g H. induction H as [x x' g' r V E|[[t b] s] g c x' g' r H IH X E|[[t b] s] g rs H IH P].
    - destruct (held_connect x V) as (t & b & s & g & E2 & Hd & _). rewrite E2 in E. inversion E; subst. auto.
    - destruct (held_call c t b s g IH X) as (t' & b' & s' & g2 & E2 & Hd & _). rewrite E2 in E. inversion E; subst. auto.
    - destruct IH as (l & v & cs & E & C & Hh & Fo). exists l, v, cs. split; auto. split; auto. split; auto. eapply follows_sort; eauto.
  Qed.

  Lemma watching_shows : forall t b s g, watching ord pf (t, b, s) g -> shows (rows g) (view_path s).
  Proof.
    intros t b s g H. apply watching_held in H. destruct H as (l & v & cs & -> & C & Hh & L & HL & _).
    destruct (current_heard _ _ _ C) as (cs' & Hh' & K). rewrite (hear_all_det _ _ _ _ Hh' Hh) in K.
    apply (layout_shows L g cs); auto.
  Qed.

  Lemma watching_ok : forall x g c, watching ord pf x g -> supported x c -> snd (widget_call ord pf c x g) = Ok tt.
  Proof.
    intros [[t b] s] g c H X. apply watching_held in H. destruct (held_call c t b s g H X) as (t' & b' & s' & g2 & E2 & _). rewrite E2. auto.
  Qed.

  Lemma connect_ok : forall x, viewing ord x -> snd (connect pf x) = Ok tt.
  Proof. intros x V. destruct (held_connect x V) as (t & b & s & g & E2 & _). rewrite E2. auto. Qed.

  (** The view does not depend on its client. *)
  Lemma watching_same_view : forall x g c, watching ord pf x g -> supported x c ->
    fst (fst (widget_call ord pf c x g)) = fst (view_call ord c x).
  Proof.
    intros [[t b] s] g c H X. apply watching_held in H. destruct (held_call c t b s g H X) as (t' & b' & s' & g2 & E2 & _ & E3). rewrite E2, E3. auto.
  Qed.
End GView.
