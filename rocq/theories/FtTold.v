(** Views: which modified signals are sent for a node that did not change place. *)
From Coq Require Import Permutation.
From Verif Require Import Base BaseFacts MainTree Spec MainFacts MainInv MainReg MainRegDel MainTight Filters FTree SpecApi ApiFacts CountFacts
  SpecView SpecViewing SpecTold FtBase FtWalk FtEdge FtUp FtFront FtDown FtNoop FtDel FtSync FtTree FtOps FtSent FtKeep FtState FtView FtThm FtSignals FtQuiet FtAny FrameFacts.
Open Scope f_scope.

(** [above s x n]: [x] is [n] or an ancestor of [n] in the view [s]. *)
Inductive above (s : ft) (x : id) : id -> Prop :=
| above_self : above s x x
| above_more : forall p n, In p (pars s n) -> above s x p -> above s x n.

Lemma above_like : forall s s' x n, like s s' -> above s x n -> above s' x n.
Proof. intros s s' x n L H. induction H; [constructor|]. econstructor; eauto. rewrite (like_pars _ _ _ L). auto. Qed.

Lemma send_all : forall n P s, ffor P (fun p => callback_modified n p) s =
  (fold_left (fun s p => send (SModified n p) s) P s, Ok tt).
Proof. intros n P. induction P as [|p P IH]; intros s; cbn [ffor]; [reflexivity|]. unfold fbind, callback_modified at 1, fmodify. rewrite IH. reflexivity. Qed.
Lemma send_all_sent : forall n P s, sent (fold_left (fun s p => send (SModified n p) s) P s) = sent s ++ map (SModified n) P.
Proof. intros n P. induction P as [|p P IH]; intros s; simpl; [rewrite app_nil_r; auto|]. rewrite IH. simpl. rewrite <- app_assoc. auto. Qed.

Section Told.
  Context {EAR : Ear}.
  Variable ord : nat -> list id -> list id.
  Variable T : mtree.
  Variable D : id -> bool.
  Variable root : id.
  Variable fl : bool.
  Variable r : id -> nat.
  Hypothesis EV : env ord T D root fl r.

  Notation sp := (FtFront.sp T D root fl).
  Notation update_node := (update_node ord T D).
  Notation gbase := (gbase r root (fun _ => True)).
  Notation quiet := (quiet root r).

  (** What is announced: exactly the paths of the nodes of [ns] and of their ancestors. *)
  Definition told (ch : id -> list id) (s s' : ft) (ns : list id) : Prop :=
    exists l, sent s' = sent s ++ l /\
      forall y, In y l <-> exists x q n, y = SModified x q /\ In n ns /\ above s x n /\ x <> root /\ chain ch root x q.

  Lemma told_none : forall ch s s', sent s' = sent s -> told ch s s' [].
  Proof. intros ch s s' E. exists []. rewrite app_nil_r. split; auto. intros y. split; [intros []|]. intros (x & q & n & _ & [] & _). Qed.

  Lemma told_app : forall ch s s1 s2 a b, like s s1 -> told ch s s1 a -> told ch s1 s2 b -> told ch s s2 (a ++ b).
  Proof.
    intros ch s s1 s2 a b L (l & E & H) (m & E2 & H2). exists (l ++ m). split; [rewrite E2, E, app_assoc; auto|].
    assert (L' : like s1 s) by (destruct L; constructor; auto).
    intros y. rewrite in_app_iff, H, H2. split.
    - intros [(x & q & n & Y & N & A & R)|(x & q & n & Y & N & A & R)]; exists x, q, n; rewrite in_app_iff; split; auto.
      split; auto. split; auto. eapply above_like; eauto.
    - intros (x & q & n & Y & N & A & R). apply in_app_iff in N. destruct N as [N|N]; [left|right]; exists x, q, n; auto.
      split; auto. split; auto. split; auto. eapply above_like; eauto.
  Qed.

  Lemma told_perm : forall ch s s' a b, (forall x, In x a <-> In x b) -> told ch s s' a -> told ch s s' b.
  Proof.
    intros ch s s' a b P (l & E & H). exists l. split; auto. intros y. rewrite H. split; intros (x & q & n & Y & N & R); exists x, q, n; split; auto; split; try apply P; auto.
  Qed.

  Lemma told_sent : forall ch s s1 s2 a, sent s2 = sent s1 -> told ch s s1 a -> told ch s s2 a.
  Proof. intros ch s s1 s2 a E (l & E1 & H). exists l. split; auto. congruence. Qed.

  (** The ancestors of [n] are [n] and those of its parents. *)
  Lemma told_up : forall ch s s2 s3 n P, n <> root -> told ch s s2 (pars s n) -> sent s3 = sent s2 ++ map (SModified n) P ->
    (forall q, In q P <-> chain ch root n q) -> told ch s s3 [n].
  Proof.
    intros ch s s2 s3 n P Nn (l & E & H) E3 HP. exists (l ++ map (SModified n) P). split; [rewrite E3, E, app_assoc; auto|].
    intros y. rewrite in_app_iff, H, in_map_iff. split.
    - intros [(x & q & p & Y & N & A & R)|(q & Y & Hq)].
      + exists x, q, n. split; auto. split; [left; auto|]. split; auto. eapply above_more; eauto.
      + exists n, q, n. split; auto. split; [left; auto|]. split; [constructor|]. split; auto. apply HP. auto.
    - intros (x & q & n' & Y & [<-|[]] & A & Nx & C). inversion A as [|p ? Hp Ap]; subst; [right; exists q; split; auto; apply HP; auto|].
      left. exists x, q, p. auto.
  Qed.

  Lemma told_shown : forall rec n dir ch s, D n = true -> gbase ch s -> flat s = fl -> is_displayed s n = true -> n <> root ->
    pars s n = sp n -> (forall p, In p (get_parents T n) -> D p = true -> is_displayed s p = true) -> goes_up dir = true ->
    (forall p s1, In p (sp n) -> quiet ch s s1 -> fwp (rec p Up) (fun _ s2 => quiet ch s1 s2 /\ told ch s1 s2 [p]) s1) ->
    (goes_down dir = true -> forall c, In c (node_children_of T D n s) -> In c (kids s n)) ->
    fwp (update_shown ord T D rec n dir false) (fun _ s' => quiet ch s s' /\ told ch s s' [n]) s.
  Proof.
    intros rec n dir ch s DDn G F Dn Hn Pn HP U Hup Hdn. unfold update_shown.
    destruct (disp_entry s n Dn) as (e & Ee & Ep & Ek).
    apply fwp_bind. apply (fwp_node n e); auto. apply fwp_bind. apply fwp_get. cbv zeta.
    apply fwp_bind. apply fwp_ret. apply fwp_bind. apply (fwp_node n e); auto. apply fwp_bind. apply fwp_get.
    rewrite (np_sp' T D root fl s n (gb_root _ _ _ _ _ G) F HP).
    assert (SD : forall p, In p (sp n) -> is_displayed s p = true).
    { intros p Hp. apply (sp_cases ord T D root fl r EV) in Hp. destruct Hp as [->|[H1 H2]]; auto. apply (gb_disp _ _ _ _ _ G). }
    rewrite (filter_id (is_displayed s) (sp n)) by auto.
    apply fwp_bind. apply (fwp_upd n e); auto. cbn beta.
    replace (mkF (sp n) (fchi e)) with e by (destruct e; simpl in *; congruence).
    rewrite (dset_same _ n e) by auto.
    replace (set_fnodes (fnodes s) s) with s by (destruct s; auto).
    rewrite Ep, Pn. rewrite (set_diff_nil (sp n) (sp n)) by auto.
    change (mem (froot s) []) with false. rewrite andb_false_r.
    pose proof (quiet_refl root r ch s G) as Q0.
    apply fwp_bind. apply (iterate_nil ord T D root fl r EV).
    apply fwp_bind. apply (iterate_nil ord T D root fl r EV).
    apply quiet_bump, quiet_bump in Q0. pose proof (told_none ch s (bump (bump s)) eq_refl) as T0. revert Q0 T0. generalize (bump (bump s)). intros s1 Q1 T1.
    apply fwp_bind. eapply fwp_mono with (Q := fun _ s' => quiet ch s s' /\ told ch s s' (pars s n)).
    { rewrite U. unfold iterate_set.
      eapply fwp_mono; [apply (fwp_for _ (fun done s' => quiet ch s s' /\ told ch s s' done))|].
      - split; [apply quiet_bump; auto|]. eapply told_sent; [|exact T1]. auto.
      - intros done p rest s2 El [Q2 T2].
        assert (Hp : In p (ord (tick s1) (set_diff (sp n) []))) by (rewrite El; apply in_app_iff; right; left; auto).
        apply (Permutation_in p (e_ord _ _ _ _ _ _ EV _ _)) in Hp. apply set_diff_In in Hp.
        eapply fwp_mono; [apply Hup; [tauto|exact Q2]|]. intros ? s3 [Q3 T3]. split; [eapply quiet_trans; eauto|].
        eapply told_app; [apply (q_like _ _ _ _ _ Q2)|exact T2|exact T3].
      - intros ? s2 [Q2 T2]. split; auto. eapply told_perm; [|exact T2]. intros p. rewrite Pn. split; intros Hp.
        + apply (Permutation_in p (e_ord _ _ _ _ _ _ EV _ _)) in Hp. apply set_diff_In in Hp. tauto.
        + apply (Permutation_in p (Permutation_sym (e_ord _ _ _ _ _ _ EV _ _))). apply set_diff_In. auto. }
    intros ? s2 [Q2 T2]. apply fwp_bind.
    eapply fwp_mono with (Q := fun _ s' => quiet ch s s' /\ told ch s s' [n]).
    { assert (D2 : is_displayed s2 n = true) by (rewrite (like_disp _ _ _ (q_like _ _ _ _ _ Q2)); auto).
      destruct (gpaths r root (fun _ => True) ch s2 n (q_base _ _ _ _ _ Q2) (fun _ _ => I) D2) as (P & EP & _ & IP).
      eapply fwp_mono; [eapply fwp_and; [apply (send_modified r root (fun _ => True) ch s2 n); auto; [apply Q2|apply (e_res _ _ _ _ _ _ EV); auto]|
        apply (FtBase.fwp_run _ _ (fun _ s3 => sent s3 = sent s2 ++ map (SModified n) P) s2 (fold_left (fun s p => send (SModified n p) s) P s2) tt)]|].
      - unfold fbind, paths_of. rewrite EP. apply send_all.
      - apply send_all_sent.
      - intros ? s3 [(L & R & _ & G3 & M) S3]. split; [eapply quiet_trans; [apply Q2|]; constructor; auto|].
        eapply told_up; eauto. }
    intros ? s3 [Q3 T3]. pose proof (q_like _ _ _ _ _ Q3) as L3.
    apply fwp_bind. apply (fwp_node n e); [rewrite (lk_nodes _ _ L3); auto|].
    apply fwp_bind. apply fwp_get. destruct (goes_down dir) eqn:Dd; [|apply fwp_ret; auto].
    assert (NC : node_children_of T D n s3 = node_children_of T D n s) by (unfold node_children_of; rewrite (lk_flat _ _ L3); auto).
    rewrite NC. eapply fwp_mono; [apply (fwp_for _ (fun _ s' => quiet ch s s' /\ told ch s s' [n]))|intros ? ? H; apply H]; auto.
    intros done c rest s4 El [Q4 T4]. apply fwp_bind.
    apply (fwp_node n e); [rewrite (lk_nodes _ _ (q_like _ _ _ _ _ Q4)); auto|]. rewrite Ek.
    assert (Hc : In c (kids s n)) by (apply Hdn; auto; rewrite El; apply in_app_iff; right; left; auto).
    rewrite (proj2 (mem_In _ _) Hc). apply fwp_ret. auto.
  Qed.

  Lemma update_told : forall fuel n dir ch s, r n < fuel -> gbase ch s -> flat s = fl -> settled_upto T D root fl r (r n) s ->
    (goes_down dir = true -> forall c, In c (node_children_of T D n s) -> In c (kids s n)) -> goes_up dir = true ->
    D n = true ->
    fwp (update_node fuel n dir) (fun _ s' => quiet ch s s' /\ told ch s s' [n]) s.
  Proof.
    induction fuel as [|fuel IH]; intros n dir ch s Hf G F ST Hk U En; [lia|].
    change (fwp (update_body ord T D (update_node fuel) n dir) (fun _ s' => quiet ch s s' /\ told ch s s' [n]) s).
    unfold update_body. apply fwp_bind. apply fwp_get. rewrite (gb_root _ _ _ _ _ G). pose proof (D_root ord T D root fl r EV n En) as Nn.
    apply String.eqb_neq in Nn. rewrite Nn. apply String.eqb_neq in Nn.
    destruct (ST n (le_n _)) as [S1 S2]. specialize (S1 En). rewrite S1, En. destruct (S2 S1 Nn) as [_ Pn].
    apply told_shown; auto.
    - intros p Hp HDp. apply (ST p); auto. pose proof (e_rank _ _ _ _ _ _ EV n p Hp). lia.
    - intros p s1 Hp Q1. pose proof (q_like _ _ _ _ _ Q1) as L1. pose proof (sp_rank ord T D root fl r EV n p Nn Hp) as Rk.
      assert (St1 : settled_upto T D root fl r (r p) s1).
      { eapply settled_like; [apply L1|]. intros x Hx. apply ST. lia. }
      destruct (sp_cases ord T D root fl r EV n p Hp) as [->|[Dp _]].
      + assert (exists k, fuel = Datatypes.S k) as (k & ->) by (exists (pred fuel); lia).
        change (fwp (update_body ord T D (update_node k) root Up) (fun _ s2 => quiet ch s1 s2 /\ told ch s1 s2 [root]) s1).
        unfold update_body. apply fwp_bind. apply fwp_get. rewrite (gb_root _ _ _ _ _ (q_base _ _ _ _ _ Q1)), String.eqb_refl. apply fwp_ret.
        split; [apply quiet_refl; apply Q1|]. exists []. rewrite app_nil_r. split; auto. intros y. split; [intros []|].
        intros (x & q & n0 & _ & [<-|[]] & A & Nx & _). inversion A as [|p ? Hp0 _]; subst; [congruence|].
        rewrite (gb_top _ _ _ _ _ (q_base _ _ _ _ _ Q1)) in Hp0. destruct Hp0.
      + eapply fwp_mono; [apply (IH p Up ch s1); auto|].
        * lia.
        * apply Q1.
        * rewrite (lk_flat _ _ L1); auto.
        * discriminate.
        * intros ? s2 [Q2 T2]. split; auto.
  Qed.
End Told.

Lemma last_from : forall (m : list id) x d, last (x :: m) d = last m x.
Proof.
  intros m. induction m as [|y m IH]; intros x d; auto. change (last (y :: m) d = last (y :: m) x). rewrite !IH. auto.
Qed.

Lemma downward_app : forall ch l m x, downward ch x (l ++ m) <-> downward ch x l /\ downward ch (last l x) m.
Proof.
  intros ch l. induction l as [|y l IH]; intros m x; [simpl; tauto|]. cbn [app downward]. rewrite IH.
  rewrite last_from. tauto.
Qed.

Lemma above_down : forall s x n, (forall p c, In c (kids s p) <-> In p (pars s c)) ->
  above s x n <-> exists m, downward (kids s) x m /\ last m x = n.
Proof.
  intros s x n Sy. split.
  - intros H. induction H as [|p n Hp H (m & IH & E)].
    + exists []. simpl. auto.
    + exists (m ++ [n]). rewrite last_last. split; auto. apply downward_app. split; auto. rewrite E. simpl. split; auto. apply Sy. auto.
  - intros (m & H & E). revert n H E. induction m as [|c m IH] using rev_ind; intros n H E.
    + simpl in E. subst. constructor.
    + rewrite last_last in E. subst c. apply downward_app in H. destruct H as [H1 H2]. simpl in H2. destruct H2 as [H2 _]. apply Sy in H2.
      eapply above_more; eauto.
Qed.

Section Events.
  Variable ord : nat -> list id -> list id.
  Hypothesis HO : forall k l, Permutation (ord k l) l.

  Lemma told_event : forall t b s n, reg t -> apt (froot s) t -> synced b (filters s) (froot s) (any_flat b (filters s)) t s ->
    should_display b t (filters s) n = true ->
    fwp (external_modify ord b t n) (fun _ s' => exists l, sent s' = sent s ++ l /\ announces s n l) s.
  Proof.
    intros t b s n R A (r & HR & I & F0) Dn. set (root := froot s) in *. set (fl := any_flat b (filters s)) in *. set (D := should_display b t (filters s)) in *.
    pose proof (in_base _ _ _ _ _ _ _ I) as B. pose proof (b_g _ _ _ _ _ B) as G.
    pose proof (apt_env_any ord b (filters s) root fl HO t r A HR) as EV.
    unfold external_modify. change (shown b t s) with D.
    assert (Hlive : forall p c, In p (get_parents t c) -> has_node t p = true) by (intros; eapply (vreg_Hlive t (a_reg _ _ A)); eauto).
    set (L := dkeys (nodes t) ++ dkeys (fnodes s)). set (r' := squeeze r root L).
    assert (B' : base r' root fl (fun _ => True) s) by (apply (base_squeeze ord t D root fl r EV s); auto).
    assert (EV' : env ord t D root fl r') by (apply (env_squeeze ord t D root fl r EV Hlive s)).
    unfold update.
    eapply fwp_mono; [apply (update_told ord t D root fl r' EV' (update_budget t s) n Both (kids s) s)|].
    - pose proof (squeeze_le r root L n) as Q. fold r' in Q. unfold L in Q. unfold update_budget. rewrite app_length in Q. unfold dkeys in Q. rewrite !map_length in Q. lia.
    - apply (b_g _ _ _ _ _ B').
    - apply (b_flat _ _ _ _ _ B').
    - intros x _. split; [apply (in_full _ _ _ _ _ _ _ I)|]. intros Hx Nx. destruct (in_stale _ _ _ _ _ _ _ I x Hx) as [|Dx]; [contradiction|].
      split; auto. apply (in_pars _ _ _ _ _ _ _ I); auto.
    - intros Hd c Hc. unfold node_children_of in Hc. rewrite (b_flat _ _ _ _ _ B) in Hc. destruct fl eqn:Ef; [destruct Hc|].
      apply filter_In in Hc. destruct Hc as [Hc Dc]. apply (gb_sym _ _ _ _ _ G); auto.
      rewrite (in_pars _ _ _ _ _ _ _ I c Dc) by auto. unfold sp.
      assert (Hp : In n (filter D (get_parents t c))).
      { apply filter_In. split; [apply (vreg_Hsym t D (a_reg _ _ A) (D_alive b (filters s) t)); auto|auto]. }
      change (FtOps.D b (filters s) t) with D. destruct (filter D (get_parents t c)); [destruct Hp|auto].
    - auto.
    - auto.
    - intros ? s' [_ (l & E & H)]. exists l. split; auto. intros y. rewrite H.
      assert (Sy : forall p c, In c (kids s p) <-> In p (pars s c)) by (intros p c; symmetry; apply (gb_sym _ _ _ _ _ G); auto).
      split.
      + intros (x & q & n' & -> & [<-|[]] & Ab & Nx & Ch). apply above_down in Ab; auto. destruct Ab as (m & M1 & M2).
        destruct Ch as [C1 C2]. destruct q as [|z q _] using rev_ind; [simpl in C2; congruence|]. rewrite last_last in C2. subst z.
        exists q, x, m. split; auto. split.
        * split; [destruct q; discriminate|]. change (x :: m) with ([x] ++ m). rewrite app_assoc. apply downward_app. rewrite last_last. auto.
        * rewrite last_from. auto.
      + intros (q & x & m & -> & [V1 V2] & Hn). exists x, (q ++ [x]), n.
        change (x :: m) with ([x] ++ m) in V2. rewrite app_assoc in V2. apply downward_app in V2. rewrite last_last in V2. destruct V2 as [V2 V3].
        assert (Nx : x <> root).
        { intros ->. apply downward_app in V2. destruct V2 as [_ [V2 _]]. apply Sy in V2. rewrite (gb_top _ _ _ _ _ G) in V2. destruct V2. }
        split; auto. split; [left; auto|]. split; [|split; auto].
        * apply above_down; auto. exists m. split; auto. rewrite <- Hn. symmetry. apply last_from.
        * split; auto. apply last_last.
  Qed.

  Lemma announces_same : forall s s' n l, froot s' = froot s -> fnodes s' = fnodes s -> announces s n l -> announces s' n l.
  Proof.
    intros s s' n l R F H y. rewrite (H y). unfold view_path. assert (K : kids s' = kids s) by (unfold kids; rewrite F; auto). rewrite R, K. tauto.
  Qed.

  Lemma displayed_D : forall t b s n, reg t -> uptodate t b s -> In n (view_all_nodes s) <-> should_display b t (filters s) n = true.
  Proof. intros t b s n R U. rewrite (proj2 (proj2 (up_nodes _ _ _ U))). symmetry. apply should_sat. apply (r_empty _ R). Qed.

  Lemma event_announces : forall t b s n, reg t -> no_clash t s -> uptodate t b s -> In n (view_all_nodes s) ->
    exists s' l, external_modify ord b t n s = (s', Ok tt) /\ fnodes s' = fnodes s /\ froot s' = froot s /\ filters s' = filters s /\ flat s' = flat s /\
      runonce s' = runonce s /\ sent s' = sent s ++ l /\ announces s n l.
  Proof.
    intros t b s n R N U Hn. destruct (uptodate_synced t b s R N U) as (l & Sy). pose proof (no_clash_apt t s R N) as A.
    apply (displayed_D t b s n R U) in Hn.
    pose proof (fwp_and _ _ _ _ _ (noop_event ord HO t b (pre l (unsent s)) n R A Sy) (told_event t b (pre l (unsent s)) n R A Sy Hn)) as W.
    apply fwp_run in W. destruct W as (s1 & [] & E & [(Lk & _ & Ro) _] & l' & El & An).
    pose proof (blind_external ord b t n (sent s) (unsent s)) as E3. rewrite pre_unsent in E3.
    rewrite (blind_external ord b t n) in E. destruct (external_modify ord b t n (unsent s)) as [u q]. cbn [fst snd] in *. inv E.
    simpl in El. rewrite app_nil_r in El. apply app_inv_head in El. exists (pre (sent s) u), l'. destruct Lk. simpl in *.
    split; auto. split; auto. split; auto. split; auto. split; auto. split; auto. split; [rewrite El; auto|].
    apply (announces_same (pre l (unsent s)) s); auto.
  Qed.

  Lemma still_uptodate : forall t b s s', uptodate t b s -> fnodes s' = fnodes s -> froot s' = froot s -> filters s' = filters s -> flat s' = flat s -> uptodate t b s'.
  Proof.
    intros t b s s' U F R Fi Fl. apply (same_uptodate t b s); auto.
  Qed.

  (** One node is announced. *)
  Lemma modify_announces : forall t b s n, reach calm t -> no_clash t s -> uptodate t b s -> In n (view_all_nodes s) ->
    exists s' l, view_call ord (VTree (ModifyNode n)) (t, b, s) = (t, b, s', Ok tt) /\ fnodes s' = fnodes s /\ sent s' = sent s ++ l /\ announces s n l.
  Proof.
    intros t b s n RC N U Hn. pose proof (reach_reg t RC) as R. destruct (event_announces t b s n R N U Hn) as (s' & l & E & F & _ & _ & _ & _ & S & A).
    assert (Ln : has_node t n = true). { apply (proj2 (proj2 (up_nodes _ _ _ U))) in Hn. apply satisfying_In in Hn. tauto. }
    assert (Nm : n <> main_root) by (intros ->; rewrite (r_main _ R) in Ln; discriminate).
    exists s', l. split; [|auto]. cbn [view_call]. unfold events, after. rewrite (modify_exact t n Nm Ln). cbn [fst snd]. unfold feed. cbn [ffor ev_tree ev_id].
    unfold fbind. rewrite E. auto.
  Qed.

  (** A node changes and stays in the view. *)
  Lemma change_uptodate : forall t b s n v, reg t -> no_clash t s -> local_bank b -> uptodate t b s -> In n (view_all_nodes s) ->
    let t' := upd_node n (set_data v) t in In n (satisfying b t' (filters s)) ->
    reg t' /\ no_clash t' s /\ uptodate t' b s /\ events (SetData n v) t = [Ev EModified n t'] /\ after (SetData n v) t = t'.
  Proof.
    intros t b s n v R N L U Hn t' Hn'.
    assert (Ln : has_node t n = true). { apply (proj2 (proj2 (up_nodes _ _ _ U))) in Hn. apply satisfying_In in Hn. tauto. }
    assert (Nm : n <> main_root) by (intros ->; rewrite (r_main _ R) in Ln; discriminate).
    assert (R' : reg t') by (eapply reg_atom; [exact R|apply (at_data t n v t'); auto]).
    assert (HN : forall x, has_node t' x = has_node t x) by (intros; apply has_node_upd).
    split; auto. split. { destruct N as [N1 N2]. split; [rewrite HN; auto|]. intros x Hx. rewrite HN. auto. }
    assert (GP : forall x, get_parents t' x = get_parents t x).
    { intros x. unfold get_parents. unfold t' at 1. rewrite dget_upd. deq x n.
      - subst. destruct (dget n (nodes t)); auto. simpl. rewrite (filter_ext _ _ HN). auto.
      - destruct (dget x (nodes t)); auto. rewrite (filter_ext _ _ HN). auto. }
    assert (SAT : forall x, In x (satisfying b t' (filters s)) <-> In x (satisfying b t (filters s))).
    { intros x. destruct (id_dec x n) as [->|Nx]; [split; auto; intros _; apply (proj2 (proj2 (up_nodes _ _ _ U))); auto|].
      rewrite <- !should_sat by (apply r_empty; auto).
      assert (D' : FtOps.D b (filters s) t' x = FtOps.D b (filters s) t x) by (apply D_data; [auto|apply data_of_upd; auto]).
      unfold FtOps.D in D'. rewrite D'. tauto. }
    split; [constructor; try apply U|].
    - destruct (up_nodes _ _ _ U) as (U1 & U2 & U3). split; auto. split; [|intros x; rewrite SAT; auto].
      unfold satisfying. apply NoDup_filter. apply (ok_keys _ (g_ok _ _ _ (r_good _ R'))).
    - intros x Hx. destruct (up_pars _ _ _ U x Hx) as [P1 P2]. split; auto. intros NF. rewrite (P2 NF). unfold shown_parents. rewrite GP. auto.
    - unfold events, after. rewrite (data_exact t n v Nm Ln). auto.
  Qed.

  Lemma after_data : forall t n v, reg t -> has_node t n = true -> after (SetData n v) t = upd_node n (set_data v) t.
  Proof.
    intros t n v R Ln. assert (Nm : n <> main_root) by (intros ->; rewrite (r_main _ R) in Ln; discriminate).
    unfold after. rewrite (data_exact t n v Nm Ln). auto.
  Qed.

  Lemma change_announces : forall t b s n v, reach calm t -> no_clash t s -> local_bank b -> uptodate t b s -> In n (view_all_nodes s) ->
    In n (satisfying b (after (SetData n v) t) (filters s)) ->
    exists s' l, view_call ord (VTree (SetData n v)) (t, b, s) = (after (SetData n v) t, b, s', Ok tt) /\ fnodes s' = fnodes s /\ sent s' = sent s ++ l /\ announces s n l.
  Proof.
    intros t b s n v RC N L U Hn Hn'. pose proof (reach_reg t RC) as R.
    assert (Ln : has_node t n = true). { apply (proj2 (proj2 (up_nodes _ _ _ U))) in Hn. apply satisfying_In in Hn. tauto. }
    rewrite (after_data t n v R Ln) in Hn'.
    destruct (change_uptodate t b s n v R N L U Hn Hn') as (R' & N' & U' & Ev & Af).
    destruct (event_announces _ b s n R' N' U' Hn) as (s' & l & E & F & _ & _ & _ & _ & S & A).
    exists s', l. split; [|auto]. cbn [view_call]. rewrite Ev. unfold feed. cbn [ffor ev_tree ev_id].
    unfold fbind. rewrite E. auto.
  Qed.

  (** All nodes are announced. *)
  Lemma feed_announces : forall t b es s, reg t -> apt (froot s) t -> synced b (filters s) (froot s) (any_flat b (filters s)) t s ->
    (forall e, In e es -> ev_tree e = t) ->
    fwp (feed ord b es) (fun _ s' => exists l, sent s' = sent s ++ l /\
      forall e q x, In e es -> ev_id e = x -> should_display b t (filters s) x = true -> view_path s (q ++ [x]) -> In (SModified x (q ++ [x])) l) s.
  Proof.
    intros t b es. induction es as [|e es IH]; intros s R A Sy He.
    - apply fwp_ret. exists []. rewrite app_nil_r. split; auto; intros ? ? ? [].
    - unfold feed. cbn [ffor]. apply fwp_bind. rewrite (He e) by (left; auto). fold (feed ord b es).
      assert (W : fwp (external_modify ord b t (ev_id e)) (fun _ s1 => (still s s1 /\ synced b (filters s) (froot s) (any_flat b (filters s)) t s1) /\
        (should_display b t (filters s) (ev_id e) = true -> exists l, sent s1 = sent s ++ l /\ announces s (ev_id e) l)) s).
      { apply fwp_and; [apply noop_event; auto|]. destruct (should_display b t (filters s) (ev_id e)) eqn:De.
        - eapply fwp_mono; [apply told_event; auto|]. auto.
        - eapply fwp_mono; [apply noop_event; auto|]. discriminate. }
      eapply fwp_mono; [exact W|]. clear W. intros ? s1 [[S1 Sy1] T1]. pose proof S1 as (L1 & (k & Ek & _) & _).
      rewrite <- (lk_root _ _ L1), <- (lk_filters _ _ L1) in Sy1.
      eapply fwp_mono; [apply IH; auto; try (rewrite (lk_root _ _ L1); auto); intros e' H'; apply He; right; auto|].
      intros ? s2 (m & Em & H2). exists (k ++ m). split; [rewrite Em, Ek, app_assoc; auto|].
      intros e' q x [<-|He'] Hx Dx V; apply in_app_iff.
      + left. rewrite Hx in T1. destruct (T1 Dx) as (l & El & An). rewrite Ek in El. apply app_inv_head in El. subst l. apply An.
        exists q, x, []. split; auto.
      + right. apply (H2 e' q x); auto; [rewrite (lk_filters _ _ L1); auto|]. unfold view_path in *. rewrite (lk_root _ _ L1).
        assert (K : kids s1 = kids s) by (unfold kids; rewrite (lk_nodes _ _ L1); auto). rewrite K. auto.
  Qed.

  Lemma refresh_announces_reg : forall t b s, reg t -> no_clash t s -> uptodate t b s ->
    exists s' l, view_call ord (VTree RefreshAll) (t, b, s) = (t, b, s', Ok tt) /\ fnodes s' = fnodes s /\ sent s' = sent s ++ l /\
      forall y, In y l <-> exists q x, y = SModified x (q ++ [x]) /\ view_path s (q ++ [x]).
  Proof.
    intros t b s R N U.
    destruct (announce_quiet ord HO t b s RefreshAll R N U (or_introl eq_refl)) as (E1 & s' & l & E & F & _ & _ & _ & _ & S & Fl).
    destruct (announce_events RefreshAll t (or_introl eq_refl)) as (_ & _ & Et).
    exists s', l. split; [cbn [view_call]; rewrite E, E1; auto|]. split; auto. split; auto. intros y. split.
    - intros Hy. rewrite Forall_forall in Fl. destruct (Fl y Hy) as (q & n & Q). eauto.
    - intros (q & x & -> & V).
      destruct (uptodate_synced t b s R N U) as (l0 & Sy). pose proof (no_clash_apt t s R N) as A.
      pose proof (feed_announces t b (events RefreshAll t) (pre l0 (unsent s)) R A Sy Et) as W.
      apply fwp_run in W. destruct W as (s1 & [] & E2 & l' & El & H).
      pose proof (blind_feed ord b (events RefreshAll t) (sent s) (unsent s)) as E3. rewrite pre_unsent in E3.
      rewrite (blind_feed ord b (events RefreshAll t)) in E2. destruct (feed ord b (events RefreshAll t) (unsent s)) as [u r]. cbn [fst snd] in *. inv E2.
      rewrite E in E3. inv E3. simpl in El, S. rewrite app_nil_r in El. apply app_inv_head in El. apply app_inv_head in S.
      rewrite <- S, El.
      assert (Hx : In x (view_all_nodes s)).
      { destruct V as [_ V]. apply downward_app in V. destruct V as [_ [V _]]. apply (so_sym _ (up_sound _ _ _ U)) in V.
        apply all_nodes_In; [apply (so_keys _ (up_sound _ _ _ U))|]. split; [eapply pars_disp; eauto|]. intros ->. rewrite (so_top _ (up_sound _ _ _ U)) in V. destruct V. }
      apply (H (Ev EModified x t)); auto.
      + unfold events. rewrite refresh_exact. cbn [fst snd]. apply in_map_iff. exists x. split; auto. apply filter_In.
        assert (Ln : has_node t x = true). { apply (proj2 (proj2 (up_nodes _ _ _ U))) in Hx. apply satisfying_In in Hx. tauto. }
        split; [apply has_node_In; auto|]. apply negb_true_iff. apply String.eqb_neq. intros ->. rewrite (r_main _ R) in Ln. discriminate.
      + apply (displayed_D t b s x R U). auto.
  Qed.

  Lemma refresh_announces : forall t b s, reach calm t -> no_clash t s -> uptodate t b s ->
    exists s' l, view_call ord (VTree RefreshAll) (t, b, s) = (t, b, s', Ok tt) /\ fnodes s' = fnodes s /\ sent s' = sent s ++ l /\
      forall y, In y l <-> exists q x, y = SModified x (q ++ [x]) /\ view_path s (q ++ [x]).
  Proof. intros t b s RC. exact (refresh_announces_reg t b s (reach_reg t RC)). Qed.
End Events.
