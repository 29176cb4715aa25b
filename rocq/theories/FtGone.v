(** Views: a node is gone from the main tree, with everything that was below it. *)
From Coq Require Import Permutation.
From Verif Require Import Base BaseFacts MainTree MainFacts Filters FTree SpecView FtBase FtWalk FtEdge FtUp FtFront FtNoop FtDel FtGhost FtSync.
Open Scope f_scope.

(** The parents of [p] in the view, and theirs, are right. *)
Definition clean0 (T : mtree) (D : id -> bool) (root : id) (fl : bool) (s : ft) (p : id) : Prop := exists C : id -> bool, C p = true /\
  (forall x q, C x = true -> In q (pars s x) -> C q = true) /\ (forall x, C x = true -> D x = true -> pars s x = sp T D root fl x).

Section Gone.
  Context {EAR : Ear}.
  Variable ord : nat -> list id -> list id.
  Variable T : mtree.
  Variable D : id -> bool.
  Variable root : id.
  Variable fl : bool.
  Variable r : id -> nat.
  Hypothesis EV : env ord T D root fl r.
  Variable B : nat.
  Hypothesis HB : forall x, r x <= B.
  Hypothesis Hsym : forall p c, D c = true -> (In c (get_children T p) <-> In p (get_parents T c)).

  Notation sp := (sp T D root fl).
  Notation update_node := (update_node ord T D).
  Notation gst := (gst T D root fl r).
  Notation clean0 := (clean0 T D root fl).

  Lemma clean_all : forall s l, (forall q, In q l -> clean0 s q) -> exists C : id -> bool, (forall q, In q l -> C q = true) /\
    (forall x q, C x = true -> In q (pars s x) -> C q = true) /\ (forall x, C x = true -> D x = true -> pars s x = sp x).
  Proof.
    intros s l. induction l as [|y l IH]; intros H.
    - exists (fun _ => false). split; [intros q []|]. split; [discriminate|discriminate].
    - destruct IH as (C & C1 & C2 & C3); [intros; apply H; right; auto|].
      destruct (H y) as (K & K1 & K2 & K3); [left; auto|]. exists (fun x => C x || K x). split; [|split].
      + intros q [<-|Hq]; apply orb_true_iff; auto.
      + intros x q Hx Hq. apply orb_true_iff in Hx. apply orb_true_iff. destruct Hx; [left; eapply C2; eauto|right; eapply K2; eauto].
      + intros x Hx. apply orb_true_iff in Hx. destruct Hx; auto.
  Qed.

  Lemma gst_C : forall x0 W C C' A s, gst x0 W C A s -> (forall x, C' x = true -> A x) -> (forall x q, C' x = true -> In q (pars s x) -> C' q = true) ->
    (forall x, C' x = true -> D x = true -> pars s x = sp x) -> gst x0 W C' A s.
  Proof. intros x0 W C C' A s [] H1 H2 H3. constructor; auto. Qed.

  Lemma gst_W : forall x0 W W' C A s, gst x0 W C A s -> (forall x c, In c (chs x0 W s x) <-> In c (chs x0 W' s x)) -> gst x0 W' C A s.
  Proof. intros x0 W W' C A s [] H. constructor; auto. eapply gbase_ext; eauto. Qed.

  Record gpre (n : id) (s : ft) : Prop := {
    gp_base : base r root fl (fun _ => True) s;
    gp_n : n <> root;
    gp_disp : is_displayed s n = true;
    gp_D : D n = false;
    gp_gone : has_node T n = false;
    gp_kids : kids s n = [];
    gp_stale : forall x, is_displayed s x = true -> x = root \/ x = n \/ D x = true;
    gp_full : forall x, D x = true -> is_displayed s x = true;
    gp_more : forall x p, D x = true -> In p (sp x) -> p = root \/ In p (pars s x);
    gp_clean : forall l1 p l2, pars s n = l1 ++ p :: l2 -> clean0 s p \/ forall q, In q l2 -> clean0 s q
  }.

  Definition none : id -> bool := fun _ => false.

  Record gpost (n : id) (s s' : ft) : Prop := {
    go_gst : gst n none none (fun _ => True) s';
    go_filters : filters s' = filters s;
    go_disp : forall x, is_displayed s' x = negb (String.eqb x n) && is_displayed s x;
    go_pars : forall x, x <> n -> pars s' x = pars s x \/ (pars s' x = sp x /\ D x = true)
  }.

  Lemma update_gone : forall fuel n s0 dir, B + 1 < fuel -> gpre n s0 -> fwp (update_node fuel n dir) (fun _ s' => gpost n s0 s') s0.
  Proof.
    intros fuel n s0 dir Hf P0. destruct fuel as [|fuel]; [lia|].
    change (fwp (update_body ord T D (update_node fuel) n dir) (fun _ s' => gpost n s0 s') s0).
    pose proof (b_g _ _ _ _ _ (gp_base _ _ P0)) as G0. pose proof (gp_n _ _ P0) as Nn.
    unfold update_body. apply fwp_bind. apply fwp_get. rewrite (gb_root _ _ _ _ _ G0). deq n root; [contradiction|].
    rewrite (gp_disp _ _ P0), (gp_D _ _ P0). unfold update_hidden.
    destruct (gpaths r root (fun _ => True) (kids s0) s0 n G0 (fun _ _ => I) (gp_disp _ _ P0)) as (P & EP & NP & IP).
    apply fwp_bind. unfold paths_of, fwp at 1. rewrite EP.
    destruct (disp_entry s0 n (gp_disp _ _ P0)) as (e & Ee & Ep & Ek).
    apply fwp_bind. apply (fwp_node n e); auto. rewrite Ek, (gp_kids _ _ P0). cbn [rev ffor].
    apply fwp_bind. apply fwp_ret. apply fwp_bind. apply (fwp_node n e); auto. rewrite Ep.
    apply fwp_bind. apply fwp_modify.
    set (s1 := set_fnodes (ddel n (fnodes s0)) s0).
    assert (X1 : forall x, is_displayed s1 x = negb (String.eqb x n) && is_displayed s0 x).
    { intros x. unfold is_displayed, s1. simpl. apply dmem_ddel. apply (gp_base _ _ P0). }
    assert (X2 : forall x, x <> n -> pars s1 x = pars s0 x).
    { intros x Hx. unfold pars, s1. simpl. rewrite dget_ddel_other; auto. }
    assert (X2n : pars s1 n = [] /\ kids s1 n = []).
    { apply and_comm. apply not_disp. rewrite X1, eqb_refl. auto. }
    assert (X3 : forall x, kids s1 x = kids s0 x).
    { intros x. destruct (id_dec x n) as [->|Hx]; [rewrite (proj2 X2n), (gp_kids _ _ P0); auto|]. unfold kids, s1. simpl. rewrite dget_ddel_other; auto. }
    assert (ND : forall x, NoDup (kids s1 x)) by (intros; rewrite X3; apply (gp_base _ _ P0)).
    set (W0 := fun p => mem p (pars s0 n)).
    assert (CK : forall x c, In c (chs n W0 s1 x) <-> In c (kids s0 x) /\ c <> n).
    { intros x c. rewrite chs_In by auto. rewrite X3. unfold W0. split; intros [H1 H2]; split; auto.
      intros ->. apply (gb_sym _ _ _ _ _ G0) in H1; auto. apply mem_In in H1. tauto. }
    apply fwp_bind.
    eapply fwp_mono with (Q := fun _ s2 => gst n W0 none (fun _ => True) s2 /\ like s1 s2).
    { set (X := paths (kids s0) root).
      eapply fwp_mono; [apply (fwp_for _ (fun done s' => like s1 s' /\ knows s' (fun l => X l /\ ~ In l done)))|].
      - split; auto. eapply knows_sent; [|eapply knows_iff; [|apply (gb_knows _ _ _ _ _ G0)]]; auto. intros l. unfold X. simpl. tauto.
      - intros done q rest s2 El [L2 K2]. assert (Hq : In q P) by (rewrite El; apply in_app_iff; right; left; auto).
        apply IP in Hq. destruct (chain_last s0 (kids s0) n q) as (p & q' & -> & Hp & _); auto.
        { rewrite (gb_root _ _ _ _ _ G0). auto. }
        { rewrite (gb_root _ _ _ _ _ G0). auto. }
        eapply fwp_mono; [apply (knows_deleted s2 n q' _) with (2 := K2)|].
        + apply (e_gone _ _ _ _ _ _ EV). rewrite (gp_D _ _ P0). discriminate.
        + split; [split; [destruct q'; discriminate|apply Hq]|]. rewrite El in NP. intros Hd. apply (NoDup_app_disj _ _ _ NP Hd). left. auto.
        + intros b Hb [[_ Hd] _]. rewrite app_assoc in Hd. apply downward_app in Hd. destruct Hd as [_ Hd]. rewrite last_snoc in Hd.
          destruct b as [|y b]; [auto|]. destruct Hd as [Hd _]. rewrite (gp_kids _ _ P0) in Hd. destruct Hd.
        + intros ? s3 [L3 K3]. split; [eapply like_trans; eauto|]. eapply knows_iff; [|apply K3]. intros l. cbn beta.
          rewrite in_app_iff. simpl. intuition congruence.
      - intros [] s2 [L2 K2]. cbn beta in K2. split; auto.
        assert (CK2 : forall x c, In c (chs n W0 s2 x) <-> In c (kids s0 x) /\ c <> n).
        { intros x c. rewrite <- CK. unfold chs. rewrite (like_kids _ _ _ L2). tauto. }
        assert (Dn : forall x, is_displayed s2 x = negb (String.eqb x n) && is_displayed s0 x) by (intros x; rewrite (like_disp _ _ _ L2); auto).
        assert (Nd : forall x, D x = true -> x <> n) by (intros x Hx ->; rewrite (gp_D _ _ P0) in Hx; discriminate).
        constructor.
        + constructor.
          * rewrite (lk_root _ _ L2). apply (gb_root _ _ _ _ _ G0).
          * rewrite Dn. deq root n; [congruence|]. simpl. apply (gb_disp _ _ _ _ _ G0).
          * rewrite (like_pars _ _ _ L2), X2; [apply (gb_top _ _ _ _ _ G0)|]. auto.
          * intros p c Hc. rewrite (like_kids _ _ _ L2), X3. apply CK2 in Hc. tauto.
          * intros p c Hc. apply CK2 in Hc. destruct Hc as [Hc Nc]. apply (gb_ch _ _ _ _ _ G0) in Hc. destruct Hc as [Hc Hr'].
            rewrite Dn, (proj2 (eqb_neq c n)), Hc by auto. auto.
          * intros x. rewrite (like_pars _ _ _ L2). destruct (id_dec x n) as [->|N]; [rewrite (proj1 X2n); constructor|].
            rewrite X2 by auto. apply (gb_ndp _ _ _ _ _ G0).
          * intros x p. rewrite (like_pars _ _ _ L2). destruct (id_dec x n) as [->|N]; [rewrite (proj1 X2n); intros []|].
            rewrite X2 by auto. apply (gb_pars _ _ _ _ _ G0).
          * intros x p _. rewrite CK2. rewrite (like_pars _ _ _ L2). destruct (id_dec x n) as [->|N].
            -- rewrite (proj1 X2n). simpl. tauto.
            -- rewrite X2 by auto. rewrite (gb_sym _ _ _ _ _ G0) by auto. tauto.
          * eapply knows_iff; [|apply K2]. intros l. cbn beta. unfold X, paths. rewrite IP. split.
            -- intros [[H1 H2] H3]. split; auto.
               assert (Hl : ~ In n l).
               { intros Hi. apply in_split in Hi. destruct Hi as (l1 & l2 & ->). apply H3.
                 rewrite (app_assoc l1 [n] l2 : l1 ++ n :: l2 = (l1 ++ [n]) ++ l2) in *. apply downward_app in H2. rewrite last_snoc in H2.
                 destruct H2 as [H2 H4]. destruct l2 as [|y l2]; [|destruct H4 as [H4 _]; rewrite (gp_kids _ _ P0) in H4; destruct H4].
                 rewrite app_nil_r. split; auto. apply last_snoc. }
               clear H1 H3. revert H2 Hl. generalize root. induction l as [|y l IH]; intros x Hd Hl; simpl; auto.
               destruct Hd as [Hy Hd]. split; [|apply IH; auto; intros Hi; apply Hl; right; auto].
               apply CK2. split; auto. intros ->. apply Hl. left. auto.
            -- intros [H1 H2]. assert (Hd : downward (kids s0) root l).
               { eapply (downward_ext (fun _ => True)); [auto| |apply H2]. intros p c _ Hc. split; auto. apply CK2 in Hc. tauto. }
               split; auto. intros [H3 H4]. destruct (exists_last H1) as (l' & y & ->). rewrite last_snoc in H4. subst y.
               apply downward_app in H2. destruct H2 as [_ [H2 _]]. apply CK2 in H2. tauto.
          * intros Ho x p1 q1 H1 H2. apply CK2 in H1. apply CK2 in H2. apply (gb_one _ _ _ _ _ G0 Ho x); tauto.
        + rewrite (lk_nodes _ _ L2). simpl. apply ddel_NoDup. apply (gp_base _ _ P0).
        + rewrite (lk_flat _ _ L2). simpl. apply (gp_base _ _ P0).
        + intros x. rewrite (like_kids _ _ _ L2). auto.
        + intros x. rewrite Dn. deq x n; [discriminate|]. simpl. intros Hx. destruct (gp_stale _ _ P0 x Hx) as [|[|]]; tauto.
        + intros x Hx. rewrite Dn, (proj2 (eqb_neq x n)) by auto. apply (gp_full _ _ P0). auto.
        + intros x p Hx Hp. rewrite (like_pars _ _ _ L2), X2 by auto. apply (gp_more _ _ P0); auto.
        + discriminate.
        + discriminate.
        + discriminate. }
    intros ? s2 [G2 L2].
    assert (Y1 : forall x, is_displayed s2 x = negb (String.eqb x n) && is_displayed s0 x) by (intros x; rewrite (like_disp _ _ _ L2); auto).
    assert (Y2 : forall x, x <> n -> pars s2 x = pars s0 x) by (intros x Hx; rewrite (like_pars _ _ _ L2); auto).
    assert (Y2n : pars s2 n = []) by (rewrite (like_pars _ _ _ L2); apply X2n).
    assert (Y3 : filters s2 = filters s0) by (rewrite (lk_filters _ _ L2); auto).
    assert (Y4 : forall x, In n (kids s2 x) <-> In x (pars s0 n)).
    { intros x. rewrite (like_kids _ _ _ L2), X3. symmetry. apply (gb_sym _ _ _ _ _ G0). auto. }
    clear X1 X2 X2n X3 ND CK EP NP IP L2.
    apply fwp_bind.
    eapply fwp_mono; [apply (fwp_for _ (fun done s' => gst n (fun p => mem p (pars s0 n) && negb (mem p done)) none (fun _ => True) s' /\
       moves T D root fl s2 s' /\ (forall x, In n (kids s' x) <-> In x (pars s0 n) /\ ~ In x done)))|].
    - split; [|split].
      + eapply gst_W; [apply G2|]. intros x c. unfold chs. simpl. unfold W0. rewrite andb_true_r. tauto.
      + apply (mv_refl T D root fl).
      + intros x. rewrite Y4. simpl. tauto.
    - intros done p rest s3 El (G3 & M3 & K3).
      assert (Hp : In p (pars s0 n)) by (rewrite El; apply in_app_iff; right; left; auto).
      assert (Nd : ~ In p done).
      { pose proof (gb_ndp _ _ _ _ _ G0 n) as ND. rewrite El in ND. intros Hd. apply (NoDup_app_disj _ _ p ND Hd). left. auto. }
      assert (Np : p <> n) by (intros ->; apply (gb_pars _ _ _ _ _ G0) in Hp; lia).
      assert (Dp : p = root \/ D p = true).
      { apply (gb_sym _ _ _ _ _ G0) in Hp; auto. apply kids_disp in Hp. destruct (gp_stale _ _ P0 p Hp) as [|[|]]; tauto. }
      assert (Kp : In n (kids s3 p)) by (apply K3; auto).
      set (W1 := fun q => mem q (pars s0 n) && negb (mem q (done ++ [p]))).
      apply fwp_bind. unfold children_remove. apply fwp_bind.
      destruct (disp_entry s3 p (kids_disp _ _ _ Kp)) as (ep & Eep & Epp & Ekp). apply (fwp_node p ep); auto.
      rewrite Ekp, (proj2 (mem_In _ _) Kp). apply (fwp_upd p ep); auto. cbn beta. rewrite Ekp.
      set (s4 := set_fnodes (dset p (mkF (fpar ep) (remove1 n (kids s3 p))) (fnodes s3)) s3).
      assert (Z1 : forall x, is_displayed s4 x = is_displayed s3 x).
      { intros x. unfold s4. rewrite disp_set. deq x p; auto. subst. simpl. symmetry. eapply kids_disp; eauto. }
      assert (Z2 : forall x, pars s4 x = pars s3 x).
      { intros x. unfold s4. rewrite pars_set. deq x p; auto. subst. auto. }
      assert (Z3 : forall x, kids s4 x = if String.eqb x p then remove1 n (kids s3 p) else kids s3 x).
      { intros x. unfold s4. rewrite kids_set. cbn [fchi]. auto. }
      assert (N4 : forall x, NoDup (kids s4 x)) by (intros x; rewrite Z3; destruct (String.eqb x p); [apply remove1_NoDup|]; apply G3).
      assert (CE : forall x c, In c (chs n W1 s4 x) <-> In c (chs n (fun p => mem p (pars s0 n) && negb (mem p done)) s3 x)).
      { intros x c. rewrite !chs_In by (auto; apply G3). rewrite Z3. unfold W1. rewrite mem_app. simpl. rewrite orb_false_r. deq x p.
        - subst x. rewrite remove1_iff by apply G3. rewrite (proj2 (mem_In _ _) Hp), (proj2 (mem_false _ _) Nd). simpl. intuition discriminate.
        - rewrite orb_false_r. tauto. }
      assert (G4 : gst n W1 none (fun _ => True) s4).
      { destruct G3 as [[] ? ? ? ? ? ? ? ? ?]. constructor; auto.
        - constructor; auto.
          + rewrite Z1. auto.
          + rewrite Z2. auto.
          + intros x c Hc. apply (proj1 (proj1 (chs_In n W1 s4 x c (N4 x)) Hc)).
          + intros x c Hc. rewrite Z1. apply gb_ch. apply CE. auto.
          + intros x. rewrite Z2. auto.
          + intros x q. rewrite Z2. auto.
          + intros x q _. rewrite Z2, CE. auto.
          + eapply knows_sent; [|eapply knows_iff; [|apply gb_knows]]; [auto|]. intros l. apply paths_same. intros. symmetry. apply CE.
          + intros Ho x p1 q1 H1 H2. apply CE in H1. apply CE in H2. apply (gb_one Ho x); auto.
        - simpl. apply dset_NoDup. auto.
        - intros x. rewrite Z1. auto.
        - intros x. rewrite Z1. auto.
        - intros x q. rewrite Z2. auto.
        - discriminate.
         }
      assert (M4 : moves T D root fl s2 s4).
      { destruct M3. constructor; auto; intros x; rewrite ?Z1, ?Z2; auto. }
      assert (P4 : forall x, x <> n -> pars s4 x = pars s0 x \/ pars s4 x = sp x).
      { intros x Nx. rewrite <- (Y2 x) by auto. destruct (mv_pars _ _ _ _ _ _ M4 x) as [|[]]; auto. }
      assert (P4n : pars s4 n = []).
      { destruct (mv_pars _ _ _ _ _ _ M4 n) as [H|[_ H]]; [congruence|]. rewrite (gp_D _ _ P0) in H. discriminate. }
      assert (TR : forall C : id -> bool, (forall x q, C x = true -> In q (pars s0 x) -> C q = true) -> (forall x, C x = true -> D x = true -> pars s0 x = sp x) ->
         gst n W1 C (fun _ => True) s4).
      { intros C C1 C2. assert (CP : forall x, x <> n -> C x = true -> pars s4 x = pars s0 x).
        { intros x Nx Cx. rewrite <- (Y2 x) by auto. destruct (mv_pars _ _ _ _ _ _ M4 x) as [|[H Dx]]; auto.
          rewrite H, Y2 by auto. symmetry. auto. }
        apply (gst_C n W1 none C); auto.
        - intros x q Cx Hq. destruct (id_dec x n) as [->|Nx]; [rewrite P4n in Hq; destruct Hq|]. rewrite CP in Hq by auto. eauto.
        - intros x Cx Dx. rewrite CP; auto. intros ->. rewrite (gp_D _ _ P0) in Dx. discriminate. }
      assert (GO : exists C, gst n W1 C (fun _ => True) s4 /\ okat D root W1 C p).
      { destruct (gp_clean _ _ P0 done p rest El) as [(C & C1 & C2 & C3)|Hr].
        - exists C. split; [apply TR; auto|]. left. auto.
        - destruct (clean_all s0 rest Hr) as (C & C1 & C2 & C3). exists C. split; [apply TR; auto|]. right. intros q Hq. unfold W1 in Hq.
          apply andb_prop in Hq. destruct Hq as [Hq1 Hq2]. apply mem_In in Hq1. rewrite negb_true_iff in Hq2. apply mem_false in Hq2.
          rewrite in_app_iff in Hq2. rewrite El in Hq1. apply in_app_iff in Hq1. simpl in *. apply C1. tauto. }
      destruct GO as (C & GC & OK).
      eapply fwp_mono; [apply (gup ord T D root fl r EV B HB Hsym n W1 C (gp_D _ _ P0) fuel (fun _ => True) p s4); auto|].
      { pose proof (HB p). lia. }
      intros ? s5 [U1 U2 U3 U4]. split; [|split].
      + apply (gst_C n W1 C none); auto; discriminate.
      + eapply mv_trans; [apply M4|apply U2].
      + assert (Ex : forall x, In x (pars s0 n) <-> In n (kids s0 x)) by (intros; apply (gb_sym _ _ _ _ _ G0); auto).
        intros x. rewrite in_app_iff. simpl.
        assert (KK : In n (kids s5 x) <-> In n (kids s4 x)).
        { apply (st_in _ _ _ _ U3). apply (gb_pars _ _ _ _ _ G0). auto. }
        rewrite KK, Z3. deq x p; [|rewrite K3; intuition congruence]. subst x. rewrite remove1_iff by apply G3. intuition.
    - intros ? s3 (G3 & M3 & K3). cbn beta in *. rewrite (gp_gone _ _ P0). apply fwp_ret. constructor.
      + eapply gst_W; [apply G3|]. intros x c. rewrite !chs_In by apply G3. unfold none.
        split; intros [H1 H2]; (split; [auto|]); [discriminate|]. intros H3. apply andb_prop in H3. destruct H3 as [H3 H4].
        rewrite H3 in H4. discriminate.
      + rewrite (mv_filters _ _ _ _ _ _ M3). auto.
      + intros x. rewrite (mv_disp _ _ _ _ _ _ M3). auto.
      + intros x Nx. rewrite <- (Y2 x) by auto. apply (mv_pars _ _ _ _ _ _ M3).
  Qed.
End Gone.

Section Events.
  Context {EAR : Ear}.
  Variable ord : nat -> list id -> list id.
  Variable T : mtree.
  Variable D : id -> bool.
  Variable root : id.
  Variable fl : bool.
  Variable r : id -> nat.
  Hypothesis EV : env ord T D root fl r.
  Hypothesis Hsym : forall p c, D c = true -> (In c (get_children T p) <-> In p (get_parents T c)).
  Hypothesis Hlive : forall p c, In p (get_parents T c) -> has_node T p = true.

  Notation sp := (sp T D root fl).

  (** The view while nodes are deleted: the parents of a node of [U] may be too many. *)
  Record dsync (U : id -> Prop) (s : ft) : Prop := {
    ds_in : insync T D root fl r U s;
    ds_more : forall x p, D x = true -> In p (sp x) -> p = root \/ In p (pars s x)
  }.

  Lemma up_list : forall k n, r n < k -> D n = true -> exists C : id -> bool, C n = true /\
    (forall x, C x = true -> x = root \/ (D x = true /\ vup T D root fl x n)) /\ (forall x q, C x = true -> D x = true -> In q (sp x) -> C q = true).
  Proof.
    induction k as [|k IH]; intros n Hk Dn; [lia|].
    assert (Nn : n <> root) by (intros ->; rewrite (e_root _ _ _ _ _ _ EV) in Dn; discriminate).
    assert (SR : forall p, In p (sp n) -> r p < r n) by (intros p; apply (sp_rank ord T D root fl r EV); auto).
    assert (SC : forall p, In p (sp n) -> p = root \/ D p = true) by (intros p Hp; apply (sp_cases ord T D root fl r) in Hp; tauto).
    assert (LL : forall l, (forall p, In p l -> In p (sp n)) -> exists C : id -> bool, (forall p, In p l -> C p = true) /\
      (forall x, C x = true -> x = root \/ (D x = true /\ vup T D root fl x n)) /\ (forall x q, C x = true -> D x = true -> In q (sp x) -> C q = true)).
    { induction l as [|p l IHl]; intros Hl.
      - exists (fun _ => false). split; [intros q []|]. split; [discriminate|discriminate].
      - destruct IHl as (C & C1 & C2 & C3); [intros; apply Hl; right; auto|].
        assert (Hp : In p (sp n)) by (apply Hl; left; auto). destruct (SC p Hp) as [->|Dp].
        + exists (fun x => String.eqb x root || C x). split; [|split].
          * intros q [<-|Hq]; apply orb_true_iff; [left; apply eqb_refl|right; auto].
          * intros x Hx. apply orb_true_iff in Hx. destruct Hx as [Hx|Hx]; auto. apply String.eqb_eq in Hx. auto.
          * intros x q Hx Dx Hq. apply orb_true_iff. apply orb_true_iff in Hx. destruct Hx as [Hx|Hx]; [|right; eauto].
            apply String.eqb_eq in Hx. subst. rewrite (e_root _ _ _ _ _ _ EV) in Dx. discriminate.
        + destruct (IH p) as (K & K1 & K2 & K3); auto; [specialize (SR p Hp); lia|].
          exists (fun x => K x || C x). split; [|split].
          * intros q [<-|Hq]; apply orb_true_iff; [left; auto|right; auto].
          * intros x Hx. apply orb_true_iff in Hx. destruct Hx as [Hx|Hx]; auto. destruct (K2 x Hx) as [|[K4 K5]]; auto.
            right. split; auto. eapply vu_step; eauto.
          * intros x q Hx Dx Hq. apply orb_true_iff. apply orb_true_iff in Hx. destruct Hx as [Hx|Hx]; [left|right]; eauto. }
    destruct (LL (sp n)) as (C & C1 & C2 & C3); auto.
    exists (fun x => String.eqb x n || C x). split; [|split].
    - rewrite eqb_refl. auto.
    - intros x Hx. apply orb_true_iff in Hx. destruct Hx as [Hx|Hx]; auto. apply String.eqb_eq in Hx. subst. right. split; auto. apply vu_refl.
    - intros x q Hx Dx Hq. apply orb_true_iff. right. apply orb_true_iff in Hx. destruct Hx as [Hx|Hx]; eauto.
      apply String.eqb_eq in Hx. subst. auto.
  Qed.

  Lemma fresh_clean : forall s p, pars s root = [] -> p = root \/ (D p = true /\ fresh T D root fl s p) -> clean0 T D root fl s p.
  Proof.
    intros s p Ht [->|[Dp H]].
    - exists (fun x => String.eqb x root). split; [apply eqb_refl|]. split.
      + intros x q Hx Hq. apply String.eqb_eq in Hx. subst. rewrite Ht in Hq. destruct Hq.
      + intros x Hx Dx. apply String.eqb_eq in Hx. subst. rewrite (e_root _ _ _ _ _ _ EV) in Dx. discriminate.
    - destruct (up_list (S (r p)) p) as (C & C1 & C2 & C3); auto. exists C. split; auto. split.
      + intros x q Hx Hq. destruct (C2 x Hx) as [->|[Dx Vx]]; [rewrite Ht in Hq; destruct Hq|]. rewrite H in Hq by auto. eauto.
      + intros x Hx Dx. destruct (C2 x Hx) as [->|[_ Vx]]; [|auto]. rewrite (e_root _ _ _ _ _ _ EV) in Dx. discriminate.
  Qed.

  Let L (s : ft) := dkeys (nodes T) ++ dkeys (fnodes s).
  Let B (s : ft) := S (length (L s)).

  Lemma rank_back : forall s s', base r root fl (fun _ => True) s -> base (squeeze r root (L s)) root fl (fun _ => True) s' ->
    (forall x, pars s' x = [] \/ pars s' x = pars s x \/ (pars s' x = sp x /\ D x = true)) -> base r root fl (fun _ => True) s'.
  Proof.
    intros s s' Hb Hb' HP. apply (base_rank (squeeze r root (L s))); auto. intros x p Hx.
    destruct (HP x) as [E|[E|[E Dx]]]; rewrite E in Hx.
    - destruct Hx.
    - apply (gb_pars _ _ _ _ _ (b_g _ _ _ _ _ Hb)). auto.
    - apply (sp_rank ord T D root fl r EV); auto. apply (D_root ord T D root fl r EV). auto.
  Qed.

  Lemma gst_base : forall r x0 C A s, gst T D root fl r x0 none C A s -> base r root fl A s.
  Proof. intros r0 x0 C A s []. constructor; auto. Qed.

  Lemma ev_both : forall U n s, dsync U s ->
    fwp (update ord T D n Both) (fun _ s' => dsync U s' /\ moves T D root fl s s' /\ (D n = true -> fresh T D root fl s' n)) s.
  Proof.
    intros U n s [[Hb Hs Hf Hp] Hm]. unfold update. destruct (budget_ok T s) as [_ Bu].
    fold (L s) in Bu. fold (B s) in Bu.
    assert (HB : forall x, squeeze r root (L s) x <= B s) by (intros; apply squeeze_le).
    assert (G : gst T D root fl (squeeze r root (L s)) root none none (fun _ => True) s).
    { destruct (base_squeeze ord T D root fl r EV s Hb). constructor; auto; discriminate. }
    pose proof (gboth ord T D root fl (squeeze r root (L s)) (env_squeeze ord T D root fl r EV Hlive s) (B s) HB Hsym root none none (e_root _ _ _ _ _ _ EV)
      (update_budget T s) n s) as W.
    unfold fwp in *. assert (W' : match FTree.update_node ord T D (update_budget T s) n Both s with
      (s', Ok _) => ugo T D root fl (squeeze r root (L s)) root none none (fun _ => True) n s s' | _ => False end).
    { apply W; auto; [pose proof (HB n); unfold B in *; lia|intros p X; discriminate]. }
    destruct (FTree.update_node ord T D (update_budget T s) n Both s) as [s' [[]| |]]; auto. destruct W' as [G' M' _ F'].
    split; [|split; auto]. constructor; [constructor|].
    - apply (rank_back s s'); auto; [eapply gst_base; eauto|]. intros x. right. apply (mv_pars _ _ _ _ _ _ M').
    - apply G'.
    - apply G'.
    - intros x Dx Ux. destruct (mv_pars _ _ _ _ _ _ M' x) as [->|[-> _]]; auto.
    - apply G'.
  Qed.

  Lemma ev_gone : forall (U : id -> Prop) n s, gpre T D root fl r n s -> (forall x, D x = true -> ~ U x -> pars s x = sp x) ->
    fwp (update ord T D n Both) (fun _ s' => dsync U s' /\ filters s' = filters s /\
      (forall x, x <> n -> pars s' x = pars s x \/ (pars s' x = sp x /\ D x = true))) s.
  Proof.
    intros U n s P Hp. unfold update. destruct (budget_ok T s) as [_ Bu].
    fold (L s) in Bu. fold (B s) in Bu.
    assert (HB : forall x, squeeze r root (L s) x <= B s) by (intros; apply squeeze_le).
    assert (P' : gpre T D root fl (squeeze r root (L s)) n s).
    { destruct P. constructor; auto. apply (base_squeeze ord T D root fl r EV s); auto. }
    pose proof (update_gone ord T D root fl (squeeze r root (L s)) (env_squeeze ord T D root fl r EV Hlive s) (B s) HB Hsym (update_budget T s) n s Both) as W.
    unfold fwp in *. assert (W' : match FTree.update_node ord T D (update_budget T s) n Both s with
      (s', Ok _) => gpost T D root fl (squeeze r root (L s)) n s s' | _ => False end) by (apply W; auto; lia).
    destruct (FTree.update_node ord T D (update_budget T s) n Both s) as [s' [[]| |]]; auto. destruct W' as [G' F' D' M'].
    split; [|split; auto]. constructor; [constructor|].
    - apply (rank_back s s'); [apply P|eapply gst_base; eauto|]. intros x. destruct (id_dec x n) as [->|Nx]; [|right; auto]. left.
      apply not_disp. rewrite D', eqb_refl. auto.
    - apply G'.
    - apply G'.
    - intros x Dx Ux. destruct (M' x) as [->|[-> _]]; auto. intros ->. rewrite (gp_D _ _ _ _ _ _ _ P) in Dx. discriminate.
    - apply G'.
  Qed.
End Events.
