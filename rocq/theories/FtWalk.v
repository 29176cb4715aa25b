(** Views: the walks of send_add_tree and send_remove_tree. *)
From Verif Require Import Base BaseFacts MainTree MainFacts MainPaths Filters FTree SpecView FtBase.
Open Scope f_scope.

Inductive runs {S R} (step : S -> ctl S R) : nat -> S -> S -> Prop :=
| runs_0 : forall a, runs step 0 a a
| runs_S : forall k a b c, step a = Go b -> runs step k b c -> runs step (Datatypes.S k) a c.

Lemma runs_trans : forall S R (step : S -> ctl S R) k a b, runs step k a b -> forall j c, runs step j b c -> runs step (k + j) a c.
Proof. intros S R step k a b H. induction H; intros j d Hj; auto. simpl. eapply runs_S; eauto. Qed.

Lemma runs_stop : forall S R (step : S -> ctl S R) j k a b r, runs step k a b -> step b = Stop r -> k < 2 ^ j ->
  loop j step a = Stop r.
Proof.
  intros S R step. assert (G : forall j k a b r, runs step k a b -> step b = Stop r ->
    (k < 2 ^ j /\ loop j step a = Stop r) \/ (2 ^ j <= k /\ exists c, loop j step a = Go c /\ runs step (k - 2 ^ j) c b)).
  { induction j as [|j IH]; intros k a b r H Hs.
    - simpl. inv H; [left; split; auto|]. right. split; [lia|]. exists b0. split; auto.
      replace (Datatypes.S k0 - 1) with k0 by lia. auto.
    - simpl. destruct (IH k a b r H Hs) as [[L E]|[L (c & E & H2)]]; rewrite E.
      + left. split; auto. lia.
      + destruct (IH _ _ _ _ H2 Hs) as [[L2 E2]|[L2 (d & E2 & H3)]]; rewrite E2.
        * left. split; auto. lia.
        * right. split; [lia|]. exists d. split; auto. replace (k - (2 ^ j + (2 ^ j + 0))) with (k - 2 ^ j - 2 ^ j) by lia. auto. }
  intros j k a b r H Hs L. destruct (G j k a b r H Hs) as [[_ E]|[L2 _]]; auto. lia.
Qed.

Section Walk.
  Context {EAR : Ear}.
  Variable s0 : ft.
  Variable r : id -> nat.
  Variable low : nat.
  Hypothesis HC : forall p c, low <= r p -> In c (kids s0 p) -> is_displayed s0 c = true /\ r p < r c.
  Hypothesis HN : forall p, NoDup (kids s0 p).
  Let N := length (fnodes s0).

  Definition above (x : id) : nat := length (filter (fun y => Nat.ltb (r x) (r y)) (dkeys (fnodes s0))).
  Lemma above_lt : forall p c, low <= r p -> In c (kids s0 p) -> above c < above p.
  Proof.
    intros p c Hp H. destruct (HC _ _ Hp H) as [Hd Hr]. unfold above. apply filter_length_lt with (p := c).
    - intros x Hx. apply Nat.ltb_lt in Hx. apply Nat.ltb_lt. lia.
    - apply dmem_In; auto.
    - apply Nat.ltb_irrefl.
    - apply Nat.ltb_lt. auto.
  Qed.
  Lemma above_le : forall n, above n <= N.
  Proof.
    intros n. unfold above, N. rewrite <- dkeys_length. generalize (dkeys (fnodes s0)) as l.
    induction l as [|a l IH]; simpl; auto. destruct (r n <? r a); simpl; lia.
  Qed.
  Lemma kids_length : forall p, low <= r p -> length (kids s0 p) <= N.
  Proof.
    intros p Hp. unfold N. rewrite <- dkeys_length. apply NoDup_incl_length; auto. intros c Hc.
    apply dmem_In. apply (HC _ _ Hp Hc).
  Qed.

  Lemma low_rank : forall l x, low <= r x -> downward (kids s0) x l -> forall y, In y l -> r x < r y.
  Proof.
    induction l as [|z l IH]; simpl; intros x Hx Hd y Hy; [tauto|]. destruct Hd as [Hz Hl].
    pose proof (proj2 (HC _ _ Hx Hz)). destruct Hy as [->|Hy]; auto. specialize (IH z ltac:(lia) Hl _ Hy). lia.
  Qed.

  Variable P : list (list id).
  Hypothesis HP : NoDup P.

  (** *** Adding *)
  Section Add.
    Variable n : id.
    Variable X : list id -> Prop.
    Hypothesis Hlow : low <= r n.
    Hypothesis Hn : is_displayed s0 n = true.
    Hypothesis Hres : forall x, is_displayed s0 x = true -> x = n \/ r n < r x -> fine x.
    Hypothesis Hst : forall st, In st P -> st = [] \/ X st.
    Hypothesis Hnew : forall st m, In st P -> downward (kids s0) n m -> ~ X (st ++ n :: m).
    Hypothesis Hdist : forall st st' m m', In st P -> In st' P -> downward (kids s0) n m -> downward (kids s0) n m' ->
      st ++ n :: m = st' ++ n :: m' -> st = st'.

    (** The final paths are at one place each. *)
    Hypothesis Hone : ear_one -> forall st m x, In st P -> downward (kids s0) n m -> last m n = x ->
      (forall p, ~ X (p ++ [x])) /\ forall st' m', In st' P -> downward (kids s0) n m' -> last m' n = x -> st' = st /\ m' = m.

    Definition XW (W : list (list id)) (l : list id) : Prop := X l \/ exists st w, In st P /\ In w W /\ l = st ++ w.

    Record ainv (W : list (list id)) (q : list (id * list id)) (s : ft) : Prop := {
      ai_like : like s0 s;
      ai_knows : knows s (XW W);
      ai_nodup : NoDup (W ++ map snd q);
      ai_down : forall w, In w (W ++ map snd q) -> exists m, w = n :: m /\ downward (kids s0) n m;
      ai_queue : forall x w, In (x, w) q -> exists v, w = v ++ [x] /\ is_displayed s0 x = true /\ low <= r x;
      ai_par : forall u c, u <> [] -> In (u ++ [c]) (W ++ map snd q) -> In u W;
      ai_kids : forall v x c, In (v ++ [x]) W -> In c (kids s0 x) -> In ((v ++ [x]) ++ [c]) (W ++ map snd q);
      ai_top : In [n] (W ++ map snd q)
    }.

    Lemma down_snoc : forall v x c, downward (kids s0) n v -> (exists u, n :: v = u ++ [x]) -> In c (kids s0 x) ->
      downward (kids s0) n (v ++ [c]).
    Proof.
      intros v x c H (u & E) Hc. apply downward_app. split; auto. simpl. split; auto.
      rewrite <- (last_cons v n n), E, last_snoc. auto.
    Qed.

    Lemma add_step_go : forall W x w rest s, ainv W ((x, w) :: rest) s -> exists s1,
      add_step P ((x, w) :: rest, s) = Go (rest ++ map (fun c => (c, w ++ [c])) (kids s0 x), s1) /\
      ainv (W ++ [w]) (rest ++ map (fun c => (c, w ++ [c])) (kids s0 x)) s1.
    Proof.
      intros W x w rest s I. destruct (ai_queue _ _ _ I x w) as (v & Ew & Dx & Lx); [left; auto|].
      assert (Hv : v = [] \/ In v W).
      { destruct v as [|v0 v]; auto. right. apply (ai_par _ _ _ I (v0 :: v) x); [discriminate|].
        rewrite <- Ew. apply in_app_iff. right. left. auto. }
      destruct (ai_down _ _ _ I w) as (m & Em & Hm); [apply in_app_iff; right; left; auto|].
      pose proof (ai_nodup _ _ _ I) as ND. cbn [map snd] in ND.
      assert (NW : ~ In w W /\ ~ In w (map snd rest)).
      { apply NoDup_remove_2 in ND. rewrite in_app_iff in ND. tauto. }
      assert (Rx : fine x).
      { apply Hres; auto. rewrite Em in Ew. destruct v as [|v0 v]; simpl in Ew; [inv Ew; auto|]. inv Ew. right.
        eapply low_rank; [apply Hlow|apply Hm|]. apply in_app_iff. right. left. auto. }
      assert (F : fwp (ffor P (fun st => callback_added x (st ++ w)))
        (fun _ s' => like s0 s' /\ knows s' (fun l => XW W l \/ exists st, In st P /\ l = st ++ w)) s).
      { apply (fwp_for _ (fun done s' => like s0 s' /\ knows s' (fun l => XW W l \/ exists st, In st done /\ l = st ++ w))).
        - split; [apply I|]. eapply knows_iff; [|apply I]. intros l. split; auto. intros [|(st & [] & _)]; auto.
        - intros done st more s1 EP [L1 K1]. assert (Hst' : In st P) by (rewrite EP; apply in_app_iff; right; left; auto).
          assert (Dst : ~ In st done). { rewrite EP in HP. intros H. apply (NoDup_app_disj _ _ st HP H). left; auto. }
          rewrite Ew, app_assoc. eapply fwp_mono; [apply (knows_added s1 x (st ++ v)); [auto| | | | |]|].
          + rewrite (like_disp _ _ _ L1). auto.
          + apply K1.
          + rewrite <- app_assoc, <- Ew. intros [[HX|(st' & w' & Hs & Hw & E)]|(st' & Hs & E)].
            * rewrite Em in HX. apply (Hnew st m); auto.
            * destruct (ai_down _ _ _ I w') as (m' & Em' & Hm'); [apply in_app_iff; left; auto|].
              rewrite Em, Em' in E. assert (st = st') by (apply (Hdist st st' m m'); auto). subst st'.
              apply app_inv_head in E. rewrite <- Em, <- Em' in E. subst w'. tauto.
            * apply app_inv_tail in E. subst. contradiction.
          + destruct Hv as [->|Hv].
            * rewrite app_nil_r. destruct (Hst st Hst'); auto. right. left. left. auto.
            * right. left. right. exists st, v. auto.
          + intros Ho p.
            assert (Lm : forall m1 v1, n :: m1 = v1 ++ [x] -> last m1 n = x).
            { intros m1 v1 E1. rewrite <- (last_cons m1 n n), E1, last_snoc. auto. }
            assert (Lx1 : last m n = x) by (apply (Lm m v); congruence).
            destruct (Hone Ho st m x Hst' Hm Lx1) as [O1 O2].
            intros [[HX|(st' & w' & Hs & Hw & E)]|(st' & Hs & E)].
            * apply (O1 _ HX).
            * destruct (ai_down _ _ _ I w') as (m' & Em' & Hm'); [apply in_app_iff; left; auto|].
              assert (L' : last m' n = x).
              { rewrite Em' in E. rewrite <- (last_cons m' n n). rewrite <- (last_app_cons st' n m' n), <- E, last_snoc. auto. }
              destruct (O2 st' m' Hs Hm' L') as [_ ->]. rewrite <- Em in Em'. subst w'. tauto.
            * assert (Hs' : In st' P) by (rewrite EP; apply in_app_iff; auto).
              destruct (O2 st' m Hs' Hm Lx1) as [-> _]. contradiction.
          + intros _ s2 [L2 K2]. split; [eapply like_trans; eauto|]. eapply knows_iff; [|apply K2].
            intros l. rewrite <- app_assoc, <- Ew. split.
            * intros [[H|(st' & H & E)]|H]; auto; right; [exists st'|exists st]; rewrite in_app_iff; simpl; auto.
            * intros [H|(st' & H & E)]; auto. apply in_app_iff in H. simpl in H. destruct H as [H|[<-|[]]]; auto.
              left. right. eauto. }
      apply fwp_elim in F. destruct F as (s1 & [] & E1 & L1 & K1). exists s1. unfold add_step. rewrite E1.
      rewrite (lk_nodes _ _ L1). unfold is_displayed, dmem in Dx. unfold kids. destruct (dget x (fnodes s0)) as [e|] eqn:Ee; [|discriminate].
      assert (Ek : kids s0 x = fchi e) by (unfold kids; rewrite Ee; auto).
      split; auto. constructor; auto.
      - eapply knows_iff; [|apply K1]. intros l. unfold XW. split.
        + intros [[H|(st & w' & H1 & H2 & H3)]|(st & H1 & H2)]; auto; right.
          * exists st, w'. rewrite in_app_iff. auto.
          * exists st, w. rewrite in_app_iff. simpl. auto.
        + intros [H|(st & w' & H1 & H2 & H3)]; auto. apply in_app_iff in H2. simpl in H2. destruct H2 as [H2|[<-|[]]].
          * left. right. eauto.
          * right. eauto.
      - rewrite map_app, map_map. cbn [snd]. rewrite <- app_assoc. cbn [app].
        rewrite app_comm_cons, app_assoc. apply NoDup_app_intro; auto.
        + rewrite <- Ek. apply FinFun.Injective_map_NoDup; auto. intros a b H. apply app_inj_tail in H. tauto.
        + intros l Hl H2. apply in_map_iff in H2. destruct H2 as (c & <- & Hc).
          assert (In w W); [|tauto]. apply (ai_par _ _ _ I w c); [rewrite Em; discriminate|].
          apply in_app_iff in Hl. apply in_app_iff. cbn [map snd]. simpl in Hl. simpl. tauto.
      - intros u Hu. rewrite map_app, map_map in Hu. cbn [snd] in Hu. rewrite !in_app_iff in Hu. simpl in Hu.
        destruct Hu as [[Hu|[<-|[]]]|[Hu|Hu]].
        + apply (ai_down _ _ _ I). apply in_app_iff; auto.
        + eauto.
        + apply (ai_down _ _ _ I). apply in_app_iff. right. right. auto.
        + apply in_map_iff in Hu. destruct Hu as (c & <- & Hc). rewrite <- Ek in Hc. exists (m ++ [c]). split; [rewrite Em; auto|].
          apply (down_snoc m x c); auto. exists v. congruence.
      - intros y u Hu. apply in_app_iff in Hu. destruct Hu as [Hu|Hu].
        + apply (ai_queue _ _ _ I). right. auto.
        + apply in_map_iff in Hu. destruct Hu as (c & Ec & Hc). injection Ec as E2 E3. rewrite <- E2, <- E3. exists w. split; auto. rewrite <- Ek in Hc. destruct (HC _ _ Lx Hc). split; auto. lia.
      - intros u c Hu H. rewrite map_app, map_map in H. cbn [snd] in H. rewrite !in_app_iff in H. simpl in H. apply in_app_iff.
        destruct H as [[H|[H|[]]]|[H|H]].
        + left. apply (ai_par _ _ _ I u c); auto. apply in_app_iff; auto.
        + left. apply (ai_par _ _ _ I u c); auto. apply in_app_iff. right. left. auto.
        + left. apply (ai_par _ _ _ I u c); auto. apply in_app_iff. right. right. auto.
        + apply in_map_iff in H. destruct H as (c' & E' & _). apply app_inj_tail in E'. right. left. tauto.
      - intros u y c Hu Hc. rewrite map_app, map_map. cbn [snd]. rewrite !in_app_iff. apply in_app_iff in Hu. simpl in Hu.
        destruct Hu as [Hu|[Hu|[]]].
        + pose proof (ai_kids _ _ _ I u y c Hu Hc) as H. apply in_app_iff in H. simpl in H. simpl. tauto.
        + right. right. rewrite Ew in Hu. apply app_inj_tail in Hu. destruct Hu as [<- <-]. rewrite Ek in Hc.
          apply in_map_iff. exists c. rewrite <- Ew. auto.
      - pose proof (ai_top _ _ _ I) as H. rewrite map_app, !in_app_iff. apply in_app_iff in H. simpl in H. simpl. tauto.
    Qed.

    Definition amu (q : list (id * list id)) : nat := sum (fun y => (S N) ^ (above y)) (map fst q).

    Lemma walk_add : knows s0 X ->
      exists s', loop (walk_budget N) (add_step P) ([(n, [n])], s0) = Stop (s', Ok tt) /\ like s0 s' /\ knows s' (fun l => X l \/ exists st m, In st P /\ downward (kids s0) n m /\ l = st ++ n :: m).
    Proof.
      intros HX.
      destruct (loop_total (add_step P) (fun y => exists W, ainv W (fst y) (snd y)) (fun y => amu (fst y))) with (k := walk_budget N) (s := ([(n, [n])], s0))
        as ([q s1] & res & E & (W & I) & Hs).
      - intros [q s1] [q' s1'] (W & I) Es. cbn [fst snd] in *. destruct q as [|[x w] rest]; [discriminate|].
        destruct (add_step_go W x w rest s1 I) as (s2 & E2 & I2). rewrite E2 in Es. inv Es. split; [eauto|].
        unfold amu. rewrite map_app, map_map, sum_app. cbn [map fst]. rewrite map_id. unfold sum at 3. cbn [fold_right].
        fold (sum (fun y => S N ^ above y) (map fst rest)).
        destruct (ai_queue _ _ _ I x w (or_introl eq_refl)) as (_ & _ & _ & Lx).
        pose proof (weight_dec N above (kids s0 x) x (kids_length x Lx) (fun y Hy => above_lt x y Lx Hy)). lia.
      - exists []. cbn [fst snd]. constructor; auto.
        + eapply knows_iff; [|apply HX]. intros l. unfold XW. split; auto. intros [|(st & w & _ & [] & _)]; auto.
        + simpl. repeat constructor; simpl; tauto.
        + simpl. intros w [<-|[]]. exists []. simpl. auto.
        + simpl. intros x w [Ex|[]]. inv Ex. exists []. auto.
        + simpl. intros u c Hu [Ex|[]]. destruct u as [|u0 u]; [congruence|]. destruct u; discriminate.
        + intros v x c [].
        + simpl. auto.
      - unfold amu. cbn [fst map]. unfold sum. cbn [fold_right]. rewrite Nat.add_0_r. apply weight_bound. apply above_le.
      - cbn [fst snd] in *. destruct q as [|[x w] rest].
        2:{ destruct (add_step_go W x w rest s1 I) as (s2 & E2 & I2). rewrite E2 in Hs. discriminate. }
        unfold add_step in Hs. inv Hs. exists s1. split; auto. split; [apply I|].
        eapply knows_iff; [|apply (ai_knows _ _ _ I)]. intros l. unfold XW. split.
        + intros [H|(st & w & H1 & H2 & ->)]; auto. right. destruct (ai_down _ _ _ I w) as (m & -> & Hm); [apply in_app_iff; auto|]. eauto.
        + intros [H|(st & m & H1 & H2 & ->)]; auto. right. exists st, (n :: m). split; auto. split; auto.
          clear st H1. induction m as [|c m IH] using rev_ind.
          * pose proof (ai_top _ _ _ I) as H. simpl in H. rewrite app_nil_r in H. auto.
          * apply downward_app in H2. destruct H2 as [H2 [H3 _]]. specialize (IH H2).
            destruct (exists_last (l := n :: m)) as (u & x & Eu); [discriminate|].
            assert (Ex : last m n = x) by (rewrite <- (last_cons m n n), Eu, last_snoc; auto). rewrite Ex in H3.
            rewrite Eu in IH. pose proof (ai_kids _ _ _ I u x c IH H3) as H. simpl in H. rewrite app_nil_r in H.
            rewrite <- Eu in H. simpl in H. auto.
    Qed.
  End Add.

  (** *** Removing *)
  Definition under (w : list id) (x : id) (l : list id) : Prop :=
    exists st m, In st P /\ downward (kids s0) x m /\ l = st ++ w ++ m.

  Definition distinct_below (w : list id) (x : id) : Prop := forall st st' m m', In st P -> In st' P ->
    downward (kids s0) x m -> downward (kids s0) x m' -> st ++ w ++ m = st' ++ w ++ m' -> st = st'.

  Definition removes (x : id) : Prop := forall w v rest s X, w = v ++ [x] -> like s0 s -> knows s X ->
    (forall l, under w x l -> X l /\ ear_gone l) ->
    (forall st m, In st P -> X (st ++ w ++ m) -> downward (kids s0) x m) ->
    distinct_below w x ->
    exists j s', runs (remove_step P) j ((x, w, true) :: rest, s) (rest, s') /\ j <= 2 * (S N) ^ (above x) /\
      like s0 s' /\ knows s' (fun l => X l /\ ~ under w x l).

  Lemma under_child : forall w x c l, In c (kids s0 x) -> under (w ++ [c]) c l -> under w x l.
  Proof.
    intros w x c l Hc (st & m & H1 & H2 & ->). exists st, (c :: m). split; auto. split; [simpl; auto|].
    rewrite <- !app_assoc. auto.
  Qed.

  Lemma removes_children : forall x w rest L s X, (forall c, In c L -> In c (kids s0 x)) -> NoDup L ->
    (forall c, In c L -> removes c) -> like s0 s -> knows s X ->
    (forall c l, In c L -> under (w ++ [c]) c l -> X l /\ ear_gone l) ->
    (forall st m, In st P -> X (st ++ w ++ m) -> downward (kids s0) x m) ->
    distinct_below w x ->
    exists j s', runs (remove_step P) j (map (fun c => (c, w ++ [c], true)) L ++ rest, s) (rest, s') /\
      j <= sum (fun c => 2 * (S N) ^ (above c)) L /\
      like s0 s' /\ knows s' (fun l => X l /\ ~ exists c, In c L /\ under (w ++ [c]) c l).
  Proof.
    intros x w rest L. induction L as [|c L IH]; intros s X HL ND HR Lk K HX HD HDi.
    - exists 0, s. split; [constructor|]. split; [simpl; lia|]. split; auto. eapply knows_iff; [|apply K].
      intros l. split; [intros; split; auto; intros (c & [] & _)|tauto].
    - apply NoDup_cons_iff in ND. destruct ND as [N1 N2].
      assert (Hc : In c (kids s0 x)) by (apply HL; left; auto).
      assert (DI : distinct_below (w ++ [c]) c).
      { intros st st' m m' H1 H2 H3 H4 E. rewrite <- !app_assoc in E. apply (HDi st st' (c :: m) (c :: m')); auto; simpl; auto. }
      destruct (HR c (or_introl eq_refl) (w ++ [c]) w (map (fun c => (c, w ++ [c], true)) L ++ rest) s X)
        as (j1 & s1 & R1 & J1 & L1 & K1); auto.
      { intros l Hl. apply (HX c); simpl; auto. }
      { intros st m Hs Hm. rewrite <- app_assoc in Hm. apply HD in Hm; auto. simpl in Hm. tauto. }
      destruct (IH s1 (fun l => X l /\ ~ under (w ++ [c]) c l)) as (j2 & s2 & R2 & J2 & L2 & K2); auto.
      all: try (intros; apply HL; simpl; auto; fail).
      all: try (intros; apply HR; simpl; auto; fail).
      { intros d l Hd Hl. destruct (HX d l (or_intror Hd) Hl) as [X1 X2]. split; auto. split; auto. intros (st & m & H1 & H2 & H3).
        destruct Hl as (st' & m' & H1' & H2' & H3'). rewrite H3 in H3'. rewrite <- !app_assoc in H3'. simpl in H3'.
        assert (Hd' : In d (kids s0 x)) by (apply HL; right; auto).
        assert (st = st') by (apply (HDi st st' (c :: m) (d :: m')); auto; simpl; auto). subst st'.
        apply app_inv_head in H3'. apply app_inv_head in H3'. inv H3'. contradiction. }
      { intros st m Hs [Hm _]. apply (HD st m); auto. }
      exists (j1 + j2), s2. split; [simpl; eapply runs_trans; eauto|]. split; [unfold sum in *; simpl in *; lia|]. split; auto.
      eapply knows_iff; [|apply K2]. intros l. split.
      + intros [[H1 H2] H3]. split; auto. intros (d & [<-|Hd] & Hu); [auto|]. apply H3. eauto.
      + intros [H1 H2]. split; [split; auto|]; intros H; apply H2; [exists c; simpl; auto|].
        destruct H as (d & Hd & Hu). exists d. simpl. auto.
  Qed.

  Lemma removes_all : forall k x, above x < k -> low <= r x -> is_displayed s0 x = true -> removes x.
  Proof.
    induction k as [|k IH]; intros x Hk Lx Dx w v rest s X Ew Lk K HX HD HDi.
    { lia. }
    assert (IHc : forall c, In c (kids s0 x) -> removes c)
      by (intros c Hc; pose proof (above_lt x c Lx Hc); destruct (HC _ _ Lx Hc); apply IH; auto; lia).
    destruct (removes_children x w ((x, w, false) :: rest) (rev (kids s0 x)) s X) as (j1 & s1 & R1 & J1 & L1 & K1); auto;
      [intros c Hc; apply in_rev; auto|apply NoDup_rev; auto|intros c Hc; apply IHc; apply in_rev; auto
      |intros c l Hc Hu; apply HX; apply (under_child w x c l); auto; apply in_rev; auto|].
    assert (EK : forall l, (exists c, In c (rev (kids s0 x)) /\ under (w ++ [c]) c l) <-> (under w x l /\ ~ exists st, In st P /\ l = st ++ w)).
    1: intros l; split;
      [intros (c & Hc & st & m & H1 & H2 & H3); apply in_rev in Hc; split;
         [apply (under_child w x c); auto; exists st, m; auto
         |intros (st' & H1' & H3'); rewrite H3 in H3'; rewrite <- app_assoc in H3';
          assert (Est : st = st') by (apply (HDi st st' (c :: m) []); auto; [simpl; auto|simpl; auto|rewrite app_nil_r; auto]);
          subst st'; apply app_inv_head in H3'; rewrite <- (app_nil_r w) in H3' at 2; apply app_inv_head in H3'; discriminate]
      |intros [(st & m & H1 & H2 & H3) Hn]; destruct m as [|c m];
         [exfalso; apply Hn; exists st; rewrite app_nil_r in H3; auto
         |destruct H2 as [Hc Hm]; exists c; split; [apply -> in_rev; auto|exists st, m; rewrite <- app_assoc; auto]]].
    assert (F : fwp (ffor P (fun st => callback_deleted x (st ++ w)))
        (fun _ s' => like s0 s' /\ knows s' (fun l => X l /\ ~ under w x l)) s1).
    1: eapply fwp_mono; [apply (fwp_for _ (fun done s' => like s0 s' /\ knows s' (fun l =>
         (X l /\ ~ exists c, In c (rev (kids s0 x)) /\ under (w ++ [c]) c l) /\ ~ exists st, In st done /\ l = st ++ w)))|].
    1: split; auto; eapply knows_iff; [|apply K1]; intros l; split; [intros [H1 H2]; split; auto; intros (st & [] & _)|tauto].
    1: intros done st more s2 EP [L2 K2];
      assert (Hst : In st P) by (rewrite EP; apply in_app_iff; right; left; auto);
      assert (Dst : ~ In st done) by (rewrite EP in HP; intros H; apply (NoDup_app_disj _ _ st HP H); left; auto);
      rewrite Ew, app_assoc; eapply fwp_mono; [apply (knows_deleted s2 x (st ++ v)); [|apply K2| |]|];
      rewrite <- ?app_assoc, <- ?Ew;
      [apply HX; exists st, []; rewrite app_nil_r; simpl; auto|split; [split; [apply HX; exists st, []; rewrite app_nil_r; simpl; auto
        |intros H; apply EK in H; destruct H as [_ H]; apply H; eauto]
        |intros (st' & H1 & H2); apply app_inv_tail in H2; subst; contradiction]
      |intros b Hb [[H1 H2] _]; apply H2; apply EK;
        replace ((st ++ v) ++ [x] ++ b) with (st ++ w ++ b) in * by (rewrite Ew, <- !app_assoc; auto);
        assert (Hd : downward (kids s0) x b) by (apply (HD st b); auto); split;
        [exists st, b; auto|intros (st' & H3 & H4); assert (st = st') by (apply (HDi st st' b []); simpl; auto; rewrite app_nil_r; auto); subst st';
         apply app_inv_head in H4; rewrite <- (app_nil_r w) in H4 at 2; apply app_inv_head in H4; contradiction]
      |intros _ s3 [L3 K3]; split; [eapply like_trans; eauto|]; eapply knows_iff; [|apply K3];
        intros l; cbv beta; split;
        [intros [[H1 H2] H3]; split; auto; intros (st' & H4 & H5); apply in_app_iff in H4; simpl in H4; destruct H4 as [H4|[<-|[]]];
          [apply H2; eauto|apply H3; rewrite H5, Ew, ?app_assoc; auto]
        |intros [H1 H2]; split; [split; auto; intros (st' & H4 & H5); apply H2; exists st'; rewrite in_app_iff; auto
          |intros H3; apply H2; exists st; rewrite in_app_iff, H3, Ew, ?app_assoc; simpl; auto]]].
    1: intros _ s3 [L3 K3]; split; auto; eapply knows_iff; [|apply K3]; intros l; split;
      [intros [[H1 H2] H3]; split; auto; intros H; apply H2; apply EK; auto
      |intros [H1 H2]; split; [split; auto; intros H; apply EK in H; tauto|intros (st & H3 & ->); apply H2; exists st, []; rewrite app_nil_r; simpl; auto]].
    apply fwp_elim in F; destruct F as (s2 & [] & E2 & L2 & K2).
    exists (S (j1 + 1)), s2; split; [|split; [|auto]].
    { unfold is_displayed, dmem in Dx. unfold kids in R1. destruct (dget x (fnodes s0)) as [e|] eqn:Ee; [|discriminate].
      eapply runs_S; [unfold remove_step; rewrite (lk_nodes _ _ Lk), Ee, <- map_rev; reflexivity|].
      eapply runs_trans; [apply R1|]. eapply runs_S; [unfold remove_step; rewrite E2; reflexivity|constructor]. }
    assert (J : sum (fun c => 2 * S N ^ above c) (rev (kids s0 x)) = 2 * sum (fun c => S N ^ above c) (rev (kids s0 x)))
      by (generalize (rev (kids s0 x)) as l; clear; induction l as [|a l IH]; unfold sum in *; simpl in *; lia);
      pose proof (weight_dec N above (rev (kids s0 x)) x) as Wd; rewrite rev_length in Wd;
      specialize (Wd (kids_length x Lx) (fun y Hy => above_lt x y Lx (proj2 (in_rev _ _) Hy))); lia.
  Qed.

  Lemma walk_remove : forall n X, low <= r n -> is_displayed s0 n = true -> knows s0 X ->
    (forall l, under [n] n l -> X l /\ ear_gone l) ->
    (forall st m, In st P -> X (st ++ n :: m) -> downward (kids s0) n m) ->
    distinct_below [n] n ->
    exists s', loop (S (walk_budget N)) (remove_step P) ([(n, [n], true)], s0) = Stop (s', Ok tt) /\ like s0 s' /\
      knows s' (fun l => X l /\ ~ under [n] n l).
  Proof.
    intros n X Ln Hn K HX HD HDi.
    destruct (removes_all (S (above n)) n (le_n _) Ln Hn [n] [] [] s0 X) as (j & s' & R & J & L & K'); auto.
    exists s'. split; auto. eapply runs_stop; [apply R|reflexivity|].
    pose proof (weight_bound N (above n) (above_le n)). cbn [Nat.pow]. lia.
  Qed.
End Walk.
