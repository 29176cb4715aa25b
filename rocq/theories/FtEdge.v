(** Views: effect on the clients of adding and removing one edge. *)
From Verif Require Import Base BaseFacts MainTree MainFacts MainPaths Filters FTree SpecView FtBase FtWalk.
Open Scope f_scope.

(** [ch'] is [ch] without the edge from [p] to [n]. *)
Definition minus (ch : id -> list id) (p n : id) (ch' : id -> list id) : Prop :=
  forall x c, In c (ch' x) <-> In c (ch x) /\ ~ (x = p /\ c = n).

Definition paths (ch : id -> list id) (root : id) (l : list id) : Prop := l <> [] /\ downward ch root l.

Section Edge.
  Context {EAR : Ear}.
  Variable r : id -> nat.

  Lemma minus_sub : forall ch p n ch' l x, minus ch p n ch' -> downward ch' x l -> downward ch x l.
  Proof.
    intros ch p n ch' l x M. apply (downward_ext (fun _ => True)); auto. intros a c _ H. split; auto. apply M in H. tauto.
  Qed.

  Lemma minus_below : forall ch p n ch' l, (forall a c, In c (ch a) -> r a < r c) -> minus ch p n ch' -> r p < r n ->
    downward ch n l -> downward ch' n l.
  Proof.
    intros ch p n ch' l HR M L. apply (downward_ext (fun x => r n <= r x)); auto. intros a c Ha Hc.
    split; [specialize (HR _ _ Hc); lia|]. apply M. split; auto. intros [-> ->]. lia.
  Qed.

  Lemma minus_above : forall ch p n ch' root q, (forall a c, In c (ch a) -> r a < r c) -> minus ch p n ch' -> r p < r n ->
    chain ch root p q -> chain ch' root p q.
  Proof.
    intros ch p n ch' root q HR M L [H1 H2]. split; auto.
    assert (G : forall l x, downward ch x l -> r (last l x) <= r p -> downward ch' x l).
    { induction l as [|y l IH]; intros x Hd Hl; simpl; auto. rewrite last_cons in Hl. destruct Hd as [Hy Hd].
      split; auto. apply M. split; auto. intros [-> ->].
      pose proof (downward_rank r ch HR l n Hd) as R2. destruct l as [|z l]; [simpl in Hl; lia|].
      assert (In (last (z :: l) n) (z :: l)) by (clear; revert z; induction l as [|v l IH]; intros; [left; auto|right; apply (IH v)]).
      specialize (R2 _ H). lia. }
    apply G; auto. rewrite H2. auto.
  Qed.

  Lemma minus_down : forall ch p n ch', (forall a c, In c (ch a) -> r a < r c) -> minus ch p n ch' -> In n (ch p) -> forall l x,
    downward ch x l <-> downward ch' x l \/ exists st m, chain ch' x p st /\ downward ch' n m /\ l = st ++ n :: m.
  Proof.
    intros ch p n ch' HR M Hn. assert (L : r p < r n) by auto. intros l x. split.
    - revert x. induction l as [|y l IH]; intros x Hd; [left; simpl; auto|]. destruct Hd as [Hy Hd].
      destruct (id_dec x p) as [Ex|Ex]; [destruct (id_dec y n) as [Ey|Ey]|].
      + subst. right. exists [], l. split; [split; simpl; auto|]. split; auto. eapply minus_below; eauto.
      + destruct (IH y Hd) as [H|(st & m & [H1 H2] & H3 & ->)].
        * left. split; auto. apply M. split; auto. tauto.
        * right. exists (y :: st), m. split; [|auto]. split; [|rewrite last_cons; auto]. split; auto. apply M. split; auto. tauto.
      + destruct (IH y Hd) as [H|(st & m & [H1 H2] & H3 & ->)].
        * left. split; auto. apply M. split; auto. tauto.
        * right. exists (y :: st), m. split; [|auto]. split; [|rewrite last_cons; auto]. split; auto. apply M. split; auto. tauto.
    - intros [H|(st & m & [H1 H2] & H3 & ->)]; [eapply minus_sub; eauto|].
      apply downward_app. split; [eapply minus_sub; eauto|]. rewrite H2. split; auto. eapply minus_sub; eauto.
  Qed.

  Lemma minus_not : forall ch p n ch' x st m, minus ch p n ch' -> chain ch' x p st -> ~ downward ch' x (st ++ n :: m).
  Proof.
    intros ch p n ch' x st m M [H1 H2] H. apply downward_app in H. rewrite H2 in H. destruct H as [_ [H _]].
    apply M in H. tauto.
  Qed.

  (** A view whose clients see the edges [ch], which are among the stored ones; the
      stored parents of the nodes of [A] are those for [ch]. *)
  Record gbase (root : id) (A : id -> Prop) (ch : id -> list id) (s : ft) : Prop := {
    gb_root : froot s = root;
    gb_disp : is_displayed s root = true;
    gb_top : pars s root = [];
    gb_sub : forall p c, In c (ch p) -> In c (kids s p);
    gb_ch : forall p c, In c (ch p) -> is_displayed s c = true /\ r p < r c;
    gb_ndp : forall x, NoDup (pars s x);
    gb_pars : forall x p, In p (pars s x) -> r p < r x;
    gb_sym : forall x p, A x -> (In p (pars s x) <-> In x (ch p));
    gb_knows : knows s (paths ch root);
    gb_one : ear_one -> lone_ch ch
  }.

  Lemma kids_disp : forall s p c, In c (kids s p) -> is_displayed s p = true.
  Proof. intros s p c H. unfold kids in H. unfold is_displayed, dmem. destruct (dget p (fnodes s)); auto. Qed.
  Lemma pars_disp : forall s x p, In p (pars s x) -> is_displayed s x = true.
  Proof. intros s p c H. unfold pars in H. unfold is_displayed, dmem. destruct (dget p (fnodes s)); auto. Qed.

  Lemma gpaths : forall root A ch s n, gbase root A ch s -> (forall x, r x <= r n -> A x) -> is_displayed s n = true ->
    exists P, view_paths s n = Ok P /\ NoDup P /\ forall q, In q P <-> chain ch root n q.
  Proof.
    intros root A ch s n B HA Hn. rewrite <- (gb_root _ _ _ _ B).
    apply (view_paths_spec s ch r (r n)); auto.
    - intros x p Hx Hr Hp. assert (Hc : In x (ch p)) by (apply (gb_sym _ _ _ _ B); auto).
      pose proof (gb_sub _ _ _ _ B _ _ Hc) as Hk. split; [eapply kids_disp; eauto|]. split; auto. apply (gb_pars _ _ _ _ B); auto.
    - intros x _. apply (gb_ndp _ _ _ _ B).
    - intros x p _ Hr. apply (gb_sym _ _ _ _ B); auto.
    - intros p c Hc. apply (gb_ch _ _ _ _ B); auto.
  Qed.

  Lemma gbase_like : forall root A ch s s', gbase root A ch s -> like s s' -> knows s' (paths ch root) -> gbase root A ch s'.
  Proof.
    intros root A ch s s' B L K. constructor; auto.
    - rewrite (lk_root _ _ L). apply (gb_root _ _ _ _ B).
    - rewrite (like_disp _ _ _ L). apply (gb_disp _ _ _ _ B).
    - rewrite (like_pars _ _ _ L). apply (gb_top _ _ _ _ B).
    - intros p c Hc. rewrite (like_kids _ _ _ L). apply (gb_sub _ _ _ _ B); auto.
    - intros p c Hc. rewrite (like_disp _ _ _ L). apply (gb_ch _ _ _ _ B); auto.
    - intros x. rewrite (like_pars _ _ _ L). apply (gb_ndp _ _ _ _ B).
    - intros x p Hp. rewrite (like_pars _ _ _ L) in Hp. apply (gb_pars _ _ _ _ B); auto.
    - intros x p Hx. rewrite (like_pars _ _ _ L). apply (gb_sym _ _ _ _ B); auto.
    - apply (gb_one _ _ _ _ B).
  Qed.

  (** *** The modified signals of a node *)
  Definition modified_only (s s' : ft) : Prop := exists l, sent s' = sent s ++ l /\ Forall (fun x => exists n p, x = SModified n p) l.
  Lemma modified_only_refl : forall s, modified_only s s.
  Proof. intros. exists []. rewrite app_nil_r. auto. Qed.
  Lemma modified_only_trans : forall a b c, modified_only a b -> modified_only b c -> modified_only a c.
  Proof.
    intros a b c (l & E1 & F1) (m & E2 & F2). exists (l ++ m). split; [rewrite E2, E1, app_assoc; auto|]. apply Forall_app; auto.
  Qed.

  Lemma send_modified : forall root A ch s n, gbase root A ch s -> (forall x, r x <= r n -> A x) ->
    is_displayed s n = true -> n <> root -> ear_ok n ->
    fwp (ps <- paths_of n ;; ffor ps (fun p => callback_modified n p))
        (fun _ s' => like s s' /\ runonce s' = runonce s /\ tick s' = tick s /\ gbase root A ch s' /\ modified_only s s') s.
  Proof.
    intros root A ch s n B HA Hn Hr Hok. destruct (gpaths root A ch s n B HA Hn) as (P & EP & ND & IP).
    apply fwp_bind. unfold paths_of. unfold fwp at 1. rewrite EP.
    eapply fwp_mono; [apply (fwp_for _ (fun _ s' => like s s' /\ runonce s' = runonce s /\ tick s' = tick s /\ gbase root A ch s' /\ modified_only s s'))|intros ? ? H; apply H].
    { split; auto. split; auto. split; auto. split; auto. apply modified_only_refl. }
    intros done q rest s1 E (L1 & R1 & T1 & B1 & M1). assert (Hq : In q P) by (rewrite E; apply in_app_iff; right; left; auto).
    apply IP in Hq. destruct (chain_last s ch n q) as (p & q' & -> & Hp & C').
    { rewrite (gb_root _ _ _ _ B). auto. }
    { rewrite (gb_root _ _ _ _ B). auto. }
    eapply fwp_mono; [eapply fwp_and; [apply (knows_modified s1 n q' (paths ch root) Hok)|]|].
    - apply B1.
    - split; [destruct q'; discriminate|apply Hq].
    - apply (fwp_modify (send (SModified n (q' ++ [n]))) (fun _ s' => runonce s' = runonce s1 /\ tick s' = tick s1)). auto.
    - intros ? s2 [(L2 & K2 & S2) [R2 T2]]. split; [eapply like_trans; eauto|]. split; [congruence|]. split; [congruence|].
      split; [eapply gbase_like; eauto|]. eapply modified_only_trans; [apply M1|]. exists [SModified n (q' ++ [n])]. split; auto.
      constructor; eauto.
  Qed.

  (** *** Removing and adding *)
  Lemma send_removed : forall root A ch ch' s n p, gbase root A ch s -> (forall x, r x <= r p -> A x) ->
    (forall x, NoDup (kids s x)) ->
    (forall x c, r n <= r x -> In c (kids s x) -> In c (ch x)) ->
    In n (ch p) -> minus ch p n ch' -> (forall st m, last st root = p -> ear_gone (st ++ n :: m)) ->
    fwp (send_remove_tree n p) (fun _ s' => like s s' /\ knows s' (paths ch' root)) s.
  Proof.
    intros root A ch ch' s n p B HA HN Hag Hn M Hg.
    assert (HC : forall x c, r n <= r x -> In c (kids s x) -> is_displayed s c = true /\ r x < r c).
    { intros x c Hx Hc. apply (gb_ch _ _ _ _ B). auto. }
    destruct (gb_ch _ _ _ _ B _ _ Hn) as [Dn Rn]. pose proof (gb_sub _ _ _ _ B _ _ Hn) as Kn.
    pose proof (kids_disp _ _ _ Kn) as Dp.
    destruct (gpaths root A ch s p B HA Dp) as (P & EP & ND & IP).
    assert (HR : forall a c, In c (ch a) -> r a < r c) by (intros; apply (gb_ch _ _ _ _ B); auto).
    assert (DK : forall m, downward (kids s) n m <-> downward ch n m).
    { intros m. split; [apply (downward_ext (fun x => r n <= r x)); auto|apply (downward_ext (fun _ => True)); auto].
      - intros a c Ha Hc. split; auto. destruct (HC a c Ha Hc). lia.
      - intros a c _ Hc. split; auto. apply (gb_sub _ _ _ _ B); auto. }
    assert (CK : forall st, In st P -> ~ In n st).
    { intros st Hst Hi. apply IP in Hst. destruct Hst as [H1 H2].
      pose proof (downward_rank_last r ch HR st root H1 n Hi). rewrite H2 in H. lia. }
    unfold send_remove_tree. apply fwp_bind. unfold paths_of. unfold fwp at 1. rewrite EP. unfold fwp.
    destruct (walk_remove s r (r n) HC HN P ND n (paths ch root)) as (s' & E & L & K); auto.
    - apply (gb_knows _ _ _ _ B).
    - intros l (st & m & H1 & H2 & ->). apply IP in H1. destruct H1 as [H1 H3]. split; [|apply Hg; auto]. split; [destruct st; discriminate|].
      apply downward_app. split; auto. rewrite H3. split; auto. apply DK; auto.
    - intros st m H1 [_ H2]. apply downward_app in H2. apply DK. simpl in H2. tauto.
    - intros st st' m m' H1 H1' H2 H2' E. simpl in E. apply CK in H1. apply CK in H1'. clear -E H1 H1'.
      revert st' H1' E. induction st as [|a st IH]; intros st' H1' E; destruct st' as [|b st']; auto; simpl in *.
      + inv E. tauto.
      + inv E. tauto.
      + inv E. f_equal. apply IH; auto.
    - rewrite E. split; auto. eapply knows_iff; [|apply K]. intros l. unfold under, paths. split.
      + intros [[H1 H2] H3]. split; auto. apply (minus_down ch p n ch') in H2; auto. destruct H2 as [H2|(st & m & H4 & H5 & H6)]; auto.
        exfalso. apply H3. exists st, m. split; [apply IP|split; [apply DK|auto]].
        * destruct H4 as [H4 H4']. split; auto. eapply minus_sub; eauto.
        * eapply minus_sub; eauto.
      + intros [H1 H2]. split; [split; auto; eapply minus_sub; eauto|]. intros (st & m & H4 & H5 & ->). apply IP in H4.
        eapply (minus_not ch p n ch' root st m); eauto. eapply minus_above; eauto.
  Qed.

  (** With one parent each, a node has one path. *)
  Lemma lone_path : forall ch root, (forall a c, In c (ch a) -> r a < r c) -> lone_ch ch -> forall a b,
    downward ch root a -> downward ch root b -> last a root = last b root -> a = b.
  Proof.
    intros ch root HR Lo. assert (E0 : forall l, downward ch root l -> last l root = root -> l = []).
    { intros l H E. destruct l as [|y l] using rev_ind; auto. exfalso. rewrite last_snoc in E. subst y.
      pose proof (downward_rank r ch HR _ _ H root). rewrite in_app_iff in H0. simpl in H0. specialize (H0 (or_intror (or_introl eq_refl))). lia. }
    induction a as [|x a IH] using rev_ind; intros b Ha Hb E.
    - simpl in E. symmetry. apply E0; auto.
    - destruct b as [|y b] using rev_ind; [simpl in E; apply E0; auto|clear IHb]. rewrite !last_snoc in E. subst y.
      apply downward_app in Ha. apply downward_app in Hb. destruct Ha as [A1 [A2 _]], Hb as [B1 [B2 _]].
      f_equal. apply IH; auto. eapply Lo; eauto.
  Qed.

  (** The stored edge from [p] to [n] is there already, the clients do not know it. *)
  Lemma send_added : forall root A ch ch' s n p, gbase root A ch' s -> (forall x, r x <= r p -> A x) ->
    is_displayed s n = true ->
    (forall x, NoDup (kids s x)) ->
    (forall x c, r n <= r x -> In c (kids s x) -> In c (ch x)) ->
    (forall x, is_displayed s x = true -> x = n \/ r n < r x -> fine x) ->
    In n (kids s p) -> In n (ch p) -> minus ch p n ch' -> (forall a c, In c (ch a) -> r a < r c) ->
    (ear_one -> lone_ch ch) ->
    fwp (send_add_tree n p) (fun _ s' => like s s' /\ knows s' (paths ch root)) s.
  Proof.
    intros root A ch ch' s n p B HA Dn HN Hag Hres Kn Hn M HR HO. pose proof (HR _ _ Hn) as Rn.
    assert (HC : forall x c, r n <= r x -> In c (kids s x) -> is_displayed s c = true /\ r x < r c).
    { intros x c Hx Hc. apply (gb_ch _ _ _ _ B). apply M. split; auto. intros [-> ->]. lia. }
    pose proof (kids_disp _ _ _ Kn) as Dp.
    destruct (gpaths root A ch' s p B HA Dp) as (P & EP & ND & IP).
    assert (HR' : forall a c, In c (ch' a) -> r a < r c) by (intros; apply HR; apply M; auto).
    assert (DK : forall m, downward (kids s) n m <-> downward ch' n m).
    { intros m. split; [apply (downward_ext (fun x => r n <= r x)); auto|apply (downward_ext (fun _ => True)); auto].
      - intros a c Ha Hc. destruct (HC a c Ha Hc). split; [lia|]. apply M. split; auto. intros [-> ->]. lia.
      - intros a c _ Hc. split; auto. apply (gb_sub _ _ _ _ B); auto. }
    assert (CK : forall st, In st P -> ~ In n st).
    { intros st Hst Hi. apply IP in Hst. destruct Hst as [H1 H2].
      pose proof (downward_rank_last r ch' HR' st root H1 n Hi). rewrite H2 in H. lia. }
    assert (CE : forall st st' m m', In st P -> In st' P -> st ++ n :: m = st' ++ n :: m' -> st = st').
    { intros st st' m m' H1 H1' E. apply CK in H1. apply CK in H1'. clear -E H1 H1'.
      revert st' H1' E. induction st as [|a st IH]; intros st' H1' E; destruct st' as [|b st']; auto; simpl in *.
      + inv E. tauto.
      + inv E. tauto.
      + inv E. f_equal. apply IH; auto. }
    unfold send_add_tree. apply fwp_bind. unfold paths_of. unfold fwp at 1. rewrite EP. unfold fwp.
    destruct (walk_add s r (r n) HC HN P ND n (paths ch' root)) as (s' & E & L & K); auto.
    - intros st Hst. apply IP in Hst. destruct st as [|a st]; auto. right. split; [discriminate|apply Hst].
    - intros st m H1 H2 [_ H3]. apply IP in H1. apply DK in H2. eapply (minus_not ch p n ch'); eauto.
    - intros st st' m m' H1 H1' _ _. apply CE; auto.
    - intros Ho st m x H1 H2 Ex. specialize (HO Ho).
      assert (Full : forall st0 m0, In st0 P -> downward (kids s) n m0 -> downward ch root (st0 ++ n :: m0)).
      { intros st0 m0 G1 G2. apply IP in G1. apply DK in G2. apply (minus_down ch p n ch'); auto. right. exists st0, m0. auto. }
      assert (La : forall st0 m0, last (st0 ++ n :: m0) root = last m0 n) by (intros; rewrite last_app_cons, last_cons; auto).
      split.
      + intros q [_ Hq]. assert (Hq' : downward ch root (q ++ [x])) by (eapply minus_sub; eauto).
        assert (E : q ++ [x] = st ++ n :: m) by (apply (lone_path ch root HR HO); auto; rewrite La, last_snoc; auto).
        apply IP in H1. rewrite E in Hq. eapply (minus_not ch p n ch'); eauto.
      + intros st' m' H1' H2' Ex'. assert (E : st' ++ n :: m' = st ++ n :: m) by (apply (lone_path ch root HR HO); auto; rewrite !La; congruence).
        assert (st' = st) by (apply (CE st' st m' m); auto). subst st'. apply app_inv_head in E. injection E as ->. auto.
    - apply (gb_knows _ _ _ _ B).
    - rewrite E. split; auto. eapply knows_iff; [|apply K]. intros l. unfold paths. rewrite (minus_down ch p n ch') by auto. split.
      + intros [[H1 H2]|(st & m & H1 & H2 & ->)]; auto. split; [destruct st; discriminate|]. right. exists st, m.
        split; [apply IP; auto|]. split; auto. apply DK; auto.
      + intros [H1 [H2|(st & m & H2 & H3 & ->)]]; auto. right. exists st, m. split; [apply IP; auto|]. split; auto. apply DK; auto.
  Qed.
End Edge.
