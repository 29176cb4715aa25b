(** Views: a node that is no longer to be displayed. *)
From Coq Require Import Permutation.
From Verif Require Import Base BaseFacts MainTree MainFacts Filters FTree SpecView FtBase FtWalk FtEdge FtUp FtFront FtNoop.
Open Scope f_scope.

Lemma paths_same : forall ch ch' root l, (forall x c, In c (ch x) <-> In c (ch' x)) -> paths ch root l <-> paths ch' root l.
Proof.
  intros ch ch' root l H. unfold paths. split; intros [H1 H2]; split; auto; (eapply (downward_ext (fun _ => True)); [auto| |apply H2]);
    intros p c _ Hc; split; auto; apply H; auto.
Qed.

Section Del.
  Context {EAR : Ear}.
  Variable ord : nat -> list id -> list id.
  Variable T : mtree.
  Variable D : id -> bool.
  Variable root : id.
  Variable fl : bool.
  Variable r : id -> nat.
  Hypothesis EV : env ord T D root fl r.

  Notation sp := (sp T D root fl).
  Notation update_node := (update_node ord T D).

  (** A view whose clients see [ch]. *)
  Record gview (A : id -> Prop) (ch : id -> list id) (s : ft) : Prop := {
    gv_g : gbase r root A ch s;
    gv_flat : flat s = fl;
    gv_keys : NoDup (dkeys (fnodes s));
    gv_kid : forall x c, In c (kids s x) -> r x < r c;
    gv_ndk : forall x, NoDup (kids s x)
  }.

  Lemma gview_like : forall A ch ch' s s', gview A ch s -> like s s' -> knows s' (paths ch' root) -> (forall x c, In c (ch x) <-> In c (ch' x)) -> gview A ch' s'.
  Proof.
    intros A ch ch' s s' [] L K H.
    assert (G : gbase r root A ch' s).
    { destruct gv_g0. constructor; auto; try (intros; apply H in H0; auto; fail).
      - intros x p Hx. rewrite gb_sym; auto.
      - eapply knows_iff; [|apply gb_knows]. intros l. apply paths_same. auto.
      - intros Ho x p q. rewrite <- !H. apply (gb_one Ho). }
    constructor.
    - eapply gbase_like; eauto.
    - rewrite (lk_flat _ _ L). auto.
    - rewrite (lk_nodes _ _ L). auto.
    - intros x c. rewrite (like_kids _ _ _ L). auto.
    - intros x. rewrite (like_kids _ _ _ L). auto.
  Qed.

  (** A node without parents is put below the root. *)
  Lemma attach : forall rec n ch s, gview (fun _ => True) ch s -> (forall s, froot s = root -> rec root Up s = (s, Ok tt)) ->
    is_displayed s n = true -> D n = true ->
    pars s n = [] -> sp n = [root] -> (forall p, In p (get_parents T n) -> D p = true -> is_displayed s p = true) ->
    (forall x c, r n <= r x -> In c (kids s x) -> In c (ch x)) -> (forall c, In c (kids s root) <-> In c (ch root)) ->
    (forall x, is_displayed s x = true -> r n <= r x -> D x = true) ->
    (forall c, In c (node_children_of T D n s) -> In c (kids s n)) ->
    fwp (update_shown ord T D rec n Down false) (fun _ s' =>
      (forall x, is_displayed s' x = is_displayed s x) /\ filters s' = filters s /\
      (forall x, pars s' x = if String.eqb x n then [root] else pars s x) /\
      (forall x, kids s' x = if String.eqb x root then kids s root ++ [n] else kids s x) /\
      gview (fun _ => True) (fun x => if String.eqb x root then ch root ++ [n] else ch x) s') s.
  Proof.
    intros rec n ch s GV Hrec Dn Hd Pn Sn HP Hag Hrt Hres Hdn. unfold update_shown.
    pose proof (gv_g _ _ _ GV) as G. pose proof (gv_flat _ _ _ GV) as F.
    assert (Hn : n <> root) by (apply (D_root ord T D root fl r EV); auto).
    pose proof (e_rroot _ _ _ _ _ _ EV n Hn) as Rn.
    assert (Kn : ~ In n (kids s root)).
    { rewrite Hrt. intros H. apply (gb_sym _ _ _ _ _ G) in H; auto. rewrite Pn in H. destruct H. }
    destruct (disp_entry s n Dn) as (e & Ee & Ep & Ek).
    apply fwp_bind. apply (fwp_node n e); auto. apply fwp_bind. apply fwp_get. cbv zeta.
    apply fwp_bind. apply fwp_ret. apply fwp_bind. apply (fwp_node n e); auto. apply fwp_bind. apply fwp_get.
    rewrite (np_sp' T D root fl s n (gb_root _ _ _ _ _ G) F HP), Sn.
    rewrite (filter_id (is_displayed s) [root]) by (intros x [<-|[]]; apply (gb_disp _ _ _ _ _ G)).
    apply fwp_bind. apply (fwp_upd n e); auto. cbn beta.
    set (s1 := set_fnodes (dset n (mkF [root] (fchi e)) (fnodes s)) s).
    rewrite Ep, Pn, (gb_root _ _ _ _ _ G). change (set_diff [] [root]) with (@nil id). change (set_diff [root] []) with [root].
    assert (SR : set_diff [root] [root] = []) by (apply set_diff_nil; auto). rewrite SR.
    change (mem root [root]) with (String.eqb root root || false). rewrite eqb_refl. cbn [orb andb].
    assert (X1 : forall x, is_displayed s1 x = is_displayed s x).
    { intros x. unfold s1. rewrite disp_set. deq x n; simpl; auto. subst. auto. }
    assert (X2 : forall x, pars s1 x = if String.eqb x n then [root] else pars s x) by (intros; apply pars_set).
    assert (X3 : forall x, kids s1 x = kids s x).
    { intros x. unfold s1. rewrite kids_set. deq x n; simpl; auto. subst. auto. }
    apply fwp_bind. apply (iterate_nil ord T D root fl r EV).
    apply fwp_bind. unfold fwp at 1, iterate_set at 1.
    assert (OR : forall k, ord k [root] = [root]) by (intros; apply Permutation_length_1_inv, Permutation_sym, (e_ord _ _ _ _ _ _ EV)).
    rewrite OR. cbn [ffor].
    set (s2 := bump (bump s1)).
    destruct (disp_entry s1 root) as (er & Eer & Epr & Ekr); [rewrite X1; apply (gb_disp _ _ _ _ _ G)|].
    set (s3 := set_fnodes (dset root (mkF (fpar er) (fchi er ++ [n])) (fnodes s2)) s2).
    assert (Y1 : forall x, is_displayed s3 x = is_displayed s x).
    { intros x. unfold s3. rewrite disp_set. change (is_displayed s2 x) with (is_displayed s1 x). rewrite X1.
      deq x root; simpl; auto. subst. symmetry. apply (gb_disp _ _ _ _ _ G). }
    assert (Y2 : forall x, pars s3 x = if String.eqb x n then [root] else pars s x).
    { intros x. unfold s3. rewrite pars_set. change (pars s2 x) with (pars s1 x). rewrite X2. cbn [fpar].
      deq x root; auto. subst x. rewrite Epr, X2. deq root n; auto. }
    assert (Y3 : forall x, kids s3 x = if String.eqb x root then kids s root ++ [n] else kids s x).
    { intros x. unfold s3. rewrite kids_set. change (kids s2 x) with (kids s1 x). rewrite X3. cbn [fchi].
      deq x root; auto. rewrite Ekr, X3. auto. }
    set (ch1 := fun x => if String.eqb x root then ch root ++ [n] else ch x).
    assert (HC : forall x c, In c (kids s3 x) -> r x < r c).
    { intros x c. rewrite Y3. deq x root; [|apply (gv_kid _ _ _ GV)]. subst x. rewrite in_app_iff. simpl.
      intros [H|[<-|[]]]; auto. apply (gv_kid _ _ _ GV); auto. }
    assert (HN : forall x, NoDup (kids s3 x)).
    { intros x. rewrite Y3. destruct (String.eqb x root); [apply NoDup_snoc; auto|]; apply (gv_ndk _ _ _ GV). }
    assert (CR : forall a c, In c (ch1 a) -> is_displayed s c = true /\ r a < r c).
    { intros a c. unfold ch1. deq a root; [|apply (gb_ch _ _ _ _ _ G)]. subst a. rewrite in_app_iff. simpl.
      intros [H|[<-|[]]]; auto. apply (gb_ch _ _ _ _ _ G); auto. }
    assert (G3 : gbase r root (fun x => x <> n) ch s3).
    { constructor.
      - apply G.
      - rewrite Y1. apply (gb_disp _ _ _ _ _ G).
      - rewrite Y2. deq root n; [subst; exfalso; apply Hn; auto|]. apply (gb_top _ _ _ _ _ G).
      - intros p c H. rewrite Y3. apply (gb_sub _ _ _ _ _ G) in H. deq p root; auto. subst. apply in_app_iff. auto.
      - intros p c. rewrite Y1. apply (gb_ch _ _ _ _ _ G).
      - intros x. rewrite Y2. deq x n; [repeat constructor; simpl; tauto|]. apply (gb_ndp _ _ _ _ _ G).
      - intros x p. rewrite Y2. deq x n; [subst; intros [<-|[]]; auto|]. apply (gb_pars _ _ _ _ _ G).
      - intros x p Hx. rewrite Y2. rewrite (proj2 (eqb_neq x n)) by auto. apply (gb_sym _ _ _ _ _ G); auto.
      - eapply knows_sent; [|apply (gb_knows _ _ _ _ _ G)]. auto.
      - apply (gb_one _ _ _ _ _ G). }
    assert (Lo1 : ear_one -> lone_ch ch1).
    { intros Ho. pose proof (gb_one _ _ _ _ _ G Ho) as Lo.
      assert (Fn : forall q, ~ In n (ch q)) by (intros q Hq; apply (gb_sym _ _ _ _ _ G) in Hq; auto; rewrite Pn in Hq; destruct Hq).
      assert (Fb : forall x a, In x (ch1 a) -> In x (ch a) \/ a = root /\ x = n).
      { intros x a. unfold ch1. deq a root; auto. subst a. rewrite in_app_iff. simpl. intuition. }
      intros x a c H1 H2. apply Fb in H1. apply Fb in H2. destruct H1 as [H1|[-> ->]], H2 as [H2|[-> E2]]; [apply (Lo x); auto|subst; destruct (Fn _ H1)|destruct (Fn _ H2)|auto]. }
    assert (M1 : minus ch1 root n ch).
    { intros x c. unfold ch1. deq x root.
      - subst x. rewrite in_app_iff. simpl. split.
        + intros H. split; auto. intros [_ ->]. apply Kn, Hrt. auto.
        + intros [[H|[H|[]]] H2]; auto. exfalso. auto.
      - tauto. }
    assert (W : fwp (send_add_tree n root) (fun _ s' => like s3 s' /\ knows s' (paths ch1 root)) s3).
    { apply (send_added r root (fun x => x <> n) ch1 ch s3 n root); auto.
      - intros x Hx ->. lia.
      - rewrite Y1. auto.
      - intros x c Hx. rewrite Y3. unfold ch1. deq x root; [subst; lia|]. apply Hag; auto.
      - intros x. rewrite Y1. intros Hx Hr. apply (e_res _ _ _ _ _ _ EV). destruct Hr as [->|Hr]; auto. apply Hres; auto. lia.
      - rewrite Y3, eqb_refl, in_app_iff. simpl. auto.
      - unfold ch1. rewrite eqb_refl, in_app_iff. simpl. auto.
      - intros a c H. apply CR in H. tauto. }
    unfold fbind at 1 2 3. unfold fget at 1. fold s2.
    assert (Dr : is_displayed s2 root = true) by (change (is_displayed s1 root = true); rewrite X1; apply (gb_disp _ _ _ _ _ G)).
    cbn [fst snd]. rewrite Dr. unfold fbind at 1. unfold upd_f at 1. change (fnodes s2) with (fnodes s1) at 1. rewrite Eer. fold s3.
    unfold fwp in W. unfold fbind at 1. destruct (send_add_tree n root s3) as [s4 [[]| |]]; try tauto. destruct W as [L4 K4].
    cbn [goes_up]. rewrite Hrec by (rewrite (lk_root _ _ L4); apply G). unfold fret at 1.
    assert (Z1 : forall x, is_displayed s4 x = is_displayed s x) by (intros; rewrite (like_disp _ _ _ L4); auto).
    assert (Z2 : forall x, pars s4 x = if String.eqb x n then [root] else pars s x) by (intros; rewrite (like_pars _ _ _ L4); auto).
    assert (Z3 : forall x, kids s4 x = if String.eqb x root then kids s root ++ [n] else kids s x) by (intros; rewrite (like_kids _ _ _ L4); auto).
    assert (G4 : gbase r root (fun _ => True) ch1 s4).
    { constructor.
      - rewrite (lk_root _ _ L4). apply G.
      - rewrite Z1. apply (gb_disp _ _ _ _ _ G).
      - rewrite (like_pars _ _ _ L4). apply (gb_top _ _ _ _ _ G3).
      - intros p c. rewrite Z3. unfold ch1. deq p root; [|apply (gb_sub _ _ _ _ _ G)]. rewrite !in_app_iff, Hrt. auto.
      - intros p c. rewrite Z1. apply CR.
      - intros x. rewrite (like_pars _ _ _ L4). apply (gb_ndp _ _ _ _ _ G3).
      - intros x p. rewrite (like_pars _ _ _ L4). apply (gb_pars _ _ _ _ _ G3).
      - intros x p _. rewrite Z2. unfold ch1. deq x n.
        + subst x. deq p root.
          * subst. rewrite in_app_iff. simpl. split; auto.
          * rewrite <- (gb_sym _ _ _ _ _ G) by auto. rewrite Pn. simpl. intuition.
        + rewrite (gb_sym _ _ _ _ _ G) by auto. deq p root; [|tauto]. subst. rewrite in_app_iff. simpl. intuition. congruence.
      - auto.
      - auto. }
    apply fwp_bind. apply (iterate_nil ord T D root fl r EV). cbn [goes_down].
    set (s5 := bump s4).
    assert (L5 : like s4 s5) by (constructor; auto).
    assert (G5 : gbase r root (fun _ => True) ch1 s5).
    { apply (gbase_like r root _ ch1 s4); auto. }
    apply fwp_bind.
    eapply fwp_mono; [apply (send_modified r root (fun _ => True) ch1 s5 n); auto; [rewrite (like_disp _ _ _ L5), Z1; auto|apply (e_res _ _ _ _ _ _ EV); auto]|].
    intros ? s6 (L6 & _ & _ & G6 & _). assert (L46 : like s4 s6) by (eapply like_trans; eauto).
    apply fwp_bind. destruct (disp_entry s6 n) as (e6 & Ee6 & Ep6 & Ek6); [rewrite (like_disp _ _ _ L46), Z1; auto|].
    apply (fwp_node n e6); auto. apply fwp_bind. apply fwp_get.
    eapply fwp_mono with (Q := fun _ s' => s' = s6).
    { assert (NC : node_children_of T D n s6 = node_children_of T D n s).
      { unfold node_children_of. rewrite (lk_flat _ _ L46), (lk_flat _ _ L4). auto. }
      rewrite NC. eapply fwp_mono; [apply (fwp_for _ (fun _ s' => s' = s6))|intros ? ? H; apply H]; auto.
      intros done c rest s7 El ->. apply fwp_bind. apply (fwp_node n e6); auto.
      assert (Hc : In c (kids s n)) by (apply Hdn; rewrite El; apply in_app_iff; right; left; auto).
      assert (Hm : mem c (fchi e6) = true).
      { apply mem_In. rewrite Ek6, (like_kids _ _ _ L46), Z3. deq n root; auto. contradiction. }
      rewrite Hm. apply fwp_ret. auto. }
    intros ? s7 ->. split; [intros; rewrite (like_disp _ _ _ L46); auto|].
    split; [rewrite (lk_filters _ _ L46), (lk_filters _ _ L4); auto|].
    split; [intros; rewrite (like_pars _ _ _ L46); auto|]. split; [intros; rewrite (like_kids _ _ _ L46); auto|].
    constructor; auto.
    - rewrite (lk_flat _ _ L46), (lk_flat _ _ L4). auto.
    - rewrite (lk_nodes _ _ L46), (lk_nodes _ _ L4). apply dset_NoDup. apply dset_NoDup. apply (gv_keys _ _ _ GV).
    - intros x c. rewrite (like_kids _ _ _ L46), (like_kids _ _ _ L4). apply HC.
    - intros x. rewrite (like_kids _ _ _ L46), (like_kids _ _ _ L4). apply HN.
  Qed.

  Variable B : nat.
  Hypothesis HB : forall x, r x <= B.
  Hypothesis Hsym : forall p c, D c = true -> (In c (get_children T p) <-> In p (get_parents T c)).

  Section Hide.
    Variable n : id.
    Variable s0 : ft.
    Record hpre : Prop := {
      h_base : base r root fl (fun _ => True) s0;
      h_n : n <> root;
      h_disp : is_displayed s0 n = true;
      h_D : D n = false;
      h_stale : forall x, is_displayed s0 x = true -> x = root \/ x = n \/ D x = true;
      h_full : forall x, D x = true -> is_displayed s0 x = true;
      h_pars : forall x, D x = true -> remove1 n (pars s0 x) = sp x \/ (pars s0 x = [n] /\ sp x = [root])
    }.
    Hypothesis H : hpre.
    Lemma G0 : gbase r root (fun _ => True) (kids s0) s0.
    Proof. apply (b_g _ _ _ _ _ (h_base H)). Qed.

    Lemma h_child : forall c, In c (kids s0 n) -> D c = true /\ r n < r c /\ c <> n /\ c <> root /\ In n (pars s0 c).
    Proof.
      intros c Hc. destruct (gb_ch _ _ _ _ _ G0 n c Hc) as [H1 H2].
      assert (c <> n) by (intros ->; lia).
      assert (c <> root) by (intros ->; pose proof (e_rroot _ _ _ _ _ _ EV n (h_n H)); lia).
      split; [destruct (h_stale H c H1) as [|[|]]; tauto|]. split; auto. split; auto. split; auto. apply (gb_sym _ _ _ _ _ G0); auto.
    Qed.

    Lemma h_there : forall x c, D x = true -> In c (get_children T x) -> D c = true -> fl = false -> In c (kids s0 x).
    Proof.
      intros x c Hx Hc Dc F. assert (Sx : In x (sp c)).
      { apply Hsym in Hc; auto. unfold FtFront.sp. rewrite F.
        assert (Hf : In x (filter D (get_parents T c))) by (apply filter_In; auto).
        destruct (filter D (get_parents T c)); [destruct Hf|auto]. }
      apply (gb_sym _ _ _ _ _ G0); auto. destruct (h_pars H c Dc) as [E|[_ E]].
      - rewrite <- E in Sx. eapply remove1_In; eauto.
      - rewrite E in Sx. destruct Sx as [<-|[]]. rewrite (e_root _ _ _ _ _ _ EV) in Hx. discriminate.
    Qed.

    Definition gh (done : list id) (s : ft) (x : id) : list id :=
      if String.eqb x n then filter (fun c => negb (mem c done)) (kids s0 n) else kids s x.

    Record hmid (done : list id) (s : ft) : Prop := {
      m_disp : forall x, is_displayed s x = is_displayed s0 x;
      m_filters : filters s = filters s0;
      m_pars : forall x, pars s x = if mem x done then sp x else pars s0 x;
      m_kids : forall x, x <> root -> kids s x = kids s0 x;
      m_root : forall c, In c (kids s0 root) -> In c (kids s root);
      m_done : forall c, In c (kids s root) -> In c (kids s0 root) \/ In c done;
      m_view : gview (fun _ => True) (gh done s) s
    }.

    Lemma hide_child : forall fuel done c rest s, 2 <= fuel -> rev (kids s0 n) = done ++ c :: rest -> hmid done s ->
      fwp (send_remove_tree c n ;; parents_remove c n ;; update_node fuel c Down) (fun _ s' => hmid (done ++ [c]) s') s.
    Proof.
      intros fuel done c rest s Hf El M.
      assert (ND : NoDup (done ++ c :: rest)) by (rewrite <- El; apply NoDup_rev; apply (b_ndk _ _ _ _ _ (h_base H))).
      assert (Hk : forall x, In x (done ++ c :: rest) -> In x (kids s0 n)) by (intros x Hx; apply in_rev; rewrite El; auto).
      assert (Hc : In c (kids s0 n)) by (apply Hk; apply in_app_iff; right; left; auto).
      assert (Nc : ~ In c done) by (intros Hd; apply (NoDup_app_disj _ _ c ND Hd); left; auto).
      destruct (h_child c Hc) as (Dc & Rc & Ncn & Ncr & Pc).
      pose proof (m_view _ _ M) as V. pose proof (gv_g _ _ _ V) as G.
      assert (Hgh : In c (gh done s n)).
      { unfold gh. rewrite eqb_refl. apply filter_In. split; auto. rewrite negb_true_iff. apply mem_false. auto. }
      assert (MI : minus (gh done s) n c (gh (done ++ [c]) s)).
      { intros x y. unfold gh. deq x n; [|tauto]. rewrite !filter_In, !negb_true_iff, !mem_false, in_app_iff. simpl. intuition congruence. }
      apply fwp_bind. eapply fwp_mono; [apply (send_removed r root (fun _ => True) (gh done s) (gh (done ++ [c]) s) s c n); auto|].
      { apply (gv_ndk _ _ _ V). }
      { intros x y Hx Hy. unfold gh. deq x n; [subst; lia|auto]. }
      { intros st m El'. apply (e_gone _ _ _ _ _ _ EV). rewrite El'. intros _ Hp. apply (sp_cases ord T D root fl r EV) in Hp.
        destruct Hp as [Hp|[Hp _]]; [apply (h_n H); auto|rewrite (h_D H) in Hp; discriminate]. }
      intros ? s1 [L1 K1]. unfold parents_remove. 
      assert (Dc1 : is_displayed s1 c = true).
      { rewrite (like_disp _ _ _ L1), (m_disp _ _ M). apply (h_full H). auto. }
      destruct (disp_entry s1 c Dc1) as (e & Ee & Ep & Ek).
      assert (Epc : fpar e = pars s0 c).
      { rewrite Ep, (like_pars _ _ _ L1), (m_pars _ _ M), (proj2 (mem_false _ _) Nc). auto. }
      apply fwp_bind. apply fwp_bind. apply (fwp_node c e); auto. rewrite Epc at 1. rewrite (proj2 (mem_In _ _) Pc).
      apply (fwp_upd c e); auto. cbn beta. rewrite Epc.
      set (s2 := set_fnodes (dset c (mkF (remove1 n (pars s0 c)) (fchi e)) (fnodes s1)) s1).
      assert (X1 : forall x, is_displayed s2 x = is_displayed s0 x).
      { intros x. unfold s2. rewrite disp_set, (like_disp _ _ _ L1), (m_disp _ _ M). deq x c; simpl; auto. subst. symmetry. apply (h_full H). auto. }
      assert (X2 : forall x, pars s2 x = if String.eqb x c then remove1 n (pars s0 c) else if mem x done then sp x else pars s0 x).
      { intros x. unfold s2. rewrite pars_set, (like_pars _ _ _ L1), (m_pars _ _ M). auto. }
      assert (X3 : forall x, kids s2 x = kids s x).
      { intros x. unfold s2. rewrite kids_set, (like_kids _ _ _ L1). deq x c; auto. subst. simpl. rewrite Ek, (like_kids _ _ _ L1). auto. }
      assert (HD2 : forall p, In p (get_parents T c) -> D p = true -> is_displayed s2 p = true).
      { intros p _ Hp. rewrite X1. apply (h_full H). auto. }
      assert (X4 : forall x, x <> root -> kids s2 x = kids s0 x) by (intros; rewrite X3; apply (m_kids _ _ M); auto).
      assert (NC : forall y, In y (node_children_of T D c s2) -> In y (kids s2 c)).
      { intros y. unfold node_children_of. change (flat s2) with (flat s1). rewrite (lk_flat _ _ L1), (gv_flat _ _ _ V).
        destruct (bool_dec fl true) as [F|F]; [rewrite F; intros []|apply not_true_is_false in F; rewrite F]. intros Hy. apply filter_In in Hy. destruct Hy as [H1 H2].
        rewrite X4 by auto. apply h_there; auto. }
      assert (Hgh' : forall x y, In y (gh (done ++ [c]) s2 x) <-> In y (gh (done ++ [c]) s x)).
      { intros x y. unfold gh. destruct (String.eqb x n); [tauto|]. rewrite X3. tauto. }
      assert (V2 : gview (fun _ => True) (gh (done ++ [c]) s2) s2).
      { constructor.
        - constructor.
          + change (froot s1 = root). rewrite (lk_root _ _ L1). apply G.
          + rewrite X1. apply (gb_disp _ _ _ _ _ G0).
          + rewrite X2. deq root c; [congruence|]. pose proof (gb_top _ _ _ _ _ G) as Ht. rewrite (m_pars _ _ M) in Ht. auto.
          + intros p y. rewrite Hgh', X3. intros Hy. apply MI in Hy. apply (gb_sub _ _ _ _ _ G). tauto.
          + intros p y. rewrite Hgh', X1. intros Hy. apply MI in Hy. rewrite <- (m_disp _ _ M). apply (gb_ch _ _ _ _ _ G). tauto.
          + intros x. rewrite X2. deq x c; [apply remove1_NoDup; apply (gb_ndp _ _ _ _ _ G0)|].
            pose proof (gb_ndp _ _ _ _ _ G x) as Ht. rewrite (m_pars _ _ M) in Ht. auto.
          + intros x p. rewrite X2. deq x c.
            * subst x. intros Hp. apply remove1_In in Hp. apply (gb_pars _ _ _ _ _ G0). auto.
            * rewrite <- (m_pars _ _ M). apply (gb_pars _ _ _ _ _ G).
          + intros x p _. rewrite X2, Hgh'. rewrite (MI p x). rewrite <- (gb_sym _ _ _ _ _ G), (m_pars _ _ M) by auto. deq x c.
            * subst x. rewrite (proj2 (mem_false _ _) Nc). rewrite remove1_iff by apply (gb_ndp _ _ _ _ _ G0). tauto.
            * intuition.
          + eapply knows_sent; [|eapply knows_iff; [|apply K1]]; [auto|]. intros l. apply paths_same. intros; symmetry; apply Hgh'.
          + intros Ho x a1 y H1 H2. rewrite Hgh' in H1, H2. apply MI in H1. apply MI in H2. apply (gb_one _ _ _ _ _ G Ho x); tauto.
        - change (flat s1 = fl). rewrite (lk_flat _ _ L1). apply (gv_flat _ _ _ V).
        - simpl. apply dset_NoDup. rewrite (lk_nodes _ _ L1). apply (gv_keys _ _ _ V).
        - intros x y. rewrite X3. apply (gv_kid _ _ _ V).
        - intros x. rewrite X3. apply (gv_ndk _ _ _ V). }
      destruct fuel as [|fuel]; [lia|].
      change (update_node (S fuel) c Down) with (update_body ord T D (update_node fuel) c Down).
      unfold update_body. apply fwp_bind. apply fwp_get. rewrite (gb_root _ _ _ _ _ (gv_g _ _ _ V2)). deq c root; [contradiction|].
      assert (Dc2 : is_displayed s2 c = true) by (rewrite X1; apply (h_full H); auto). rewrite Dc2, Dc.
      assert (FS : filters s2 = filters s0) by (change (filters s1 = filters s0); rewrite (lk_filters _ _ L1); apply M).
      assert (MP : forall x, mem x (done ++ [c]) = (String.eqb x c || mem x done)).
      { intros x. rewrite mem_app. simpl. rewrite orb_false_r. apply orb_comm. }
      destruct (h_pars H c Dc) as [Es|[Es Er]].
      - eapply fwp_mono; [apply (quiet_shown ord T D root fl r EV _ c Down (gh (done ++ [c]) s2) s2); auto|].
        + apply V2.
        + apply (gv_flat _ _ _ V2).
        + rewrite X2, eqb_refl. auto.
        + discriminate.
        + intros ? s3 Q. pose proof (q_like _ _ _ _ _ Q) as L3. constructor.
          * intros x. rewrite (like_disp _ _ _ L3). auto.
          * rewrite (lk_filters _ _ L3). auto.
          * intros x. rewrite (like_pars _ _ _ L3), X2, MP. deq x c; simpl; [congruence|auto].
          * intros x Hx. rewrite (like_kids _ _ _ L3). auto.
          * intros x. rewrite (like_kids _ _ _ L3), X3. apply (m_root _ _ M).
          * intros x. rewrite (like_kids _ _ _ L3), X3, in_app_iff. intros Hx. apply (m_done _ _ M) in Hx. tauto.
          * apply (gview_like (fun _ => True) (gh (done ++ [c]) s2) _ s2); auto.
            -- eapply knows_iff; [|apply (gb_knows _ _ _ _ _ (q_base _ _ _ _ _ Q))]. intros l. apply paths_same.
               intros x y. unfold gh. rewrite (like_kids _ _ _ L3). tauto.
            -- intros x y. unfold gh. rewrite (like_kids _ _ _ L3). tauto.
      - assert (Sr : remove1 n (pars s0 c) = []) by (rewrite Es; simpl; rewrite eqb_refl; auto).
        eapply fwp_mono; [apply (attach (update_node fuel) c (gh (done ++ [c]) s2) s2); auto|].
        + intros s3 <-. destruct fuel as [|fuel]; [lia|]. apply update_body_root.
        + rewrite X2, eqb_refl. auto.
        + intros x y Hx. unfold gh. deq x n; [subst; lia|auto].
        + intros y. unfold gh. deq root n; [exfalso; apply (h_n H); auto|tauto].
        + intros x. rewrite X1. intros Hx Hr. destruct (h_stale H x Hx) as [->|[->|]]; auto; [|lia].
          pose proof (e_rroot _ _ _ _ _ _ EV c Ncr). lia.
        + intros ? s3 (Y1 & Y2 & Y3 & Y4 & V3). constructor.
          * intros x. rewrite Y1. auto.
          * congruence.
          * intros x. rewrite Y3, X2, MP. deq x c; simpl; [congruence|auto].
          * intros x Hx. rewrite Y4. deq x root; [contradiction|auto].
          * intros x Hx. rewrite Y4, eqb_refl, in_app_iff, X3. left. apply (m_root _ _ M). auto.
          * intros x. rewrite Y4, eqb_refl, !in_app_iff, X3. simpl. intros [Hx|[<-|[]]]; auto. apply (m_done _ _ M) in Hx. tauto.
          * refine (gview_like _ _ _ s3 s3 V3 (like_refl s3) _ _).
            -- eapply knows_iff; [|apply (gb_knows _ _ _ _ _ (gv_g _ _ _ V3))]. intros l. apply paths_same.
               intros x y. unfold gh. rewrite Y4. deq x root; [subst|]. 
               ++ deq root n; [exfalso; apply (h_n H); auto|]. tauto.
               ++ tauto.
            -- intros x y. unfold gh. rewrite Y4. deq x root; [subst|].
               ++ deq root n; [exfalso; apply (h_n H); auto|]. tauto.
               ++ tauto.
    Qed.

    (** After the children. *)
    Lemma hide_pop : forall s P (Q : unit -> ft -> Prop), hmid (rev (kids s0 n)) s ->
      (forall q, In q P <-> chain (kids s0) root n q) -> NoDup P ->
      (forall s', (forall x, is_displayed s' x = negb (String.eqb x n) && is_displayed s0 x) -> filters s' = filters s0 ->
         (forall x, D x = true -> pars s' x = sp x) -> (forall x, x <> n -> kids s' x = kids s x) ->
         flat s' = fl -> NoDup (dkeys (fnodes s')) -> (forall x, NoDup (kids s' x)) -> kids s' n = [] ->
         gbase r root (fun _ => True) (fun x => remove1 n (kids s' x)) s' -> Q tt s') ->
      fwp (fmodify (fun s => set_fnodes (ddel n (fnodes s)) s) ;; ffor P (fun p => callback_deleted n p)) Q s.
    Proof.
      intros s P Q M HP NP HQ. pose proof (m_view _ _ M) as V. pose proof (gv_g _ _ _ V) as G.
      set (ch := gh (rev (kids s0 n)) s) in *.
      assert (Cn : forall c, ~ In c (ch n)).
      { intros c Hc. unfold ch, gh in Hc. rewrite eqb_refl in Hc. apply filter_In in Hc. destruct Hc as [H1 H2].
        rewrite negb_true_iff, mem_false in H2. apply H2. apply -> in_rev. auto. }
      assert (Cx : forall x, x <> n -> ch x = kids s x) by (intros x Hx; unfold ch, gh; deq x n; [contradiction|auto]).
      assert (CH : forall q, In q P <-> chain ch root n q).
      { assert (EX : forall ch1 ch2 : id -> list id, (forall a c, In c (ch1 a) -> r a < r c) ->
          (forall a c, r c <= r n -> In c (ch1 a) -> In c (ch2 a)) -> forall q x, downward ch1 x q -> r (last q x) <= r n -> downward ch2 x q).
        { intros ch1 ch2 HR HE. induction q as [|y q IH]; intros x Hd Hl; simpl; auto. rewrite last_cons in Hl. destruct Hd as [Hy Hd].
          split; auto. apply HE; auto. destruct q as [|z q]; [auto|].
          pose proof (downward_rank_last r ch1 HR (y :: z :: q) x (conj Hy Hd) y (or_introl eq_refl)). rewrite last_cons in H0. lia. }
        intros q. rewrite HP. unfold chain. split; intros [H1 H2]; split; auto; revert H1; intros H1.
        - apply (EX (kids s0) ch); auto; [intros; apply (gb_ch _ _ _ _ _ G0); auto| |rewrite H2; auto].
          intros a c Hc Hk. deq a n; [subst a; apply (gb_ch _ _ _ _ _ G0) in Hk; lia|]. rewrite Cx by auto.
          deq a root; [subst; apply (m_root _ _ M); auto|]. rewrite (m_kids _ _ M); auto.
        - apply (EX ch (kids s0)); auto; [intros; apply (gb_ch _ _ _ _ _ G); auto| |rewrite H2; auto].
          intros a c Hc Hk. deq a n; [subst a; exfalso; eapply Cn; eauto|]. rewrite Cx in Hk by auto.
          deq a root; [|rewrite (m_kids _ _ M) in Hk; auto]. subst a. apply (m_done _ _ M) in Hk. destruct Hk as [|Hk]; auto.
          apply in_rev in Hk. apply (gb_ch _ _ _ _ _ G0) in Hk. lia. }
      apply fwp_bind. apply fwp_modify.
      set (s1 := set_fnodes (ddel n (fnodes s)) s).
      assert (X1 : forall x, is_displayed s1 x = negb (String.eqb x n) && is_displayed s0 x).
      { intros x. rewrite <- (m_disp _ _ M). unfold is_displayed, s1. simpl. apply dmem_ddel. apply (gv_keys _ _ _ V). }
      assert (X2 : forall x, x <> n -> pars s1 x = pars s x).
      { intros x Hx. unfold pars, s1. simpl. rewrite dget_ddel_other; auto. }
      assert (X2n : pars s1 n = [] /\ kids s1 n = []).
      { apply and_comm. apply not_disp. rewrite X1, eqb_refl. auto. }
      assert (X3 : forall x, x <> n -> kids s1 x = kids s x).
      { intros x Hx. unfold kids, s1. simpl. rewrite dget_ddel_other; auto. }
      set (X := paths ch root).
      eapply fwp_mono; [apply (fwp_for _ (fun done s' => like s1 s' /\ knows s' (fun l => X l /\ ~ In l done)))|].
      - split; auto. eapply knows_sent; [|eapply knows_iff; [|apply (gb_knows _ _ _ _ _ G)]]; auto. intros l. unfold X. simpl. tauto.
      - intros done q rest s2 El [L2 K2]. assert (Hq : In q P) by (rewrite El; apply in_app_iff; right; left; auto).
        apply CH in Hq. destruct (chain_last s ch n q) as (p & q' & -> & Hp & _); auto.
        { rewrite (gb_root _ _ _ _ _ G). apply (h_n H). }
        { rewrite (gb_root _ _ _ _ _ G). auto. }
        eapply fwp_mono; [apply (knows_deleted s2 n q' _) with (2 := K2)|].
        + apply (e_gone _ _ _ _ _ _ EV). rewrite (h_D H). discriminate.
        + split; [split; [destruct q'; discriminate|apply Hq]|]. rewrite El in NP. intros Hd. apply (NoDup_app_disj _ _ _ NP Hd). left. auto.
        + intros b Hb [[_ Hd] _]. rewrite app_assoc in Hd. apply downward_app in Hd. destruct Hd as [_ Hd]. rewrite last_snoc in Hd.
          destruct b as [|y b]; [auto|]. destruct Hd as [Hd _]. eapply Cn; eauto.
        + intros ? s3 [L3 K3]. split; [eapply like_trans; eauto|]. eapply knows_iff; [|apply K3]. intros l. cbn beta.
          rewrite in_app_iff. simpl. intuition congruence.
      - intros [] s2 [L2 K2]. cbn beta in K2.
        assert (Hr : forall x, NoDup (kids s2 x)).
        { intros x. rewrite (like_kids _ _ _ L2). destruct (id_dec x n) as [->|N]; [rewrite (proj2 X2n); constructor|]. rewrite X3 by auto. apply (gv_ndk _ _ _ V). }
        assert (CK : forall x c, In c (remove1 n (kids s2 x)) <-> In c (ch x) /\ c <> n).
        { intros x c. rewrite remove1_iff by auto. rewrite (like_kids _ _ _ L2). destruct (id_dec x n) as [->|N].
          - rewrite (proj2 X2n). simpl. split; [tauto|]. intros [Hc _]. exfalso. eapply Cn; eauto.
          - rewrite X3, Cx by auto. tauto. }
        assert (Dn : forall x, is_displayed s2 x = negb (String.eqb x n) && is_displayed s0 x) by (intros x; rewrite (like_disp _ _ _ L2); auto).
        apply HQ; auto.
        + rewrite (lk_filters _ _ L2). apply (m_filters _ _ M).
        + intros x Hx. assert (Nx : x <> n) by (intros ->; rewrite (h_D H) in Hx; discriminate).
          rewrite (like_pars _ _ _ L2), X2, (m_pars _ _ M) by auto. destruct (mem_spec x (rev (kids s0 n))) as [Hm|Hm]; auto.
          assert (Np : ~ In n (pars s0 x)).
          { intros Hp. apply Hm. apply -> in_rev. apply (gb_sym _ _ _ _ _ G0); auto. }
          destruct (h_pars H x Hx) as [E|[E _]]; [rewrite remove1_notin in E; auto|].
          exfalso. apply Np. rewrite E. left. auto.
        + intros x Hx. rewrite (like_kids _ _ _ L2). auto.
        + rewrite (lk_flat _ _ L2). apply (gv_flat _ _ _ V).
        + rewrite (lk_nodes _ _ L2). simpl. apply ddel_NoDup. apply (gv_keys _ _ _ V).
        + rewrite (like_kids _ _ _ L2). apply X2n.
        + constructor.
          * rewrite (lk_root _ _ L2). apply (gb_root _ _ _ _ _ G).
          * rewrite Dn. deq root n; [exfalso; apply (h_n H); auto|]. simpl. apply (gb_disp _ _ _ _ _ G0).
          * rewrite (like_pars _ _ _ L2), X2; [apply (gb_top _ _ _ _ _ G)|]. intros E. apply (h_n H). auto.
          * intros p c Hc. apply remove1_In in Hc. auto.
          * intros p c Hc. apply CK in Hc. destruct Hc as [Hc Nc]. apply (gb_ch _ _ _ _ _ G) in Hc. destruct Hc as [Hc Hr'].
            rewrite (m_disp _ _ M) in Hc. rewrite Dn, (proj2 (eqb_neq c n)), Hc by auto. auto.
          * intros x. rewrite (like_pars _ _ _ L2). destruct (id_dec x n) as [->|N]; [rewrite (proj1 X2n); constructor|].
            rewrite X2 by auto. apply (gb_ndp _ _ _ _ _ G).
          * intros x p. rewrite (like_pars _ _ _ L2). destruct (id_dec x n) as [->|N]; [rewrite (proj1 X2n); intros []|].
            rewrite X2 by auto. apply (gb_pars _ _ _ _ _ G).
          * intros x p _. rewrite CK. rewrite (like_pars _ _ _ L2). destruct (id_dec x n) as [->|N].
            -- rewrite (proj1 X2n). simpl. tauto.
            -- rewrite X2 by auto. rewrite (gb_sym _ _ _ _ _ G) by auto. tauto.
          * eapply knows_iff; [|apply K2]. intros l. cbn beta. unfold X, paths. rewrite CH. split.
            -- intros [[H1 H2] H3]. split; auto.
               assert (Hl : ~ In n l).
               { intros Hi. apply in_split in Hi. destruct Hi as (l1 & l2 & ->). apply H3.
                 rewrite (app_assoc l1 [n] l2 : l1 ++ n :: l2 = (l1 ++ [n]) ++ l2) in *. apply downward_app in H2. rewrite last_snoc in H2.
                 destruct H2 as [H2 H4]. destruct l2 as [|y l2]; [|destruct H4 as [H4 _]; exfalso; eapply Cn; eauto].
                 rewrite app_nil_r. split; auto. apply last_snoc. }
               clear H1 H3. revert H2 Hl. generalize root. induction l as [|y l IH]; intros x Hd Hl; simpl; auto.
               destruct Hd as [Hy Hd]. split; [|apply IH; auto; intros Hi; apply Hl; right; auto].
               apply CK. split; auto. intros ->. apply Hl. left. auto.
            -- intros [H1 H2]. assert (Hd : downward ch root l).
               { eapply (downward_ext (fun _ => True)); [auto| |apply H2]. intros p c _ Hc. split; auto. apply CK in Hc. tauto. }
               split; auto. intros [H3 H4]. destruct (exists_last H1) as (l' & y & ->). rewrite last_snoc in H4. subst y.
               apply downward_app in H2. destruct H2 as [_ [H2 _]]. apply CK in H2. tauto.
          * intros Ho x p1 q1 H1 H2. apply CK in H1. apply CK in H2. apply (gb_one _ _ _ _ _ G Ho x); tauto.
    Qed.

    Record hpost (s : ft) : Prop := {
      hp_base : base r root fl (fun _ => True) s;
      hp_filters : filters s = filters s0;
      hp_disp : forall x, is_displayed s x = negb (String.eqb x n) && is_displayed s0 x;
      hp_pars : forall x, D x = true -> pars s x = sp x
    }.

    Lemma update_hide : forall fuel dir, B + 3 <= fuel -> fwp (update_node fuel n dir) (fun _ s' => hpost s') s0.
    Proof.
      intros fuel dir Hf. destruct fuel as [|fuel]; [lia|].
      change (fwp (update_body ord T D (update_node fuel) n dir) (fun _ s' => hpost s') s0).
      unfold update_body. apply fwp_bind. apply fwp_get. rewrite (gb_root _ _ _ _ _ G0). deq n root; [destruct (h_n H); auto|].
      rewrite (h_disp H), (h_D H). unfold update_hidden.
      destruct (gpaths r root (fun _ => True) (kids s0) s0 n G0 (fun _ _ => I) (h_disp H)) as (P & EP & NP & IP).
      apply fwp_bind. unfold paths_of, fwp at 1. rewrite EP.
      destruct (disp_entry s0 n (h_disp H)) as (e & Ee & Ep & Ek).
      apply fwp_bind. apply (fwp_node n e); auto. rewrite Ek. apply fwp_bind.
      eapply fwp_mono; [apply (fwp_for _ hmid)|].
      { assert (EQ : forall x c, In c (gh [] s0 x) <-> In c (kids s0 x)).
        { intros x c. unfold gh. deq x n; [|tauto]. subst. rewrite filter_In. simpl. tauto. }
        constructor; auto. pose proof G0 as G. constructor.
        - destruct G. constructor; auto.
          + intros p c Hc. apply EQ. auto.
          + intros p c Hc. apply EQ in Hc. auto.
          + intros x p _. rewrite EQ. auto.
          + eapply knows_iff; [|apply gb_knows]. intros l. apply paths_same. intros. symmetry. apply EQ.
          + intros Ho x p1 q1 H1 H2. apply EQ in H1. apply EQ in H2. apply (gb_one Ho x); auto.
        - apply (b_flat _ _ _ _ _ (h_base H)).
        - apply (b_keys _ _ _ _ _ (h_base H)).
        - apply (gb_ch _ _ _ _ _ G).
        - apply (b_ndk _ _ _ _ _ (h_base H)). }
      { intros done c rest s El M. apply (hide_child fuel done c rest s); auto. lia. }
      intros ? s M. cbn beta in M.
      assert (Pn : pars s n = pars s0 n).
      { rewrite (m_pars _ _ M). destruct (mem_spec n (rev (kids s0 n))) as [Hm|]; auto. apply in_rev in Hm.
        apply (gb_ch _ _ _ _ _ G0) in Hm. lia. }
      apply fwp_bind. destruct (disp_entry s n) as (e' & Ee' & Ep' & Ek'); [rewrite (m_disp _ _ M); apply (h_disp H)|].
      apply (fwp_node n e'); auto. rewrite Ep', Pn.
      assert (AS : forall A C (m1 : FM A) (m2 : FM unit) (m3 : FM C) (R : C -> ft -> Prop) s, fwp ((m1 ;; m2) ;; m3) R s -> fwp (m1 ;; m2 ;; m3) R s).
      { intros A C m1 m2 m3 R s1. unfold fwp, fbind. destruct (m1 s1) as [s2 [x| |]]; auto. }
      apply AS. apply fwp_bind. apply (hide_pop s P); auto.
      intros s1 X1 X2 X3 X4 X5 X6 X7 X8 G1.
      set (ch := fun x => remove1 n (kids s1 x)) in *.
      assert (ST : settled_upto T D root fl r B s1).
      { intros x _. rewrite X1. split.
        - intros Dx. rewrite (h_full H x Dx). deq x n; auto. subst. rewrite (h_D H) in Dx. discriminate.
        - deq x n; [discriminate|]. simpl. intros Hx Nr. destruct (h_stale H x Hx) as [|[|Dx]]; try contradiction. auto. }
      assert (KN : forall x, x <> n -> (In n (kids s1 x) <-> In x (pars s0 n))).
      { intros x Nx. rewrite X4 by auto. rewrite (gb_sym _ _ _ _ _ G0) by auto. deq x root.
        - subst x. split; [|apply (m_root _ _ M)]. intros Hx. apply (m_done _ _ M) in Hx. destruct Hx as [|Hx]; auto.
          apply in_rev in Hx. apply (gb_ch _ _ _ _ _ G0) in Hx. lia.
        - rewrite (m_kids _ _ M) by auto. tauto. }
      apply fwp_bind.
      set (J := fun (done : list id) s2 => (forall x, is_displayed s2 x = is_displayed s1 x) /\ filters s2 = filters s1 /\
         (forall x, pars s2 x = pars s1 x) /\ (forall x, kids s2 x = if mem x done then remove1 n (kids s1 x) else kids s1 x) /\
         flat s2 = fl /\ NoDup (dkeys (fnodes s2)) /\ gbase r root (fun _ => True) ch s2).
      assert (JST : forall done s2, J done s2 -> settled_upto T D root fl r B s2).
      { intros done s2 (J1 & J2 & J3 & _) x Hx. rewrite J1, J3. auto. }
      assert (JN : forall done s2 p, J done s2 -> fwp (update_node fuel p Up) (fun _ s3 => J done s3) s2).
      { intros done s2 p J0. pose proof J0 as (J1 & J2 & J3 & J4 & J5 & J6 & J7).
        eapply fwp_mono; [apply (update_noop ord T D root fl r EV fuel p Up ch s2)|].
        - pose proof (HB p). lia.
        - auto.
        - auto.
        - intros x Hx. apply (JST _ _ J0). apply HB.
        - discriminate.
        - intros ? s3 Qs. pose proof (q_like _ _ _ _ _ Qs) as L. unfold J.
          split; [intros; rewrite (like_disp _ _ _ L); auto|]. split; [rewrite (lk_filters _ _ L); auto|].
          split; [intros; rewrite (like_pars _ _ _ L); auto|]. split; [intros; rewrite (like_kids _ _ _ L); auto|].
          split; [rewrite (lk_flat _ _ L); auto|]. split; [rewrite (lk_nodes _ _ L); auto|]. apply Qs. }
      eapply fwp_mono; [apply (fwp_for _ J)|].
      { unfold J. repeat (split; auto). }
      { intros done p rest s2 El J0. pose proof J0 as (J1 & J2 & J3 & J4 & J5 & J6 & J7).
        assert (Hp : In p (pars s0 n)) by (rewrite El; apply in_app_iff; right; left; auto).
        assert (Np : p <> n) by (intros ->; apply (gb_pars _ _ _ _ _ G0) in Hp; lia).
        assert (Nd : ~ In p done).
        { pose proof (gb_ndp _ _ _ _ _ G0 n) as ND. rewrite El in ND. intros Hd. apply (NoDup_app_disj _ _ p ND Hd). left. auto. }
        assert (Kp : In n (kids s2 p)) by (rewrite J4, (proj2 (mem_false _ _) Nd); apply KN; auto).
        apply fwp_bind. unfold children_remove. apply fwp_bind.
        destruct (disp_entry s2 p (kids_disp _ _ _ Kp)) as (ep & Eep & Epp & Ekp). apply (fwp_node p ep); auto.
        rewrite Ekp, (proj2 (mem_In _ _) Kp). apply (fwp_upd p ep); auto. cbn beta. rewrite Ekp. apply JN.
        set (s3 := set_fnodes (dset p (mkF (fpar ep) (remove1 n (kids s2 p))) (fnodes s2)) s2).
        assert (Y1 : forall x, is_displayed s3 x = is_displayed s1 x).
        { intros x. unfold s3. rewrite disp_set, <- J1. deq x p; auto. subst. simpl. symmetry. eapply kids_disp; eauto. }
        assert (Y2 : forall x, pars s3 x = pars s1 x).
        { intros x. unfold s3. rewrite pars_set, <- J3. deq x p; auto. subst. auto. }
        assert (Y3 : forall x, kids s3 x = if mem x (done ++ [p]) then remove1 n (kids s1 x) else kids s1 x).
        { intros x. unfold s3. rewrite kids_set, mem_app. simpl. rewrite orb_false_r. cbn [fchi]. deq x p.
          - subst x. rewrite orb_true_r, J4, (proj2 (mem_false _ _) Nd). auto.
          - rewrite orb_false_r. auto. }
        unfold J. split; auto. split; auto. split; auto. split; auto. split; auto. split; [simpl; apply dset_NoDup; auto|].
        destruct J7. constructor; auto.
        - rewrite Y1, <- J1. auto.
        - rewrite Y2, <- J3. auto.
        - intros x c Hc. rewrite Y3. destruct (mem x (done ++ [p])); auto. eapply remove1_In; eauto.
        - intros x c Hc. rewrite Y1, <- J1. auto.
        - intros x. rewrite Y2, <- J3. auto.
        - intros x q. rewrite Y2, <- J3. auto.
        - intros x q _. rewrite Y2, <- J3. auto. }
      intros ? s2 J0. cbn beta in J0.
      eapply fwp_mono with (Q := fun _ s3 => J (pars s0 n) s3).
      { destruct (has_node T n); [|apply fwp_ret; auto].
        eapply fwp_mono; [apply (fwp_for _ (fun _ s3 => J (pars s0 n) s3))|intros ? ? H1; apply H1]; auto.
        intros done p rest s3 _ J1. apply fwp_bind. apply fwp_get. destruct (is_displayed s3 p); [apply fwp_ret; auto|apply JN; auto]. }
      intros ? s3 (J1 & J2 & J3 & J4 & J5 & J6 & J7).
      assert (EK : forall x c, In c (kids s3 x) <-> In c (ch x)).
      { intros x c. rewrite J4. unfold ch. destruct (mem_spec x (pars s0 n)) as [Hm|Hm]; [tauto|].
        destruct (id_dec x n) as [->|Nx]; [rewrite X8; simpl; tauto|].
        rewrite remove1_notin; [tauto|]. rewrite KN; auto. }
      constructor.
      - constructor; auto.
        + destruct J7. constructor; auto.
          * intros p c Hc. apply EK in Hc. auto.
          * intros x p _. rewrite EK. auto.
          * eapply knows_iff; [|apply gb_knows]. intros l. apply paths_same. intros. symmetry. apply EK.
          * intros Ho x p1 q1 H1 H2. apply EK in H1. apply EK in H2. apply (gb_one Ho x); auto.
        + intros x. rewrite J4. destruct (mem x (pars s0 n)); auto. apply remove1_NoDup; auto.
      - congruence.
      - intros x. rewrite J1. auto.
      - intros x Hx. rewrite J3. auto.
    Qed.
  End Hide.
End Del.
