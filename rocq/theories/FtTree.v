(** Views: what the snapshots of the main tree give to the update of a view, and
    rebuilding a view from nothing. *)
From Coq Require Import Permutation.
From Verif Require Import Base BaseFacts MainTree Spec MainFacts MainInv MainOps MainReg Filters FTree SpecView FtBase FtWalk FtEdge FtUp FtFront FtDown FtNoop FtDel FtSync.
Open Scope f_scope.

(** As [reg], without the requirement on the children of the root. *)
Record vreg (t : mtree) : Prop := {
  v_good : good true t;
  v_flags : flags_on t;
  v_empty : has_node t "" = false;
  v_main : has_node t main_root = false
}.

Lemma reg_vreg : forall t, reg t -> vreg t.
Proof. intros t []. constructor; auto. Qed.
Lemma vreg_ok : forall t, vreg t -> ok t.
Proof. intros t V. apply (g_ok _ _ _ (v_good _ V)). Qed.
Lemma vreg_parents : forall t x, vreg t -> get_parents t x = parents t x.
Proof. intros t x V. apply get_parents_reg; [apply vreg_ok; auto|apply V]. Qed.
Lemma vreg_live : forall t p x, vreg t -> In p (parents t x) -> has_node t p = true.
Proof. intros t p x V H. apply (ok_sym _ (vreg_ok _ V)) in H. tauto. Qed.

Lemma vreg_sym : forall t p c, vreg t -> has_node t c = true -> (In c (get_children t p) <-> In p (get_parents t c)).
Proof.
  intros t p c V Hc. rewrite vreg_parents by auto. rewrite get_children_reg by apply V. rewrite filter_In. split.
  - intros [H _]. destruct (In_dec_id p (parents t c)) as [|N]; auto. exfalso.
    pose proof (In_childs_live _ _ _ H) as Hp.
    assert (Hne : forall x, has_node t x = true -> x <> "" /\ x <> main_root).
    { intros x Hx. split; intro; subst; [rewrite (v_empty _ V) in Hx|rewrite (v_main _ V) in Hx]; discriminate. }
    destruct (Hne p Hp). destruct (Hne c Hc). destruct (g_imp _ _ _ (v_good _ V) p c) as [E _]; auto. discriminate.
  - intros H. split; auto. apply (ok_sym _ (vreg_ok _ V)). auto.
Qed.

(** A rank for the relations of a tree and the root of a view. *)
Definition ranks (t : mtree) (root : id) (r : id -> nat) : Prop :=
  (forall x p, In p (parents t x) -> r p < r x) /\ forall x, x <> root -> r root < r x.

Lemma ranks_exist : forall t root, ok t -> has_node t root = false -> exists r, ranks t root r.
Proof.
  intros t root O Hr. destruct (ok_rank _ O) as [r HR]. exists (fun x => if String.eqb x root then 0 else S (r x)). split.
  - intros x p Hp. pose proof (In_parents_live _ _ _ Hp) as Hx. pose proof (proj1 (ok_sym _ O _ _ Hp)) as Hl.
    deq x root; [subst; congruence|]. deq p root; [lia|]. specialize (HR _ _ Hp). lia.
  - intros x Hx. rewrite eqb_refl, (proj2 (eqb_neq x root)) by auto. lia.
Qed.

(** No node has two parents. *)
Definition lone_tree (t : mtree) : Prop := forall x p q, In p (parents t x) -> In q (parents t x) -> p = q.

Lemma vreg_env : forall {EAR : Ear} ord t D root fl r, vreg t -> (forall k l, Permutation (ord k l) l) -> ranks t root r ->
  has_node t root = false -> (forall x, D x = true -> has_node t x = true /\ fine x) ->
  (forall st n m, (D n = true -> ~ In (last st root) (sp t D root fl n)) -> ear_gone (st ++ n :: m)) ->
  (ear_one -> lone_tree t) -> env ord t D root fl r.
Proof.
  intros EAR ord t D root fl r V HO [HR H0] Hr HD HG Hone. constructor; auto.
  - intros x Hx. apply HD. auto.
  - destruct (D root) eqn:E; auto. apply HD in E. destruct E. congruence.
  - rewrite vreg_parents by auto. unfold parents. unfold has_node, dmem in Hr. destruct (dget root (nodes t)); [discriminate|auto].
  - intros x. rewrite vreg_parents by auto. apply (ok_ndp _ (vreg_ok _ V)).
  - intros x p. rewrite vreg_parents by auto. auto.
  - intros Ho x p q. rewrite vreg_parents by auto. apply (Hone Ho).
Qed.

Lemma vreg_Hsym : forall t (D : id -> bool), vreg t -> (forall x, D x = true -> has_node t x = true) ->
  forall p c, D c = true -> (In c (get_children t p) <-> In p (get_parents t c)).
Proof. intros t D V HD p c Dc. apply vreg_sym; auto. Qed.

Lemma vreg_Hlive : forall t, vreg t -> forall p c, In p (get_parents t c) -> has_node t p = true.
Proof. intros t V p c H. rewrite vreg_parents in H by auto. eapply vreg_live; eauto. Qed.

Lemma weight_bound' : forall n k, k <= S n -> (S n) ^ k < 2 ^ (walk_budget n).
Proof.
  intros. unfold walk_budget.
  assert (S n <= 2 ^ n) by (clear; induction n; simpl; lia).
  assert (S n ^ k <= (2 ^ n) ^ k) by (apply Nat.pow_le_mono_l; auto).
  rewrite <- Nat.pow_mul_r in H1.
  eapply Nat.le_lt_trans; [apply H1|]. apply Nat.pow_lt_mono_r; nia.
Qed.

(** *** Removing everything *)
Section Clear.
  Context {EAR : Ear}.
  Variable r : id -> nat.
  Variable root : id.

  Hypothesis HG : forall q, ear_gone q.

  Lemma clear_all : forall fl s, base r root fl (fun _ => True) s ->
    fwp (e <- fnode_at (froot s) ;; ffor (rev (fchi e)) (fun c => send_remove_tree c (froot s)))
        (fun _ s' => like s s' /\ knows s' (fun _ => False)) s.
  Proof.
    intros fl s Hb. pose proof (b_g _ _ _ _ _ Hb) as G. rewrite (gb_root _ _ _ _ _ G).
    destruct (disp_entry s root (gb_disp _ _ _ _ _ G)) as (e & Ee & _ & Ek).
    apply fwp_bind. apply (fwp_node root e); auto. rewrite Ek.
    set (ch := fun done x => if String.eqb x root then filter (fun c => negb (mem c done)) (kids s root) else kids s x).
    assert (ND : NoDup (rev (kids s root))) by (apply NoDup_rev; apply (b_ndk _ _ _ _ _ Hb)).
    assert (GB : forall done s1, like s s1 -> knows s1 (paths (ch done) root) -> gbase r root (fun x => r x <= r root) (ch done) s1).
    { intros done s1 L K. constructor.
      - rewrite (lk_root _ _ L). apply (gb_root _ _ _ _ _ G).
      - rewrite (like_disp _ _ _ L). apply (gb_disp _ _ _ _ _ G).
      - rewrite (like_pars _ _ _ L). apply (gb_top _ _ _ _ _ G).
      - intros p c. rewrite (like_kids _ _ _ L). unfold ch. deq p root; auto. subst. rewrite filter_In. tauto.
      - intros p c Hc. rewrite (like_disp _ _ _ L). apply (gb_ch _ _ _ _ _ G). unfold ch in Hc. deq p root; auto. subst. apply filter_In in Hc. tauto.
      - intros x. rewrite (like_pars _ _ _ L). apply (gb_ndp _ _ _ _ _ G).
      - intros x p. rewrite (like_pars _ _ _ L). apply (gb_pars _ _ _ _ _ G).
      - intros x p Hx. rewrite (like_pars _ _ _ L), (gb_sym _ _ _ _ _ G) by auto. unfold ch. deq p root; [|tauto]. subst.
        rewrite filter_In. split; [|tauto]. intros Hc. apply (gb_ch _ _ _ _ _ G) in Hc. lia.
      - auto.
      - intros Ho. assert (Su : forall x p, In x (ch done p) -> In x (kids s p)) by (intros x p; unfold ch; deq p root; auto; subst; rewrite filter_In; tauto).
        intros x p1 q1 H1 H2. apply (gb_one _ _ _ _ _ G Ho x); auto. }
    eapply fwp_mono; [apply (fwp_for _ (fun done s1 => like s s1 /\ knows s1 (paths (ch done) root)))|].
    - split; [constructor; auto|]. eapply knows_iff; [|apply (gb_knows _ _ _ _ _ G)]. intros l. apply paths_same.
      intros x c. unfold ch. deq x root; [|tauto]. subst. rewrite filter_In. simpl. tauto.
    - intros done c rest s1 El [L K]. pose proof (GB done s1 L K) as G1. 
      assert (Hc : In c (kids s root)) by (apply in_rev; rewrite El; apply in_app_iff; right; left; auto).
      assert (Nc : ~ In c done) by (rewrite El in ND; intros Hd; apply (NoDup_app_disj _ _ c ND Hd); left; auto).
      assert (Hch : In c (ch done root)).
      { unfold ch. rewrite eqb_refl. apply filter_In. split; auto. rewrite negb_true_iff. apply mem_false. auto. }
      pose proof (gb_ch _ _ _ _ _ G root c Hc) as [_ Rc].
      eapply fwp_mono; [apply (send_removed r root (fun x => r x <= r root) (ch done) (ch (done ++ [c])) s1 c root)|]; auto.
      + intros x. rewrite (like_kids _ _ _ L). apply (b_ndk _ _ _ _ _ Hb).
      + intros x y Hx. rewrite (like_kids _ _ _ L). unfold ch. deq x root; auto. subst. lia.
      + intros x y. unfold ch. deq x root; [|intuition congruence]. rewrite !filter_In, !negb_true_iff, !mem_false, in_app_iff. simpl. intuition congruence.
      + intros ? s2 [L2 K2]. split; auto. eapply like_trans; eauto.
    - intros ? s1 [L K]. split; auto. eapply knows_iff; [|apply K]. intros l. cbn beta. split; [|tauto].
      intros [H1 H2]. destruct l as [|x l]; [auto|]. destruct H2 as [H2 _]. unfold ch in H2. rewrite eqb_refl in H2.
      apply filter_In in H2. destruct H2 as [H2 H3]. rewrite negb_true_iff, mem_false in H3. apply H3. apply -> in_rev. auto.
  Qed.
End Clear.

Lemma root_children_reg : forall t, reg t -> root_children t = rootc t.
Proof. intros t R. unfold root_children. apply filter_id. apply (proj1 (proj2 (r_root _ R))). Qed.

(** *** Building everything *)
Section Build.
  Context {EAR : Ear}.
  Variable ord : nat -> list id -> list id.
  Variable T : mtree.
  Variable D : id -> bool.
  Variable root : id.
  Variable fl : bool.
  Variable r : id -> nat.
  Hypothesis HO : forall k l, Permutation (ord k l) l.
  Hypothesis R : reg T.
  Hypothesis HR : ranks T root r.
  Hypothesis Hroot : has_node T root = false.
  Hypothesis HD : forall x, D x = true -> has_node T x = true /\ fine x.
  Hypothesis HG : forall q, ear_gone q.
  Hypothesis HOne : ear_one -> lone_tree T.

  Let V := reg_vreg T R.
  Let EV := vreg_env ord T D root fl r V HO HR Hroot HD (fun st n m _ => HG _) HOne.

  (** [x] is below some node of the queue. *)
  Definition awaited (q : list id) (x : id) : Prop := exists a, In a q /\ anc T a x.

  Record walked (q : list id) (s0 s : ft) : Prop := {
    w_base : base r root fl (fun _ => True) s;
    w_stale : nostale root D s;
    w_closed : forall x, is_displayed s x = true -> closed T D s x;
    w_pars : forall x, is_displayed s x = true -> x <> root -> pars s x = sp T D root fl x;
    w_filters : filters s = filters s0;
    w_live : forall x, In x q -> has_node T x = true;
    w_done : forall x, D x = true -> is_displayed s x = true \/ awaited q x
  }.

  Lemma top_anc : forall x, has_node T x = true -> awaited (rootc T) x.
  Proof.
    intros x. remember (r x) as k eqn:Ek. assert (Hk : r x <= k) by lia. clear Ek. revert x Hk.
    induction k as [k IH] using lt_wf_ind. intros x Hk Hx. destruct (parents T x) as [|p l] eqn:E.
    - exists x. split; [apply (proj2 (proj2 (r_root _ R))); auto|apply anc_refl].
    - assert (Hp : In p (parents T x)) by (rewrite E; left; auto). pose proof (proj1 HR _ _ Hp) as Lt.
      destruct (IH (r p)) with (x := p) as (a & Ha & Hax); auto; [lia|eapply vreg_live; eauto|].
      exists a. split; auto. eapply anc_step; eauto.
  Qed.

  Lemma anc_down : forall a x, has_node T x = true -> anc T a x -> a = x \/ exists c, In c (get_children T a) /\ anc T c x.
  Proof.
    intros a x Hx H. induction H as [|p x Hp H IH]; auto. right. pose proof (vreg_live _ _ _ V Hp) as Hl.
    destruct (IH Hl) as [->|(c & Hc & Ha)].
    - exists x. split; [|apply anc_refl]. apply vreg_sym; auto. rewrite vreg_parents; auto.
    - exists c. split; auto. eapply anc_step; eauto.
  Qed.

  Lemma build_all : forall s0 s, walked (root_children T) s0 s -> exists s',
    (match loop (walk_budget (length (nodes T))) (refilter_step ord T D) (root_children T, s) with
     | Stop x => x | Go (_, s') => (s', Diverge) end) = (s', Ok tt) /\ walked [] s0 s'.
  Proof.
    intros s0 s W0. destruct (bounded_rank T (vreg_ok _ V)) as (rk & HRk & HBk). set (b := length (nodes T)) in *.
    set (g := fun x => b - rk x). set (mu := fun z : list id * ft => sum (fun y => (S b) ^ (g y)) (fst z)).
    assert (ST : forall q s1, walked q s0 s1 -> match q with
      | [] => refilter_step ord T D (q, s1) = Stop (s1, Ok tt)
      | n :: rest => exists s2, refilter_step ord T D (q, s1) = Go (rest ++ get_children T n, s2) /\ walked (rest ++ get_children T n) s0 s2
      end).
    { intros [|n rest] s1 W; [reflexivity|]. unfold refilter_step.
      assert (Hn : has_node T n = true) by (apply (w_live _ _ _ W); left; auto).
      pose proof (ev_down0 ord T D root fl r EV (vreg_Hsym T D V (fun x H => proj1 (HD x H))) (vreg_Hlive T V) n s1) as U.
      assert (P : dpre T D root fl r n s1).
      { destruct W. constructor; auto. intros x a Hx Ha Da. left. eapply w_closed0; eauto. }
      specialize (U P). unfold fwp in U. destruct (update ord T D n Both s1) as [s2 [[]| |]]; try contradiction.
      unfold has_node, dmem in Hn. destruct (dget n (nodes T)) as [nd|] eqn:En; [|discriminate].
      exists s2. split; auto. destruct U, W. constructor; auto.
      - intros x Hx Nx. destruct (is_displayed s1 x) eqn:Dx.
        + destruct (ev_keep _ _ _ _ _ _ do_ev x Dx) as [_ [->| ->]]; auto.
        + apply (ev_new _ _ _ _ _ _ do_ev); auto.
      - rewrite <- w_filters0. apply (ev_filters _ _ _ _ _ _ do_ev).
      - intros x Hx. apply in_app_iff in Hx. destruct Hx as [Hx|Hx]; [apply w_live0; right; auto|].
        rewrite get_children_reg in Hx by apply R. apply filter_In in Hx. tauto.
      - intros x Dx. destruct (w_done0 x Dx) as [E|(a & Ha & Hax)].
        + left. apply (ev_keep _ _ _ _ _ _ do_ev x E).
        + destruct Ha as [<-|Ha].
          * apply anc_down in Hax; [|apply HD; auto]. destruct Hax as [<-|(c & Hc & Hcx)]; [left; apply do_sync; auto|].
            right. exists c. split; auto. apply in_app_iff. auto.
          * right. exists a. split; auto. apply in_app_iff. auto. }
    assert (CH : forall n, sum (fun y => S b ^ g y) (get_children T n) < S b ^ g n).
    { intros n. apply weight_dec.
      - rewrite get_children_reg by apply R. unfold b. rewrite <- dkeys_length. apply NoDup_incl_length.
        + apply filter_NoDup. apply (ok_ndc _ (vreg_ok _ V)).
        + intros y Hy. apply filter_In in Hy. apply has_node_In. tauto.
      - intros y Hy. rewrite get_children_reg in Hy by apply R. apply filter_In in Hy. destruct Hy as [Hy Hl].
        apply (reg_sym T n y R) in Hy; auto. apply HRk in Hy. pose proof (HBk y). unfold g. lia. }
    destruct (loop_total (refilter_step ord T D) (fun z => walked (fst z) s0 (snd z)) mu) with (k := walk_budget b) (s := (root_children T, s))
      as ([q s'] & res & E & Is & Es).
    - intros [q s1] z' W E. cbn [fst snd] in W. specialize (ST q s1 W). destruct q as [|n rest]; [rewrite ST in E; discriminate|].
      destruct ST as (s2 & E2 & W2). rewrite E2 in E. inv E. split; auto. unfold mu. simpl. rewrite sum_app. specialize (CH n). lia.
    - auto.
    - unfold mu. cbn [fst]. eapply Nat.le_lt_trans; [|apply (weight_bound' b (S b)); auto].
      assert (HL : length (root_children T) <= b).
      { rewrite (root_children_reg _ R). unfold b. rewrite <- dkeys_length. apply NoDup_incl_length; [apply (r_root _ R)|].
        intros y Hy. apply has_node_In. apply (proj1 (proj2 (r_root _ R))). auto. }
      pose proof (sum_le (fun y => S b ^ g y) (root_children T) (S b ^ b)) as SL.
      assert (SL' : sum (fun y => S b ^ g y) (root_children T) <= length (root_children T) * S b ^ b).
      { apply SL. intros y _. apply Nat.pow_le_mono_r; [lia|unfold g; lia]. }
      eapply Nat.le_trans; [apply SL'|]. rewrite Nat.pow_succ_r'. nia.
    - rewrite E. cbn [fst snd] in Is. specialize (ST q s' Is). destruct q as [|n rest].
      + rewrite ST in Es. inv Es. eauto.
      + destruct ST as (s2 & E2 & _). rewrite E2 in Es. discriminate.
  Qed.

  Lemma rebuild_sync : forall r0 fl0 s, base r0 root fl0 (fun _ => True) s ->
    fwp (rebuild ord T D) (fun _ s' => insync T D root fl r (fun _ => False) s' /\ filters s' = filters s) (set_flat fl s).
  Proof.
    intros r0 fl0 s Hb. unfold rebuild. apply fwp_bind. apply fwp_get.
    set (s1 := set_flat fl s).
    assert (Hb1 : base r0 root fl (fun _ => True) s1) by (destruct Hb as [[] ? ? ?]; constructor; auto; constructor; auto).
    pose proof (clear_all r0 root HG fl s1 Hb1) as C.
    assert (AS : forall A B C (m1 : FM A) (m2 : A -> FM B) (m3 : FM C) (Q : C -> ft -> Prop) s, fwp ((x <- m1 ;; m2 x) ;; m3) Q s -> fwp (x <- m1 ;; m2 x ;; m3) Q s).
    { intros A B C0 m1 m2 m3 Q z. unfold fwp, fbind. destruct (m1 z) as [z1 [x| |]]; auto. }
    apply AS. apply fwp_bind. eapply fwp_mono; [apply C|]. intros ? s2 [L K]. apply fwp_bind. apply fwp_modify.
    pose proof (b_g _ _ _ _ _ Hb1) as G. rewrite (lk_root _ _ L), (gb_root _ _ _ _ _ G).
    set (s3 := set_fnodes [(root, mkF [] [])] s2).
    assert (Kd : forall x, kids s3 x = []) by (intros x; unfold kids, s3; simpl; deq x root; auto).
    assert (Pd : forall x, pars s3 x = []) by (intros x; unfold pars, s3; simpl; deq x root; auto).
    assert (Dd : forall x, is_displayed s3 x = String.eqb x root) by (intros x; unfold is_displayed, dmem, s3; simpl; deq x root; auto).
    destruct (build_all s s3) as (s' & E & W).
    - constructor.
      + constructor.
        * constructor.
          -- unfold s3. simpl. rewrite (lk_root _ _ L). apply (gb_root _ _ _ _ _ G).
          -- rewrite Dd. apply eqb_refl.
          -- apply Pd.
          -- auto.
          -- intros p c. rewrite Kd. intros [].
          -- intros x. rewrite Pd. constructor.
          -- intros x p. rewrite Pd. intros [].
          -- intros x p _. rewrite Pd, Kd. simpl. tauto.
          -- eapply knows_sent; [|eapply knows_iff; [|apply K]]; auto. intros l. unfold paths. split; [tauto|].
             intros [H1 H2]. destruct l as [|x l]; [auto|]. destruct H2 as [H2 _]. rewrite Kd in H2. destruct H2.
          -- intros _ x p1 q1. rewrite Kd. intros [].
        * unfold s3. simpl. repeat constructor. simpl. tauto.
        * unfold s3. simpl. rewrite (lk_flat _ _ L). auto.
        * intros x. rewrite Kd. constructor.
      + intros x. rewrite Dd. intros Hx. left. apply eqb_eq. auto.
      + intros x. rewrite Dd. intros Hx. apply eqb_eq in Hx. subst x. intros z Hz Da. inv Hz; [rewrite (e_root _ _ _ _ _ _ EV) in Da; discriminate|].
        rewrite (e_top _ _ _ _ _ _ EV) in H. destruct H.
      + intros x. rewrite Dd. intros Hx Nx. apply eqb_eq in Hx. contradiction.
      + unfold s3. simpl. rewrite (lk_filters _ _ L). auto.
      + rewrite (root_children_reg _ R). apply (proj1 (proj2 (r_root _ R))).
      + intros x Dx. right. rewrite (root_children_reg _ R). apply top_anc. apply HD. auto.
    - unfold fwp. rewrite E. destruct W. split; auto. constructor; auto.
      + intros x Dx. destruct (w_done0 x Dx) as [|(z & [] & _)]; auto.
      + intros x Dx _. apply w_pars0; [|apply (D_root ord T D root fl r EV); auto].
        destruct (w_done0 x Dx) as [|(z & [] & _)]; auto.
  Qed.
End Build.
