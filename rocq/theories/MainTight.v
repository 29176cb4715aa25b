(** Ordinary histories: the invariants [reg] and [tight]. *)
From Verif Require Import Base BaseFacts MainTree Spec MainFacts MainInv MainOps MainDel MainRun MainAdd MainEff MainReg MainRegDel.
Open Scope m_scope.

(** Every listed child is in the tree. *)
Definition tight (t : mtree) : Prop := forall p c, In c (childs t p) -> has_node t c = true.

Lemma reg_empty : reg empty_tree.
Proof.
  constructor; try reflexivity.
  - apply good_empty.
  - intros x nd E. discriminate.
  - split; [constructor|]. split; [intros x []|]. intros x _ H. discriminate.
Qed.

Lemma tight_nodes : forall t t', nodes t' = nodes t -> tight t -> tight t'.
Proof. intros t t' E H p c Hc. rewrite (childs_nodes t t') in Hc by auto. rewrite (has_node_nodes t t') by auto. eauto. Qed.

Lemma tight_add_edge : forall p c t, has_node t p = true -> has_node t c = true -> tight t -> tight (add_edge p c t).
Proof.
  intros p c t Hp Hc H q d Hd. rewrite has_node_add_edge. rewrite childs_add_edge in Hd by auto.
  destruct (_ && _); eauto. apply in_app_iff in Hd. destruct Hd as [Hd|[Hd|[]]]; eauto. subst; auto.
Qed.

Lemma tight_del_edge : forall p c t, tight t -> tight (del_edge p c t).
Proof.
  intros p c t H q d Hd. rewrite has_node_del_edge. rewrite childs_del_edge in Hd.
  destruct (String.eqb q p); eauto. apply remove1_In in Hd. eauto.
Qed.

Lemma tight_atom : forall t t' es, atom t t' es -> tight t -> tight t'.
Proof.
  intros t t' es H T. inv H; auto.
  - eapply tight_nodes; eauto.
  - intros p c. rewrite has_node_upd. unfold childs. rewrite dget_upd. deq p n; [subst|apply T].
    pose proof (T n c) as HT. unfold childs in HT. destruct (dget n (nodes t)); auto.
  - eapply tight_nodes; [eassumption|]. apply tight_add_edge; auto.
  - eapply tight_nodes; [eassumption|]. apply tight_del_edge; auto.
Qed.

Lemma tight_atoms : forall t t' es, atoms t t' es -> tight t -> tight t'.
Proof. intros t t' es H. induction H; auto. intros. eapply tight_atom; eauto. Qed.

Lemma tight_grown : forall n t t', grown n t t' -> tight t -> tight t'.
Proof.
  intros n t t' H. induction H; intros T.
  - destruct H as [E _]. eapply tight_nodes; eauto.
  - destruct H4 as [E _]. eapply tight_nodes; [apply E|]. apply tight_add_edge; auto;
      rewrite (grown_has n t t1); auto.
Qed.

Lemma tight_add : forall n nd po t, reg t -> tight t -> app_node n nd ->
  outcome (AddNode n nd po) t = Ok tt -> tight (after (AddNode n nd po) t).
Proof.
  intros n nd po t R T An HO. destruct (has_node t n) eqn:Hn.
  { unfold after. cbn [run_op]. unfold add_node. rewrite bind_get, Hn. auto. }
  assert (Hu : true = true -> forall q, ~ In n (childs t q)) by (intros _ q Hq; apply T in Hq; congruence).
  destruct (add_node_spec true n nd po t (r_good _ R) Hn An Hu) as (t3 & es & r & tg & E & G3 & Gg & Gr & En & _).
  unfold after. cbn [run_op]. rewrite E. cbn [fst]. eapply tight_nodes; [apply En|]. eapply tight_grown; [apply Gr|].
  destruct (app_node_facts _ _ An) as (_ & Ec & _).
  intros p c. unfold put, childs, has_node, dmem. simpl. rewrite !dget_dset.
  deq p n.
  - simpl. rewrite Ec. intros [].
  - intros Hc. deq c n; auto. apply (T p c). unfold childs. auto.
Qed.

Lemma evens_short : forall l, length l <= 1 -> evens l = l.
Proof. intros [|x [|y l]]; simpl; intros; auto. lia. Qed.

Lemma tight_detached : forall s n t, good s t -> tight t -> tight (detached n t).
Proof.
  intros s n t G T p c Hc. rewrite has_node_detached. eapply T. eapply frame_childs_In; [eapply frame_detached; eauto|eauto].
Qed.

Lemma unlisted_detached : forall n t, good true t -> has_node t "" = false -> has_node t n = true ->
  length (parents t n) <= 1 -> forall p, ~ In n (childs (detached n t) p).
Proof.
  intros n t G He Hn H1 p Hp. assert (Hl : In p (parents (detached n t) n)).
  { apply listed_parent; auto.
    - apply good_detached; auto.
    - rewrite has_node_detached; auto.
    - rewrite has_node_detached; auto. }
  rewrite (parents_detached_self true) in Hl by auto. destruct (parents t n) as [|x [|y l]]; simpl in *; try tauto. lia.
Qed.

Lemma tight_pop : forall n t, NoDup (dkeys (nodes t)) -> tight t -> (forall p, ~ In n (childs t p)) -> tight (without n t).
Proof.
  intros n t ND T Hu p c. rewrite childs_without, has_node_without by auto. destruct (String.eqb p n); [intros []|].
  intros Hc. rewrite (T _ _ Hc). deq c n; auto. subst. exfalso. eapply Hu; eauto.
Qed.

Lemma tight_remove_rec : forall f n t, good true t -> has_node t "" = false -> tight t ->
  (forall x, anc t n x -> length (parents t x) <= 1) ->
  wp (remove_node f n true) (fun t' _ r => r = Ok tt -> tight t') t.
Proof.
  induction f as [|f IH]; intros n t G He T HS; (destruct (has_node t n) eqn:Hn;
    [|unfold wp; cbn [remove_node]; rewrite bind_get, Hn; auto]);
    unfold wp; rewrite (remove_node_unfold true) by auto; unfold prefix; cbn [fst snd].
  - discriminate.
  - assert (HL : forall l t1, good true t1 -> frame t t1 -> tight t1 -> (forall p, ~ In n (childs t1 p)) ->
       (forall c, In c l -> In c (childs t n)) ->
       wp (for_each l (fun c => remove_node f c true))
          (fun t' _ r => r = Ok tt -> tight t' /\ (forall p, ~ In n (childs t' p)) /\ NoDup (dkeys (nodes t'))) t1).
    { induction l as [|c l IHl]; intros t1 G1 F1 T1 U1 Hl.
      - apply wp_ret. intros _. split; auto. split; auto. apply (ok_keys _ (g_ok _ _ _ G1)).
      - simpl.
        assert (He1 : has_node t1 "" = false).
        { destruct (has_node t1 "") eqn:E1; auto. apply (frame_has _ _ _ F1) in E1. congruence. }
        assert (HS1 : forall x, anc t1 c x -> length (parents t1 x) <= 1).
        { intros x Hx. destruct (has_node t1 x) eqn:Lx.
          - assert (Hc : has_node t1 c = true).
            { destruct (id_dec x c) as [->|Hne]; auto. clear -Hx Hne G1. induction Hx; [congruence|].
              destruct (id_dec p c) as [->|]; [|auto]. apply (ok_sym _ (g_ok _ _ _ G1) _ _ H). }
            assert (A : anc t n x).
            { apply anc_trans with (b := c).
              - apply anc_step with (p := n); [|apply anc_refl]. apply listed_parent; auto. eapply frame_has; eauto.
              - eapply anc_incl; [|apply Hx]. intros; eapply frame_parents_In; eauto. }
            assert (NoDup (parents t1 x)) by apply (ok_ndp _ (g_ok _ _ _ G1)).
            specialize (HS x A). pose proof (NoDup_incl_length H (fun p Hp => frame_parents_In t t1 x p F1 Hp)). lia.
          - unfold parents. unfold has_node, dmem in Lx. destruct (dget x (nodes t1)); [discriminate|simpl; lia]. }
        pose proof (IH c t1 G1 He1 T1 HS1) as H1. pose proof (remove_node_rec_rm true f c t1 G1) as H2.
        pose proof (framed_remove_node f c true t1 (ok_keys _ (g_ok _ _ _ G1))) as H3. unfold wp, bind in *.
        destruct (remove_node f c true t1) as [[t2 e2] r2]. simpl in *. destruct r2 as [[]|e3|]; simpl; try discriminate.
        destruct H3 as (_ & F2 & _).
        assert (U2 : forall p, ~ In n (childs t2 p)) by (intros p Hp; eapply U1; eapply frame_childs_In; eauto).
        specialize (IHl t2 (proj1 H2) (frame_trans _ _ _ F1 F2) (H1 eq_refl) U2 (fun d Hd => Hl d (or_intror Hd))).
        destruct (for_each l _ t2) as [[t3 e3] r3]; auto. }
    specialize (HL (childs t n) (detached n t) (good_detached _ _ _ G) (frame_detached _ _ _ G) (tight_detached _ _ _ G T)
      (unlisted_detached n t G He Hn (HS n (anc_refl _ _))) (fun c Hc => Hc)).
    unfold wp in HL. unfold children_part, bind. destruct (for_each (childs t n) _ (detached n t)) as [[t1 e1] r1]. simpl in HL.
    destruct r1 as [[]|e0|]; simpl; try discriminate. destruct (HL eq_refl) as (T1 & U1 & N1).
    destruct (has_node t1 n) eqn:Hn1.
    + rewrite tail_Ok by auto. simpl. intros _. apply tight_pop; auto.
    + rewrite tail_Err by auto. simpl. discriminate.
Qed.

Lemma del_one_ok : forall n t, reg t -> tight t -> outcome (DelNode n false) t = Ok tt.
Proof.
  intros n t R T. unfold outcome. cbn [run_op]. destruct (has_node t n) eqn:Hn.
  - rewrite (del_one true n t (r_good _ R) Hn); [reflexivity|]. intros c Hc. eapply T; eauto.
  - rewrite del_dead by auto. auto.
Qed.

Lemma frame_shed : forall n l t, frame t (shed n l t).
Proof.
  induction l; simpl; intros; [apply frame_refl|]. eapply frame_trans; [|apply IHl].
  eapply frame_trans; [apply (frame_del_edge n a)|]. apply frame_nodes. apply nodes_shed1.
Qed.

Lemma tight_del : forall n b t, reg t -> tight t -> single t (DelNode n b) -> tight (after (DelNode n b) t).
Proof.
  intros n b t R T HS. pose proof (r_good _ R) as G. destruct b.
  - pose proof (del_rec_ok n t G (r_empty _ R)) as HO. unfold after, outcome in *. cbn [run_op] in *.
    unfold del_node in *. rewrite bind_get in *. apply (tight_remove_rec (remove_budget t) n t G (r_empty _ R) T HS HO).
  - destruct (has_node t n) eqn:Hn.
    2:{ unfold after. cbn [run_op]. rewrite del_dead by auto. auto. }
    unfold after. cbn [run_op]. rewrite (del_one true n t G Hn) by (intros c Hc; eapply T; eauto). cbn [fst].
    pose proof (tight_detached _ n _ G T) as TD. unfold shedded.
    assert (F : frame (detached n t) (shed n (childs t n) (detached n t))) by apply frame_shed.
    apply tight_pop.
    + rewrite dkeys_shed, dkeys_detached. apply (ok_keys _ (reg_ok _ R)).
    + intros p c Hc. rewrite has_node_shed. eapply TD. eapply frame_childs_In; eauto.
    + intros p Hp. apply (unlisted_detached n t G (r_empty _ R) Hn HS p). eapply frame_childs_In; eauto.
Qed.

(** Histories. *)
Lemma reg_ordinary : forall o t, ordinary o = true -> reg t ->
  reg (after o t) /\ atoms t (after o t) (events o t).
Proof.
  intros o t Ho R. pose proof (steps_run_op o Ho t R) as H. unfold wp in H. split; auto. eapply reg_atoms; eauto.
Qed.

Lemma ordinary_cases : forall o, no_flags o ->
  ordinary o = true \/ (exists n nd p, o = AddNode n nd p) \/ (exists n b, o = DelNode n b).
Proof. intros [] H; simpl in *; eauto 6; tauto. Qed.

Lemma reg_calm : forall o t, calm t o -> reg t -> reg (after o t).
Proof.
  intros o t (P & F & U & S) R. destruct (ordinary_cases o F) as [Ho|[(n & nd & p & ->)|(n & b & ->)]].
  - apply reg_ordinary; auto.
  - destruct P as (An & P1 & P2 & N1 & N2). apply reg_add; auto. split; auto.
  - apply reg_del; auto.
Qed.

Lemma reach_reg : forall t, reach calm t -> reg t.
Proof. intros t H. induction H; [apply reg_empty|apply reg_calm; auto]. Qed.

Lemma tidy_step : forall o t, tidy t o -> reg t -> tight t -> calm t o /\ tight (after o t).
Proof.
  intros o t (P & F & S & A) R T. destruct (ordinary_cases o F) as [Ho|[(n & nd & p & ->)|(n & b & ->)]].
  - split.
    + split; auto. split; auto. destruct o; try discriminate; split; exact I.
    + eapply tight_atoms; [apply (reg_ordinary o t Ho R)|auto].
  - destruct P as (An & P1 & P2 & N1 & N2). split.
    + split; [split; auto|]. split; auto. split; auto. intros Hn q Hq. apply T in Hq. congruence.
    + apply tight_add; auto.
  - split.
    + split; auto. split; auto. split; [exact I|]. destruct b; [apply del_rec_ok; apply R|apply del_one_ok; auto].
    + apply tight_del; auto.
Qed.

Lemma reach_tidy : forall t, reach tidy t -> reg t /\ tight t.
Proof.
  intros t H. induction H.
  - split; [apply reg_empty|]. intros p c [].
  - destruct IHreach as [R T]. destruct (tidy_step o t H0 R T) as [C T']. split; auto. apply reg_calm; auto.
Qed.

Lemma reach_tidy_calm : forall t, reach tidy t -> reach calm t.
Proof.
  intros t H. induction H; [apply reach_start|]. apply reach_call; auto.
  destruct (reach_tidy t H) as [R T]. apply (tidy_step o t H0 R T).
Qed.
