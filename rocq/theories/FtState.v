(** Views: sending the whole state to a client. *)
From Coq Require Import Permutation.
From Verif Require Import Base BaseFacts MainTree MainFacts Filters FTree SpecView SpecViewing FtBase FtWalk FtEdge FtUp FtDel FtSent FtKeep.
Open Scope f_scope.

(** *** Everything is sent *)
Lemma state_all : forall {EAR : Ear} s, sound s -> (forall x, x <> froot s -> is_displayed s x = true -> fine x) -> (ear_one -> lone_ch (kids s)) -> knows s (fun _ => False) ->
  fwp get_current_state (fun _ s' => like s s' /\ knows s' (paths (kids s) (froot s))) s.
Proof.
  intros EAR s So Pr Lo K0. destruct So as [Kd Rd Td Sy Np Nk (r & Hr)]. set (root := froot s) in *.
  unfold get_current_state. apply fwp_bind. apply fwp_get.
  destruct (disp_entry s root Rd) as (e & Ee & _ & Ek). fold root.
  apply fwp_bind. apply (fwp_node root e); auto. rewrite Ek.
  set (ch := fun done x => if String.eqb x root then done else kids s x).
  assert (Su : forall done x p, incl done (kids s root) -> In x (ch done p) -> In x (kids s p)) by (intros done x p Hi; unfold ch; deq p root; auto; subst; auto).
  assert (GB : forall done s1, incl done (kids s root) -> like s s1 -> knows s1 (paths (ch done) root) -> gbase r root (fun x => r x <= r root) (ch done) s1).
  { intros done s1 I L K. constructor.
    - rewrite (lk_root _ _ L). auto.
    - rewrite (like_disp _ _ _ L). auto.
    - rewrite (like_pars _ _ _ L). auto.
    - intros p c. rewrite (like_kids _ _ _ L). unfold ch. deq p root; auto. subst. auto.
    - intros p c Hc. rewrite (like_disp _ _ _ L). assert (Hk : In c (kids s p)) by (unfold ch in Hc; deq p root; auto; subst; auto).
      split; auto. apply Sy in Hk. eapply pars_disp; eauto.
    - intros x. rewrite (like_pars _ _ _ L). auto.
    - intros x p. rewrite (like_pars _ _ _ L). intros H. apply Hr. apply Sy. auto.
    - intros x p Hx. rewrite (like_pars _ _ _ L), <- Sy. unfold ch. deq p root; [|tauto]. subst. split; [|auto].
      intros Hc. apply Hr in Hc. lia.
    - auto.
    - intros Ho x p1 q1 H1 H2. apply (Lo Ho x); eapply Su; eauto. }
  eapply fwp_mono; [apply (fwp_for _ (fun done s1 => like s s1 /\ knows s1 (paths (ch done) root)))|].
  - split; auto. eapply knows_iff; [|apply K0]. intros l. split; [tauto|]. intros [H1 H2]. destruct l as [|x l]; [auto|].
    destruct H2 as [H2 _]. unfold ch in H2. rewrite eqb_refl in H2. destruct H2.
  - intros done c rest s1 El [L K].
    assert (I : incl (done ++ [c]) (kids s root)) by (rewrite El; intros y; rewrite !in_app_iff; simpl; tauto).
    assert (I0 : incl done (kids s root)) by (intros y Hy; apply I; apply in_app_iff; auto).
    pose proof (GB done s1 I0 L K) as G1.
    assert (Hc : In c (kids s root)) by (apply I; apply in_app_iff; right; left; auto).
    assert (Nc : ~ In c done) by (pose proof (Nk root) as ND; rewrite El in ND; intros Hd; apply (NoDup_app_disj _ _ c ND Hd); left; auto).
    pose proof (Hr root c Hc) as Rc.
    eapply fwp_mono; [apply (send_added r root (fun x => r x <= r root) (ch (done ++ [c])) (ch done) s1 c root)|]; auto.
    + rewrite (like_disp _ _ _ L). apply Sy in Hc. eapply pars_disp; eauto.
    + intros x. rewrite (like_kids _ _ _ L). auto.
    + intros x y Hx. rewrite (like_kids _ _ _ L). unfold ch. deq x root; auto. subst. lia.
    + intros x. rewrite (like_disp _ _ _ L). intros Hx Hn. apply Pr; auto. fold root. intros ->. destruct Hn as [Hn|Hn]; [subst c|]; lia.
    + rewrite (like_kids _ _ _ L). auto.
    + unfold ch. rewrite eqb_refl. apply in_app_iff. right. left. auto.
    + intros x y. unfold ch. deq x root; [|intuition congruence]. rewrite in_app_iff. simpl. intuition congruence.
    + intros a y. unfold ch. deq a root; auto. subst. intros Hy. apply Hr. auto.
    + intros Ho x p1 q1 H1 H2. apply (Lo Ho x); [apply (Su (done ++ [c]))|apply (Su (done ++ [c]))]; auto.
    + intros ? s2 [L2 K2]. split; auto. eapply like_trans; eauto.
  - intros ? s1 [L K]. split; auto. eapply knows_iff; [|apply K]. intros l. apply paths_same.
    intros x y. unfold ch. deq x root; [|tauto]. subst. tauto.
Qed.

#[local] Existing Instance any_ear.
Lemma proper_fine : forall s, proper s -> forall x, x <> froot s -> is_displayed s x = true -> fine x.
Proof.
  intros s Pr x Nx Hx. split; [|exact I]. intros Hi. apply (Pr x Hi). unfold view_all_nodes. apply remove1_In_neq; auto.
  apply dmem_In. auto.
Qed.

(** *** Only added signals are sent *)
Definition adds (l : list sig) : Prop := Forall (fun x => match x with SAdded _ _ => True | _ => False end) l.

Definition only (s s' : ft) : Prop := idle s -> fnodes s' = fnodes s /\ runonce s' = runonce s /\ exists l, sent s' = sent s ++ l /\ adds l.

Lemma only_refl : forall s, only s s.
Proof. intros s H. repeat split; auto. exists []. rewrite app_nil_r. split; auto. constructor. Qed.
Lemma idle_same : forall s s', fnodes s' = fnodes s -> runonce s' = runonce s -> idle s -> idle s'.
Proof. intros s s' H1 H2 H n. unfold is_displayed, waiting. rewrite H1, H2. apply H. Qed.
Lemma only_trans : forall a b c, only a b -> only b c -> only a c.
Proof.
  intros a b c H1 H2 H. destruct (H1 H) as (E1 & E2 & l & E3 & Al). destruct (H2 (idle_same _ _ E1 E2 H)) as (F1 & F2 & l' & F3 & Al').
  rewrite F1, F2, F3, E1, E2, E3. repeat split; auto. exists (l ++ l'). rewrite app_assoc. split; auto. apply Forall_app; auto.
Qed.
Lemma only_added : forall n q, keeps only (callback_added n q).
Proof.
  intros n q s. unfold callback_added. destruct (mem n reserved); [apply only_refl|].
  assert (A : only s (send (SAdded n q) s)) by (intros _; simpl; repeat split; exists [SAdded n q]; split; auto; repeat constructor).
  destruct (dget n (runonce s)) as [[|a l]|] eqn:W; cbn [fst]; auto.
  destruct (is_displayed s n) eqn:E; [|apply only_refl]. intros H. apply H in E. unfold waiting in E. rewrite W in E. discriminate.
Qed.
Lemma only_state : keeps only get_current_state.
Proof. apply keeps_state; [apply only_refl|apply only_trans|apply only_added]. Qed.

Lemma adds_hear : forall l cs, hear_all [] l cs -> adds l -> l = map (fun q => SAdded (last q "") q) cs /\
  forall a q n b, cs = a ++ (q ++ [n]) :: b -> q = [] \/ In q a.
Proof.
  intros l cs H. remember [] as c0 eqn:E0. revert E0. induction H as [cs|cs l cs1 x cs2 H1 IH H2]; intros E0 A.
  - subst. split; auto. intros [|] ? ? ? E; discriminate.
  - apply Forall_app in A. destruct A as [A1 A2]. inversion A2 as [|? ? A3 _]; subst. destruct (IH eq_refl A1) as [IL IP]. destruct H2; try (destruct A3; fail).
    split.
    + rewrite map_app. simpl. rewrite last_last. f_equal. exact IL.
    + intros a q' n' b E. destruct b as [|y b] using rev_ind.
      * apply app_inj_tail in E. destruct E as [-> E]. apply app_inj_tail in E. destruct E as [-> ->]. auto.
      * clear IHb. rewrite app_comm_cons, app_assoc in E. apply app_inj_tail in E. destruct E as [-> E]. eapply IP. reflexivity.
Qed.

Definition unsent (s : ft) : ft := mkFT (froot s) (fnodes s) (flat s) (filters s) (runonce s) [] (tick s).
Lemma pre_unsent : forall s, pre (sent s) (unsent s) = s.
Proof. intros []. unfold pre, unsent. simpl. rewrite app_nil_r. auto. Qed.
Lemma sound_same : forall s s', froot s' = froot s -> fnodes s' = fnodes s -> sound s -> sound s'.
Proof.
  intros s s' H1 H2 So. assert (K : forall x, kids s' x = kids s x) by (intros; unfold kids; rewrite H2; auto).
  assert (P : forall x, pars s' x = pars s x) by (intros; unfold pars; rewrite H2; auto).
  destruct So as [Kd Rd Td Sy Np Nk (r & Hr)]. constructor; intros; rewrite ?H2, ?H1, ?P, ?K; auto.
  - unfold is_displayed. rewrite H2. auto.
  - exists r. intros p c. rewrite K. auto.
Qed.

Lemma current_state : forall s, sound s -> proper s -> idle s ->
  exists ps s', get_current_state s = (s', Ok tt) /\ like s s' /\ runonce s' = runonce s /\
    sent s' = sent s ++ map (fun q => SAdded (last q "") q) ps /\
    NoDup ps /\ (forall q, In q ps <-> view_path s q) /\
    (forall a q n b, ps = a ++ (q ++ [n]) :: b -> q = [] \/ In q a).
Proof.
  intros s So Pr Id. pose proof (state_all (unsent s)) as W.
  assert (W' : fwp get_current_state (fun _ s' => like (unsent s) s' /\ knows s' (paths (kids (unsent s)) (froot (unsent s)))) (unsent s)).
  { apply W; [apply (sound_same s); auto|exact (proper_fine s Pr)|intros []|]. exists []. split; [split; [constructor|apply heeds_any]|]. split; [constructor|]. intros l. split; [intros []|auto]. }
  unfold fwp in W'. pose proof (blind_state (sent s) (unsent s)) as B. rewrite pre_unsent in B.
  pose proof (only_state (unsent s)) as O. destruct (get_current_state (unsent s)) as [s1 [[]| |]]; try (destruct W'; fail).
  destruct W' as (L & cs & (H1 & _) & H2 & H3). cbn [fst snd] in *. destruct O as (O1 & O2 & l & O3 & O4).
  { apply (idle_same s); auto. }
  simpl in O3. rewrite O3 in H1. destruct (adds_hear l cs H1 O4) as [E P]. exists cs, (pre (sent s) s1). split; auto.
  split; [destruct L; constructor; auto|]. split; auto. split; [simpl; rewrite O3, E; auto|]. split; auto.
Qed.

Lemma sound_base : forall s, sound s -> proper s -> exists r l, base r (froot s) (flat s) (fun _ => True) (pre l (unsent s)).
Proof.
  intros s So Pr. pose proof (state_all (unsent s)) as W.
  assert (W' : fwp get_current_state (fun _ s' => like (unsent s) s' /\ knows s' (paths (kids (unsent s)) (froot (unsent s)))) (unsent s)).
  { apply W; [apply (sound_same s); auto|exact (proper_fine s Pr)|intros []|]. exists []. split; [split; [constructor|apply heeds_any]|]. split; [constructor|]. intros l. split; [intros []|auto]. }
  unfold fwp in W'. destruct (get_current_state (unsent s)) as [s1 [[]| |]]; try (destruct W'; fail).
  destruct W' as (L & K). destruct So as [Kd Rd Td Sy Np Nk (r & Hr)]. exists r, (sent s1). constructor; auto. constructor; auto.
  - intros p c Hc. split; [apply (pars_disp s c p); apply Sy; auto|]. apply Hr. auto.
  - intros x p Hp. apply Hr. apply Sy. auto.
  - intros x p _. symmetry. apply Sy.
  - eapply knows_sent; [|apply K]. simpl. apply app_nil_r.
  - intros [].
Qed.
