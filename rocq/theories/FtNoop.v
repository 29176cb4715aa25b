(** Views: updates that change nothing. *)
From Coq Require Import Permutation.
From Verif Require Import Base BaseFacts MainTree MainFacts Filters FTree SpecView FtBase FtWalk FtEdge FtUp FtFront.
Open Scope f_scope.

Lemma dset_same : forall V k (v : V) d, dget k d = Some v -> dset k v d = d.
Proof.
  induction d as [|[k0 v0] d IH]; simpl; [discriminate|]. deq k k0; intros H; [inv H; auto|]. rewrite IH; auto.
Qed.

Lemma set_diff_nil : forall a b, (forall x, In x a -> In x b) -> set_diff a b = [].
Proof.
  intros a b H. destruct (set_diff a b) as [|x l] eqn:E; auto. exfalso.
  assert (Hx : In x (set_diff a b)) by (rewrite E; left; auto). apply set_diff_In in Hx. destruct Hx; auto.
Qed.

Section Noop.
  Context {EAR : Ear}.
  Variable ord : nat -> list id -> list id.
  Variable T : mtree.
  Variable D : id -> bool.
  Variable root : id.
  Variable fl : bool.
  Variable r : id -> nat.
  Hypothesis EV : env ord T D root fl r.

  Notation sp := (sp T D root fl).
  Notation update_node := (update_node ord T D).
  Notation gbase := (gbase r root (fun _ => True)).

  Lemma ord_nil : forall k, ord k [] = [].
  Proof. intros k. apply Permutation_nil. apply Permutation_sym. apply (e_ord _ _ _ _ _ _ EV). Qed.

  Lemma iterate_nil : forall body (Q : unit -> ft -> Prop) s, Q tt (bump s) -> fwp (iterate_set ord [] body) Q s.
  Proof. intros body Q s H. unfold fwp, iterate_set. rewrite ord_nil. exact H. Qed.

  Lemma np_sp' : forall s n, froot s = root -> flat s = fl ->
    (forall p, In p (get_parents T n) -> D p = true -> is_displayed s p = true) -> node_parents_of T D n s = sp n.
  Proof.
    clear EV. intros s n Hr Hf H. unfold node_parents_of, FtFront.sp. rewrite Hr, Hf. destruct fl; auto.
    assert (E : filter (fun p => is_displayed s p && D p) (get_parents T n) = filter D (get_parents T n)).
    { apply filter_ext_in'. intros p Hp. destruct (D p) eqn:E; [rewrite H; auto|apply andb_false_r]. }
    rewrite E. destruct (filter D (get_parents T n)); auto.
  Qed.

  (** Only modified signals were sent. *)
  Record quiet (ch : id -> list id) (s s' : ft) : Prop := {
    q_like : like s s';
    q_base : gbase ch s';
    q_only : modified_only s s';
    q_once : runonce s' = runonce s
  }.
  Lemma quiet_refl : forall ch s, gbase ch s -> quiet ch s s.
  Proof. intros. constructor; auto. apply modified_only_refl. Qed.
  Lemma quiet_trans : forall ch a b c, quiet ch a b -> quiet ch b c -> quiet ch a c.
  Proof.
    intros ch a b c [] []. constructor; auto; [eapply like_trans; eauto|eapply modified_only_trans; eauto|congruence].
  Qed.
  Lemma quiet_bump : forall ch s s', quiet ch s s' -> quiet ch s (bump s').
  Proof.
    intros ch s s' []. constructor; auto.
    - destruct q_like0. constructor; auto.
    - eapply gbase_like; [apply q_base0|constructor; auto|]. eapply knows_sent; [|apply (gb_knows _ _ _ _ _ q_base0)]. auto.
  Qed.

  Lemma quiet_shown : forall rec n dir ch s, D n = true -> gbase ch s -> flat s = fl -> is_displayed s n = true -> n <> root ->
    pars s n = sp n -> (forall p, In p (get_parents T n) -> D p = true -> is_displayed s p = true) ->
    (goes_up dir = true -> forall p s1, In p (sp n) -> quiet ch s s1 -> fwp (rec p Up) (fun _ s2 => quiet ch s s2) s1) ->
    (goes_down dir = true -> forall c, In c (node_children_of T D n s) -> In c (kids s n)) ->
    fwp (update_shown ord T D rec n dir false) (fun _ s' => quiet ch s s') s.
  Proof.
    intros rec n dir ch s DDn G F Dn Hn Pn HP Hup Hdn. unfold update_shown.
    destruct (disp_entry s n Dn) as (e & Ee & Ep & Ek).
    apply fwp_bind. apply (fwp_node n e); auto. apply fwp_bind. apply fwp_get. cbv zeta.
    apply fwp_bind. apply fwp_ret. apply fwp_bind. apply (fwp_node n e); auto. apply fwp_bind. apply fwp_get.
    rewrite (np_sp' s n (gb_root _ _ _ _ _ G) F HP).
    assert (SD : forall p, In p (sp n) -> is_displayed s p = true).
    { intros p Hp. apply (sp_cases ord T D root fl r EV) in Hp. destruct Hp as [->|[H1 H2]]; auto. apply (gb_disp _ _ _ _ _ G). }
    rewrite (filter_id (is_displayed s) (sp n)) by auto.
    apply fwp_bind. apply (fwp_upd n e); auto. cbn beta.
    replace (mkF (sp n) (fchi e)) with e by (destruct e; simpl in *; congruence).
    rewrite (dset_same _ n e) by auto.
    replace (set_fnodes (fnodes s) s) with s by (destruct s; auto).
    rewrite Ep, Pn. rewrite (set_diff_nil (sp n) (sp n)) by auto.
    change (mem (froot s) []) with false. rewrite andb_false_r.
    pose proof (quiet_refl ch s G) as Q0.
    apply fwp_bind. apply iterate_nil.
    apply fwp_bind. apply iterate_nil.
    apply quiet_bump, quiet_bump in Q0. revert Q0. generalize (bump (bump s)). intros s1 Q1.
    apply fwp_bind. eapply fwp_mono with (Q := fun _ s' => quiet ch s s').
    { destruct (goes_up dir) eqn:U; [|apply fwp_ret; auto]. unfold iterate_set.
      eapply fwp_mono; [apply (fwp_for _ (fun _ s' => quiet ch s s'))|intros ? ? H; apply H].
      - apply quiet_bump; auto.
      - intros done p rest s2 El Q2. apply Hup; auto.
        assert (Hp : In p (ord (tick s1) (set_diff (sp n) []))) by (rewrite El; apply in_app_iff; right; left; auto).
        apply (Permutation_in p (e_ord _ _ _ _ _ _ EV _ _)) in Hp. apply set_diff_In in Hp. tauto. }
    intros ? s2 Q2. apply fwp_bind.
    eapply fwp_mono with (Q := fun _ s' => quiet ch s s').
    { eapply fwp_mono; [apply (send_modified r root (fun _ => True) ch s2 n); auto; [apply Q2| |apply (e_res _ _ _ _ _ _ EV); auto]|].
      - rewrite (like_disp _ _ _ (q_like _ _ _ Q2)). auto.
      - intros ? s3 (L & R & _ & G3 & M). eapply quiet_trans; [apply Q2|]. constructor; auto. }
    intros ? s3 Q3. pose proof (q_like _ _ _ Q3) as L3.
    apply fwp_bind. apply (fwp_node n e); [rewrite (lk_nodes _ _ L3); auto|].
    apply fwp_bind. apply fwp_get. destruct (goes_down dir) eqn:Dd; [|apply fwp_ret; auto].
    assert (NC : node_children_of T D n s3 = node_children_of T D n s) by (unfold node_children_of; rewrite (lk_flat _ _ L3); auto).
    rewrite NC. eapply fwp_mono; [apply (fwp_for _ (fun _ s' => quiet ch s s'))|intros ? ? H; apply H]; auto.
    intros done c rest s4 El Q4. apply fwp_bind.
    apply (fwp_node n e); [rewrite (lk_nodes _ _ (q_like _ _ _ Q4)); auto|]. rewrite Ek.
    assert (Hc : In c (kids s n)) by (apply Hdn; auto; rewrite El; apply in_app_iff; right; left; auto).
    rewrite (proj2 (mem_In _ _) Hc). apply fwp_ret. auto.
  Qed.

  (** Nothing to do at [n] nor above. *)
  Definition settled_upto (k : nat) (s : ft) : Prop :=
    forall x, r x <= k -> (D x = true -> is_displayed s x = true) /\
      (is_displayed s x = true -> x <> root -> D x = true /\ pars s x = sp x).

  Lemma settled_like : forall k s s', like s s' -> settled_upto k s -> settled_upto k s'.
  Proof. intros k s s' L H x Hx. rewrite (like_disp _ _ _ L), (like_pars _ _ _ L). auto. Qed.

  Lemma update_noop : forall fuel n dir ch s, r n < fuel -> gbase ch s -> flat s = fl -> settled_upto (r n) s ->
    (goes_down dir = true -> forall c, In c (node_children_of T D n s) -> In c (kids s n)) ->
    fwp (update_node fuel n dir) (fun _ s' => quiet ch s s') s.
  Proof.
    induction fuel as [|fuel IH]; intros n dir ch s Hf G F ST Hk; [lia|].
    change (fwp (update_body ord T D (update_node fuel) n dir) (fun _ s' => quiet ch s s') s).
    assert (UP : forall p s1, r p < r n -> quiet ch s s1 -> fwp (update_node fuel p Up) (fun _ s2 => quiet ch s s2) s1).
    { intros p s1 L Q1. pose proof (q_like _ _ _ Q1) as L1. eapply fwp_mono; [apply (IH p Up ch s1)|].
      - lia.
      - apply Q1.
      - rewrite (lk_flat _ _ L1). auto.
      - eapply settled_like; [apply L1|]. intros x Hx. apply ST. lia.
      - discriminate.
      - intros ? s2 Q2. eapply quiet_trans; eauto. }
    unfold update_body. apply fwp_bind. apply fwp_get. rewrite (gb_root _ _ _ _ _ G). deq n root.
    { apply fwp_ret. apply quiet_refl; auto. }
    destruct (ST n (le_n _)) as [S1 S2].
    destruct (is_displayed s n) eqn:Dn; destruct (D n) eqn:En.
    - destruct (S2 eq_refl E) as [_ Pn]. apply quiet_shown; auto.
      + intros p Hp HDp. apply (ST p); auto. pose proof (e_rank _ _ _ _ _ _ EV n p Hp). lia.
      + intros _ p s1 Hp Q1. apply UP; auto. apply (sp_rank ord T D root fl r EV n p); auto.
    - destruct (S2 eq_refl E). discriminate.
    - specialize (S1 eq_refl). discriminate.
    - destruct (has_node T n); [|apply fwp_ret; apply quiet_refl; auto].
      eapply fwp_mono; [apply (fwp_for _ (fun _ s' => quiet ch s s'))|intros ? ? H; apply H]; [apply quiet_refl; auto|].
      intros done p rest s1 El Q1. apply UP; auto. apply (e_rank _ _ _ _ _ _ EV). rewrite El. apply in_app_iff. right. left. auto.
  Qed.
End Noop.
