(** Views: what follows for histories of supported calls. *)
From Coq Require Import Permutation.
From Verif Require Import Base BaseFacts MainTree Spec MainFacts MainInv MainReg MainRegDel MainTight Filters FTree SpecApi ApiFacts CountFacts
  SpecView SpecViewing FtBase FtWalk FtEdge FtUp FtFront FtDown FtNoop FtDel FtSync FtTree FtOps FtSent FtKeep FtState FtView.
Open Scope f_scope.

(** *** What should be displayed *)
Lemma passes_sat : forall b t names n, has_node t n = true -> passes b t names n = sat b t names n.
Proof.
  intros b t names n H. unfold sat. induction names as [|m names IH]; simpl; auto. unfold sat1 at 1.
  destruct (get_filter b m) as [f|]; auto. rewrite IH. unfold filt_displayed. rewrite H.
  destruct (f_dic f) as [d|]; [destruct (p_negate d)|]; rewrite ?xorb_true_r, ?xorb_false_r; auto;
    destruct (f_fun f t n _); auto.
Qed.

Lemma should_sat : forall b t names n, has_node t "" = false ->
  (should_display b t names n = true <-> In n (satisfying b t names)).
Proof.
  intros b t names n H0. rewrite satisfying_In. unfold should_display. destruct (has_node t n) eqn:E.
  - assert (Tn : truthy n = true) by (destruct n; auto; congruence). rewrite Tn. simpl. rewrite passes_sat; tauto.
  - rewrite andb_false_r. split; [discriminate|intros []; discriminate].
Qed.

Lemma all_nodes_In : forall s n, NoDup (dkeys (fnodes s)) -> (In n (view_all_nodes s) <-> is_displayed s n = true /\ n <> froot s).
Proof.
  intros s n H. unfold view_all_nodes. rewrite remove1_iff by auto. unfold is_displayed. rewrite dmem_In. tauto.
Qed.

Lemma flat_spec : forall b names, any_flat b names = true <-> flattened b names.
Proof.
  intros b names. unfold flattened. split.
  - induction names as [|m l IH]; simpl; [discriminate|]. destruct (get_filter b m) as [f|] eqn:E.
    + unfold is_flat. destruct (f_dic f) as [d|] eqn:Ed.
      * destruct (p_flat d) eqn:Ep; [intros _; exists m, f, d; auto|]. intros H. destruct (IH H) as (x & y & z & ? & ?). exists x, y, z; auto.
      * intros H. destruct (IH H) as (x & y & z & ? & ?). exists x, y, z; auto.
    + intros H. destruct (IH H) as (x & y & z & ? & ?). exists x, y, z; auto.
  - intros (x & y & z & H & E & Ed & Ef). induction names as [|m l IH]; [destruct H|]. simpl. destruct H as [->|H].
    + rewrite E. unfold is_flat. rewrite Ed, Ef. auto.
    + rewrite IH by auto. destruct (get_filter b m) as [f|]; auto. destruct (is_flat f); auto.
Qed.

(** *** Up-to-date views *)
Section Synced.
  Variable t : mtree.
  Variable b : bank.
  Variable s : ft.
  Hypothesis R : reg t.
  Hypothesis A : apt (froot s) t.
  Hypothesis Sy : synced b (filters s) (froot s) (any_flat b (filters s)) t s.

  Lemma synced_parts : exists r, ranks t (froot s) r /\ insync t (should_display b t (filters s)) (froot s) (any_flat b (filters s)) r (fun _ => False) s.
  Proof. destruct Sy as (r & H1 & H2 & _). exists r. auto. Qed.

  Lemma synced_sound : sound s.
  Proof.
    destruct synced_parts as (r & _ & I). pose proof (in_base _ _ _ _ _ _ _ I) as B. pose proof (b_g _ _ _ _ _ B) as G. constructor.
    - apply (b_keys _ _ _ _ _ B).
    - apply (gb_disp _ _ _ _ _ G).
    - apply (gb_top _ _ _ _ _ G).
    - intros p c. symmetry. apply (gb_sym _ _ _ _ _ G). auto.
    - apply (gb_ndp _ _ _ _ _ G).
    - apply (b_ndk _ _ _ _ _ B).
    - exists r. intros p c Hc. apply (gb_ch _ _ _ _ _ G p c Hc).
  Qed.

  Lemma synced_D : forall n, is_displayed s n = true /\ n <> froot s <-> should_display b t (filters s) n = true.
  Proof.
    intros n. destruct synced_parts as (r & _ & I). split.
    - intros [H1 H2]. destruct (in_stale _ _ _ _ _ _ _ I n H1); auto.
    - intros H. split; [apply (in_full _ _ _ _ _ _ _ I); auto|]. intros ->.
      apply (apt_D b (filters s) (froot s) t A) in H. rewrite (a_root _ _ A) in H. destruct H. discriminate.
  Qed.

  Lemma synced_nodes : same_set (view_all_nodes s) (satisfying b t (filters s)).
  Proof.
    pose proof (so_keys _ synced_sound) as K. split; [apply remove1_NoDup; auto|]. split.
    - apply filter_NoDup. apply (ok_keys _ (g_ok _ _ _ (r_good _ R))).
    - intros n. rewrite all_nodes_In, synced_D by auto. apply should_sat. apply (r_empty _ R).
  Qed.

  Lemma synced_proper : proper s.
  Proof.
    intros x Hx Hn. apply (proj2 (proj2 synced_nodes)) in Hn. apply satisfying_In in Hn. rewrite (a_res _ _ A x Hx) in Hn. destruct Hn. discriminate.
  Qed.

  Lemma synced_parents : forall n, In n (view_all_nodes s) ->
    (flattened b (filters s) -> pars s n = [froot s]) /\
    (~ flattened b (filters s) -> pars s n = shown_parents t (view_all_nodes s) (froot s) n).
  Proof.
    intros n Hn. apply all_nodes_In in Hn; [|apply synced_sound]. apply synced_D in Hn. destruct synced_parts as (r & _ & I).
    pose proof (in_pars _ _ _ _ _ _ _ I n Hn (fun x => x)) as E. rewrite E. unfold sp, shown_parents. split; intros F.
    - apply flat_spec in F. rewrite F. auto.
    - assert (F' : any_flat b (filters s) = false) by (destruct (any_flat b (filters s)) eqn:X; auto; apply flat_spec in X; contradiction).
      rewrite F'. assert (Q : forall p, should_display b t (filters s) p = mem p (view_all_nodes s)).
      { intros p. apply eq_true_iff_eq. rewrite mem_In, all_nodes_In by apply synced_sound. rewrite synced_D. tauto. }
      rewrite (filter_ext _ _ Q). auto.
  Qed.

  Lemma synced_valid : test_validity s = true.
  Proof.
    pose proof synced_sound as So. unfold test_validity. apply forallb_forall. intros [n e] He.
    pose proof (In_pair_dget _ _ _ (so_keys _ So) He) as Ee.
    assert (Ek : kids s n = fchi e) by (unfold kids; rewrite Ee; auto). assert (Ep : pars s n = fpar e) by (unfold pars; rewrite Ee; auto).
    rewrite !andb_true_iff. repeat split.
    - apply forallb_forall. intros p Hp. rewrite <- Ep in Hp. apply (so_sym _ So) in Hp. unfold kids in Hp.
      destruct (dget p (fnodes s)); [apply mem_In; auto|destruct Hp].
    - destruct (fpar e) eqn:Epe; auto. destruct (id_dec n (froot s)) as [->|N]; [apply eqb_refl|]. exfalso.
      assert (Hn : In n (view_all_nodes s)) by (apply all_nodes_In; [apply So|]; split; auto; unfold is_displayed, dmem; rewrite Ee; auto).
      destruct (synced_parents n Hn) as [P1 P2]. rewrite Ep in P1, P2. destruct (any_flat b (filters s)) eqn:F.
      + apply flat_spec in F. apply P1 in F. discriminate.
      + assert (NF : ~ flattened b (filters s)) by (intros X; apply flat_spec in X; congruence). apply P2 in NF.
        unfold shown_parents in NF. destruct (filter _ _); discriminate.
    - apply forallb_forall. intros c Hc. rewrite <- Ek in Hc. apply (so_sym _ So) in Hc. unfold pars in Hc.
      destruct (dget c (fnodes s)); [apply mem_In; auto|destruct Hc].
  Qed.

  Lemma synced_flat : flattened b (filters s) -> forall n, In n (view_all_nodes s) ->
    pars s n = [froot s] /\ kids s n = [] /\ In n (kids s (froot s)).
  Proof.
    intros F n Hn. pose proof synced_sound as So. destruct (synced_parents n Hn) as [P1 _]. specialize (P1 F). split; auto. split.
    - destruct (kids s n) as [|c l] eqn:E; auto. exfalso. assert (Hc : In c (kids s n)) by (rewrite E; left; auto).
      pose proof Hc as Hc'. apply (so_sym _ So) in Hc. assert (Hd : In c (view_all_nodes s)).
      { apply all_nodes_In; [apply So|]. split; [eapply pars_disp; eauto|]. intros ->. rewrite (so_top _ So) in Hc. destruct Hc. }
      destruct (synced_parents c Hd) as [Q1 _]. rewrite (Q1 F) in Hc. destruct Hc as [Hc|[]]. apply all_nodes_In in Hn; [|apply So]. destruct Hn; auto.
    - apply (so_sym _ So). rewrite P1. left. auto.
  Qed.
End Synced.

Section Hist.
  Variable ord : nat -> list id -> list id.
  Hypothesis HO : forall k l, Permutation (ord k l) l.

  Lemma viewing_nodes : forall t b s, viewing ord (t, b, s) -> same_set (view_all_nodes s) (satisfying b t (filters s)).
  Proof. intros t b s H. apply (viewing_current ord HO) in H. apply synced_nodes; apply H. Qed.
  Lemma viewing_sound : forall t b s, viewing ord (t, b, s) -> sound s.
  Proof. intros t b s H. apply (viewing_current ord HO) in H. apply (synced_sound t b s); apply H. Qed.
  Lemma viewing_proper : forall t b s, viewing ord (t, b, s) -> proper s.
  Proof. intros t b s H. apply (viewing_current ord HO) in H. apply (synced_proper t b s); apply H. Qed.
  Lemma viewing_structure : forall t b s, viewing ord (t, b, s) ->
    (forall n, In n (view_all_nodes s) ->
      (flattened b (filters s) -> pars s n = [froot s]) /\
      (~ flattened b (filters s) -> pars s n = shown_parents t (view_all_nodes s) (froot s) n)) /\
    pars s (froot s) = [] /\
    (forall p c, In c (kids s p) <-> In p (pars s c)) /\ (forall p, NoDup (kids s p)) /\ test_validity s = true.
  Proof.
    intros t b s H. pose proof (viewing_sound _ _ _ H) as So. apply (viewing_current ord HO) in H. split; [|split; [|split; [|split]]].
    - apply (synced_parents t b s); apply H.
    - apply So.
    - apply So.
    - apply So.
    - apply (synced_valid t b s); apply H.
  Qed.
  Lemma viewing_flat : forall t b s n, viewing ord (t, b, s) -> flattened b (filters s) -> In n (view_all_nodes s) ->
    pars s n = [froot s] /\ kids s n = [] /\ In n (kids s (froot s)).
  Proof. intros t b s n H F Hn. apply (viewing_current ord HO) in H. apply (synced_flat t b s); auto; apply H. Qed.
  Lemma viewing_ok : forall x c, viewing ord x -> supported x c -> snd (view_call ord c x) = Ok tt.
  Proof.
    intros [[t b] s] c H X. apply (viewing_current ord HO) in H. destruct (current_call ord HO c t b s H X) as (s' & E & _). rewrite E. auto.
  Qed.
  Lemma opening_ok : forall t b name names, welcome t b name -> snd (refilter ord b t (set_filters names (new_ft name))) = Ok tt.
  Proof.
    intros t b name names W. pose proof (opened_current ord HO t b name names W) as P. destruct (opened ord t b name names) as [[? ?] ?]. apply P.
  Qed.
End Hist.
