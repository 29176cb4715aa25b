(** Views of nodes chosen by their children: when a node satisfies the filters. *)
From Verif Require Import Base BaseFacts MainTree Spec MainFacts MainInv MainOps MainReg Filters FTree SpecApi SpecView SpecViewing SpecLoose FtTree FtOps FtFlatThm SpecKin.
Open Scope f_scope.

(** The node, its data, its children and their data are the same. *)
Definition akin (T T' : mtree) (x : id) : Prop := datum T' x = datum T x /\ get_children T' x = get_children T x /\
  forall c, In c (get_children T x) -> datum T' c = datum T c.

Lemma datum_has : forall T x, has_node T x = match datum T x with Some _ => true | None => false end.
Proof. intros T x. unfold has_node, dmem, datum. destruct (dget x (nodes T)); auto. Qed.

Lemma filt_value : forall T f x, has_node T x = true -> filt_displayed T f x = xorb (f_fun f T x (f_dic f)) (negated f).
Proof.
  intros T f x H. unfold filt_displayed, negated. rewrite H. destruct (f_dic f) as [d|]; [destruct (p_negate d)|]; destruct (f_fun f T x _); auto.
Qed.

Lemma near_same : forall T T' f x, near (f_fun f) -> has_node T x = true -> datum T' x = datum T x -> get_children T' x = get_children T x ->
  filt_displayed T' f x = filt_displayed T f x.
Proof.
  intros T T' f x H Hn E1 E2. assert (Hn' : has_node T' x = true) by (rewrite datum_has, E1, <- datum_has; auto).
  rewrite !filt_value by auto. rewrite (H T' T x (f_dic f)); auto.
Qed.

Lemma blocking_same : forall T T' f x, blocking (f_fun f) -> has_node T x = true -> akin T T' x -> filt_displayed T' f x = filt_displayed T f x.
Proof.
  intros T T' f x (w & bs & _ & H) Hn (E1 & E2 & E3). assert (Hn' : has_node T' x = true) by (rewrite datum_has, E1, <- datum_has; auto).
  rewrite !filt_value by auto. rewrite datum_has in Hn. destruct (datum T x) as [v|] eqn:Ed; [|discriminate]. rewrite (H T' x _ v), (H T x _ v) by congruence.
  f_equal. f_equal. rewrite E2. clear E2. revert E3. induction (get_children T x) as [|c l IH]; simpl; intros E3; auto. rewrite E3 by auto. rewrite IH; auto.
Qed.

(** A node that a blocking filter lets pass has no parent that it lets pass. *)
Lemma blocking_parent : forall T f x n, blocking (f_fun f) -> negated f = false -> filt_displayed T f n = true -> In n (get_children T x) ->
  has_node T x = true -> filt_displayed T f x = false.
Proof.
  intros T f x n (w & bs & Hw & H) Ng Dn Hc Hx. assert (Hn : has_node T n = true) by (unfold filt_displayed in Dn; destruct (has_node T n); [auto|discriminate]).
  rewrite filt_value, Ng in Dn by auto. rewrite filt_value, Ng by auto. rewrite datum_has in Hn, Hx.
  destruct (datum T n) as [v|] eqn:En; [|discriminate]. destruct (datum T x) as [v'|] eqn:Ex; [|discriminate].
  rewrite (H T n _ v En) in Dn. rewrite (H T x _ v' Ex). rewrite xorb_false_r in *. apply andb_true_iff in Dn. destruct Dn as [Dn _]. apply Hw in Dn.
  assert (F : forallb (fun c => match datum T c with Some w0 => negb (bs (f_dic f) w0) | None => true end) (get_children T x) = false).
  { destruct (forallb _ _) eqn:F; auto. rewrite forallb_forall in F. specialize (F n Hc). rewrite En, Dn in F. discriminate. }
  rewrite F. apply andb_false_r.
Qed.

Section Kin.
  Variable b : bank.

  Lemma passes_akin : forall fs T T' x, childwise b fs -> has_node T x = true -> akin T T' x -> passes b T' fs x = passes b T fs x.
  Proof.
    intros fs T T' x. induction fs as [|m l IH]; simpl; auto. intros C Hx A.
    destruct (get_filter b m) as [f|] eqn:E; auto.
    assert (Q : filt_displayed T' f x = filt_displayed T f x).
    { destruct (C m f (or_introl eq_refl) E) as [N|[B _]]; [destruct A as (A1 & A2 & A3); apply near_same; auto|apply blocking_same; auto]. }
    rewrite Q, IH; auto. intros m' f' Hm. apply C. right. auto.
  Qed.

  Lemma display_akin : forall fs T T' x, childwise b fs -> akin T T' x -> should_display b T' fs x = should_display b T fs x.
  Proof.
    intros fs T T' x C A. unfold should_display. assert (Hn : has_node T' x = has_node T x) by (rewrite !datum_has; destruct A as [-> _]; auto).
    rewrite Hn. destruct (has_node T x) eqn:Hx; [|rewrite andb_false_r; auto]. rewrite (passes_akin fs T T'); auto.
  Qed.

  (** [n] gets other data and stays displayed: nothing changes for [x]. *)
  Lemma passes_steady : forall fs T T' x n, childwise b fs -> has_node T x = true ->
    datum T' x = datum T x -> get_children T' x = get_children T x -> In n (get_children T x) ->
    (forall c, c <> n -> datum T' c = datum T c) -> passes b T fs n = true -> passes b T' fs n = true -> passes b T' fs x = passes b T fs x.
  Proof.
    intros fs T T' x n C Hx E1 E2 Hn E3. induction fs as [|m l IH]; simpl; auto.
    destruct (get_filter b m) as [f|] eqn:E; auto.
    destruct (filt_displayed T f n) eqn:D1; [|discriminate]. destruct (filt_displayed T' f n) eqn:D2; [|discriminate]. intros P P'.
    assert (Hx' : has_node T' x = true) by (rewrite datum_has, E1, <- datum_has; auto).
    assert (Q : filt_displayed T' f x = filt_displayed T f x).
    { destruct (C m f (or_introl eq_refl) E) as [N|[B Ng]]; [apply near_same; auto|].
      rewrite (blocking_parent T f x n), (blocking_parent T' f x n); auto. rewrite E2. auto. }
    rewrite Q, IH; auto. intros m' f' Hm. apply C. right. auto.
  Qed.

  Lemma passes_freed : forall fs T T' x n, childwise b fs -> has_node T x = true ->
    datum T' x = datum T x -> get_children T' x = get_children T x -> In n (get_children T x) ->
    passes b T fs n = true -> passes b T fs x = false \/ passes b T' fs x = passes b T fs x.
  Proof.
    intros fs T T' x n C Hx E1 E2 Hn. induction fs as [|m l IH]; simpl; auto.
    destruct (get_filter b m) as [f|] eqn:E; auto.
    destruct (filt_displayed T f n) eqn:D1; [|discriminate]. intros P.
    destruct (C m f (or_introl eq_refl) E) as [N|[B Ng]].
    - rewrite (near_same T T' f x) by auto. destruct (filt_displayed T f x); auto. apply IH; auto. intros m' f' Hm. apply C. right. auto.
    - rewrite (blocking_parent T f x n) by auto. auto.
  Qed.

  Lemma display_passes : forall fs T x, should_display b T fs x = true -> has_node T x = true /\ truthy x = true /\ passes b T fs x = true.
  Proof. intros fs T x. unfold should_display. destruct (truthy x), (has_node T x); simpl; try discriminate. auto. Qed.

  Lemma display_steady : forall fs T T' x n, childwise b fs -> datum T' x = datum T x -> get_children T' x = get_children T x -> In n (get_children T x) ->
    (forall c, c <> n -> datum T' c = datum T c) -> should_display b T fs n = true -> should_display b T' fs n = true ->
    should_display b T' fs x = should_display b T fs x.
  Proof.
    intros fs T T' x n C E1 E2 Hn E3 D1 D2. apply display_passes in D1, D2. destruct D1 as (_ & _ & D1). destruct D2 as (_ & _ & D2).
    unfold should_display. assert (Hh : has_node T' x = has_node T x) by (rewrite !datum_has, E1; auto). rewrite Hh.
    destruct (has_node T x) eqn:Hx; [|rewrite andb_false_r; auto]. rewrite (passes_steady fs T T' x n); auto.
  Qed.

  Lemma display_freed : forall fs T T' x n, childwise b fs -> datum T' x = datum T x -> get_children T' x = get_children T x -> In n (get_children T x) ->
    should_display b T fs n = true -> should_display b T fs x = false \/ should_display b T' fs x = should_display b T fs x.
  Proof.
    intros fs T T' x n C E1 E2 Hn D1. apply display_passes in D1. destruct D1 as (_ & _ & D1).
    unfold should_display. assert (Hh : has_node T' x = has_node T x) by (rewrite !datum_has, E1; auto). rewrite Hh.
    destruct (has_node T x) eqn:Hx; [|rewrite andb_false_r; auto]. destruct (truthy x); auto. simpl.
    apply (passes_freed fs T T' x n); auto.
  Qed.

  (** With a blocking filter, no displayed node has a displayed child. *)
  Lemma passes_apart : forall fs T x n name f, In name fs -> get_filter b name = Some f -> blocking (f_fun f) -> negated f = false ->
    passes b T fs n = true -> In n (get_children T x) -> has_node T x = true -> passes b T fs x = false.
  Proof.
    intros fs T x n name f Hm E B Ng. induction fs as [|m l IH]; [destruct Hm|]. simpl. destruct (get_filter b m) as [g|] eqn:Eg; auto.
    destruct (filt_displayed T g n) eqn:D1; [|discriminate]. intros P Hc Hx. destruct Hm as [->|Hm].
    - rewrite E in Eg. inv Eg. rewrite (blocking_parent T g x n); auto.
    - rewrite IH; auto. destruct (filt_displayed T g x); auto.
  Qed.
  Lemma display_apart : forall fs T x n name f, In name fs -> get_filter b name = Some f -> blocking (f_fun f) -> negated f = false ->
    should_display b T fs n = true -> In n (get_children T x) -> should_display b T fs x = false.
  Proof.
    intros fs T x n name f Hm E B Ng D1 Hc. apply display_passes in D1. destruct D1 as (_ & _ & D1). unfold should_display.
    destruct (truthy x && has_node T x) eqn:Q; auto. apply andb_true_iff in Q. destruct Q as [_ Q]. eapply passes_apart; eauto.
  Qed.

  Lemma levelled_one : forall fs root fl T, vreg T -> levelled b fs -> fl = any_flat b fs -> one_level b T fs root fl.
  Proof.
    intros fs root fl T V L ->. destruct (any_flat b fs) eqn:Fl; [apply flat_one_level|].
    destruct L as [L|(name & f & Hm & E & B & Ng)]; [apply FtThm.flat_spec in L; congruence|].
    intros n z Dn Er Ef. unfold node_parents_of, node_children_of. rewrite Ef.
    assert (Hn : has_node T n = true) by (apply display_passes in Dn; tauto).
    assert (P : filter (fun p => is_displayed z p && should_display b T fs p) (get_parents T n) = []).
    { destruct (filter _ _) as [|p l] eqn:X; auto. exfalso. assert (Hp : In p (p :: l)) by (left; auto). rewrite <- X in Hp.
      apply filter_In in Hp. destruct Hp as [Hp Q]. apply andb_true_iff in Q. destruct Q as [_ Q]. apply (vreg_sym T p n V Hn) in Hp.
      rewrite (display_apart fs T p n name f) in Q; auto. discriminate. }
    rewrite P, Er. split; auto.
    destruct (filter _ (get_children T n)) as [|c l] eqn:X; auto. exfalso. assert (Hp : In c (c :: l)) by (left; auto). rewrite <- X in Hp.
    apply filter_In in Hp. destruct Hp as [Hc Q]. rewrite (display_apart fs T n c name f) in Dn; auto. discriminate.
  Qed.
End Kin.
