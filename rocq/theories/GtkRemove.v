(** The Gtk model: removing a row removes everything below it. *)
From Coq Require Import Permutation.
From Verif Require Import Base BaseFacts MainTree Spec Filters FTree SpecApi SpecView SpecViewing Gtk SpecGtk GtkFacts.

(** Addresses are distinct, parents are rows and no row is above itself. *)
Definition ranked (rank : nat -> nat) (rs : list row) : Prop := forall r p, In r rs -> r_parent r = Some p -> rank p < rank (r_addr r).
Definition rooted (rs : list row) : Prop := forall r p, In r rs -> r_parent r = Some p -> exists q, In q rs /\ r_addr q = p.
Definition orderly (g : gtk) : Prop := NoDup (map r_addr (rows g)) /\ rooted (rows g) /\ exists rank, ranked rank (rows g).

Lemma ranked_incl : forall rank rs rs', ranked rank rs -> (forall r, In r rs' -> In r rs) -> ranked rank rs'.
Proof. intros rank rs rs' H I r p Hr. apply H. auto. Qed.

Lemma orderly_perm : forall g g', orderly g -> Permutation (rows g') (rows g) -> orderly g'.
Proof.
  intros g g' (O1 & O3 & (rank & O2)) P. split; [|split].
  - eapply Permutation_NoDup; [apply Permutation_map; apply Permutation_sym; exact P|exact O1].
  - intros r p Hr Hp. destruct (O3 r p) as (q & Q1 & Q2); auto; [eapply Permutation_in; eauto|]. exists q. split; auto.
    eapply Permutation_in; [apply Permutation_sym; exact P|auto].
  - exists rank. eapply ranked_incl; [exact O2|]. intros r. apply Permutation_in. exact P.
Qed.

(** Which rows [drop_rows] leaves. *)
Lemma drop_incl : forall l a r, In r (drop_rows a l) -> In r l.
Proof. intros l a r H. apply filter_In in H. tauto. Qed.

Lemma is_under_more : forall l a f f' r, f <= f' -> is_under f l a r = true -> is_under f' l a r = true.
Proof.
  intros l a f. induction f as [|f IH]; intros f' r Hf H; cbn [is_under] in *.
  - rewrite orb_false_r in H. destruct f'; cbn [is_under]; rewrite H; auto.
  - destruct f' as [|f']; [lia|]. cbn [is_under]. destruct (Nat.eqb (r_addr r) a); auto. simpl in *. destruct (r_parent r) as [p|]; auto.
    destruct (find (fun q => Nat.eqb (r_addr q) p) l) as [q|]; auto. apply IH; [lia|auto].
Qed.

Section Drop.
  Variable rs : list row.
  Variable a : nat.
  Variable rank : nat -> nat.
  Hypothesis ND : NoDup (map r_addr rs).
  Hypothesis RK : ranked rank rs.

  Lemma find_addr : forall q, In q rs -> find (fun x => Nat.eqb (r_addr x) (r_addr q)) rs = Some q.
  Proof.
    intros q Hq. destruct (find (fun x => Nat.eqb (r_addr x) (r_addr q)) rs) as [x|] eqn:E.
    - apply find_some in E. destruct E as [E1 E2]. apply Nat.eqb_eq in E2. f_equal. eapply NoDup_map_inj; eauto.
    - pose proof (find_none _ _ E q Hq) as X. cbn beta in X. rewrite Nat.eqb_refl in X. discriminate.
  Qed.

  Lemma is_under_sound : forall f r, In r rs -> is_under f rs a r = true -> under rs a r.
  Proof.
    intros f. induction f as [|f IH]; intros r Hr H; cbn [is_under] in H.
    - rewrite orb_false_r in H. apply Nat.eqb_eq in H. apply under_self; auto.
    - apply orb_true_iff in H. destruct H as [H|H]; [apply Nat.eqb_eq in H; apply under_self; auto|].
      destruct (r_parent r) as [p|] eqn:P; [|discriminate]. destruct (find (fun q => Nat.eqb (r_addr q) p) rs) as [q|] eqn:E; [|discriminate].
      apply find_some in E. destruct E as [E1 E2]. apply Nat.eqb_eq in E2. apply (under_below rs a r q); auto. congruence.
  Qed.

  Definition low (r : row) : nat := length (filter (fun q => Nat.leb (rank (r_addr q)) (rank (r_addr r))) rs).

  Lemma low_less : forall r q, In r rs -> rank (r_addr q) < rank (r_addr r) -> low q < low r.
  Proof.
    intros r q Hr H. unfold low. assert (G : forall l, In r l ->
      length (filter (fun x => Nat.leb (rank (r_addr x)) (rank (r_addr q))) l) < length (filter (fun x => Nat.leb (rank (r_addr x)) (rank (r_addr r))) l)).
    2:{ apply G. exact Hr. }
    assert (W : forall l, length (filter (fun x => Nat.leb (rank (r_addr x)) (rank (r_addr q))) l) <= length (filter (fun x => Nat.leb (rank (r_addr x)) (rank (r_addr r))) l)).
    { intros l. induction l as [|x l IH]; simpl; auto. destruct (Nat.leb_spec (rank (r_addr x)) (rank (r_addr q))).
      - rewrite (proj2 (Nat.leb_le _ _)) by lia. simpl. lia.
      - destruct (Nat.leb _ _); simpl; lia. }
    intros l. induction l as [|x l IH]; intros [].
    - subst x. simpl. rewrite Nat.leb_refl. destruct (Nat.leb_spec (rank (r_addr r)) (rank (r_addr q))); [lia|]. simpl. specialize (W l). lia.
    - specialize (IH H0). simpl. destruct (Nat.leb_spec (rank (r_addr x)) (rank (r_addr q))).
      + rewrite (proj2 (Nat.leb_le _ _)) by lia. simpl. lia.
      + destruct (Nat.leb (rank (r_addr x)) (rank (r_addr r))); simpl; lia.
  Qed.

  Lemma is_under_complete : forall r, under rs a r -> is_under (length rs) rs a r = true.
  Proof.
    assert (K : forall r, under rs a r -> is_under (low r) rs a r = true).
    { intros r H. induction H as [r I E|r q I E U IH].
      - destruct (low r); cbn [is_under]; rewrite E, Nat.eqb_refl; auto.
      - assert (Iq : In q rs) by (inversion U; auto). pose proof (low_less r q I (RK r (r_addr q) I E)) as L.
        destruct (low r) as [|k]; [lia|]. cbn [is_under]. rewrite E, find_addr by auto. apply orb_true_iff. right.
        eapply is_under_more; [|exact IH]. lia. }
    intros r U. eapply is_under_more; [|apply K; exact U]. unfold low. clear. induction rs as [|x l IH]; simpl; auto. destruct (Nat.leb _ _); simpl; lia.
  Qed.

  Lemma drop_spec : forall r, In r (drop_rows a rs) <-> In r rs /\ ~ under rs a r.
  Proof.
    intros r. unfold drop_rows. rewrite filter_In. split; intros [H1 H2]; (split; [exact H1|]).
    - intros U. rewrite is_under_complete in H2 by auto. discriminate.
    - apply negb_true_iff. apply not_true_iff_false. intros H. apply H2. eapply is_under_sound; eauto.
  Qed.
End Drop.

Lemma get_iter_rows : forall rp g, let (g1, it) := my_get_iter_rev rp g in
  rows g1 = rows g /\ clock g1 = clock g /\ cache_position g1 = cache_position g /\
  (forall a, it = Some a -> In a (map r_addr (rows g))).
Proof.
  intros rp. induction rp as [|n rp IH]; intros g; cbn [my_get_iter_rev]; [split; [auto|split; [auto|split; [auto|discriminate]]]|].
  destruct (match pget (rev (n :: rp)) (cache_paths g) with Some (Some a) => _ | _ => None end) as [a|] eqn:C.
  - split; [auto|]. split; [auto|]. split; [auto|]. intros b B. inversion B; subst.
    destruct (pget (rev (n :: rp)) (cache_paths g)) as [[a|]|]; try discriminate.
    destruct (row_at a g) as [r|] eqn:R; [|discriminate]. destruct (String.eqb n (r_id r)); [|discriminate]. inversion C; subst.
    apply find_some in R. destruct R as [R1 R2]. apply Nat.eqb_eq in R2. subst. apply in_map. auto.
  - specialize (IH g). destruct (my_get_iter_rev rp g) as [g1 root]. destruct IH as (I1 & I2 & I3 & I4). cbn [rows clock cache_position]. rewrite I1, I2, I3.
    split; [auto|]. split; [auto|]. split; [auto|]. intros b B.
    assert (K : forall r, In r (store_children root g1) -> In (r_addr r) (map r_addr (rows g))).
    { intros r Hr. apply filter_In in Hr. rewrite <- I1. apply in_map. tauto. }
    assert (Z : forall o, option_map r_addr (find (fun r => String.eqb (r_id r) n) (store_children root g1)) = Some o -> In o (map r_addr (rows g))).
    { intros o Z. destruct (find _ _) as [r|] eqn:R; inversion Z; subst. apply find_some in R. apply K. tauto. }
    rewrite ?I3 in B. destruct (pget (rev (n :: rp)) (cache_position g)) as [[|k]|]; auto.
    destruct (nth_error (store_children root g1) (S k)) as [r|] eqn:R; auto. destruct (String.eqb (r_id r) n); auto. injection B as <-.
    apply K. eapply nth_error_In; eauto.
Qed.

Lemma get_iter_rows' : forall p g g1 it, my_get_iter p g = (g1, it) -> rows g1 = rows g /\ (forall a, it = Some a -> In a (map r_addr (rows g))).
Proof. intros p g g1 it E. unfold my_get_iter in E. pose proof (get_iter_rows (rev p) g) as H. rewrite E in H. tauto. Qed.

Lemma drop_nodup : forall l a, NoDup (map r_addr l) -> NoDup (map r_addr (drop_rows a l)).
Proof.
  intros l a. unfold drop_rows. generalize (fun r => negb (is_under (length l) l a r)) as f. intros f. induction l as [|x l IH]; simpl; intros ND; auto.
  inversion ND as [|? ? N1 N2]; subst. destruct (f x); auto. simpl. constructor; auto.
  intros H. apply N1. apply in_map_iff in H. destruct H as (r & <- & H). apply filter_In in H. apply in_map. tauto.
Qed.

Lemma orderly_signal : forall pf T x g g' o, faithful pf -> orderly g -> on_signal pf T x g = (g', o) -> orderly g'.
Proof.
  intros pf T x g g' o [A1 A2] O E. pose proof O as (O1 & O3 & rank & O2). destruct x as [n p|n p|n p|f n]; simpl in E.
  - unfold add_task in E. destruct (dget n (nodes T)) as [nd|]; [|inversion E; subst; auto].
    destruct (my_get_iter (removelast p) g) as [g1 it] eqn:I. apply get_iter_rows' in I. destruct I as [I1 I2]. inversion E; subst. clear E.
    eapply orderly_perm; [|apply A2]. unfold orderly, store_insert. simpl. rewrite I1. set (a := address pf (clock g1) (map r_addr (rows g))).
    pose proof (A1 (clock g1) (map r_addr (rows g))) as Fr. fold a in Fr. split; [|split].
    + rewrite map_app. simpl. eapply Permutation_NoDup; [apply Permutation_cons_append|]. constructor; auto.
    + intros r q Hr Hq. apply in_app_iff in Hr. destruct Hr as [Hr|[<-|[]]].
      * destruct (O3 r q Hr Hq) as (x & X1 & X2). exists x. rewrite in_app_iff. auto.
      * simpl in Hq. apply I2 in Hq. apply in_map_iff in Hq. destruct Hq as (x & X1 & X2). exists x. rewrite in_app_iff. auto.
    + set (top := list_max (map rank (map r_addr (rows g)))). assert (TP : forall x, In x (map r_addr (rows g)) -> rank x <= top).
      { intros x Hx. pose proof (proj1 (list_max_le (map rank (map r_addr (rows g))) top) (le_n _)) as F. rewrite Forall_forall in F. apply F. apply in_map. auto. }
      exists (fun x => if Nat.eqb x a then S top else rank x).
      assert (NA : forall x, In x (map r_addr (rows g)) -> Nat.eqb x a = false) by (intros x Hx; apply Nat.eqb_neq; intros ->; contradiction).
      intros r q Hr Hq. apply in_app_iff in Hr. destruct Hr as [Hr|[<-|[]]].
      * rewrite (NA (r_addr r)) by (apply in_map; auto). destruct (O3 r q Hr Hq) as (x & X1 & <-). rewrite (NA (r_addr x)) by (apply in_map; auto). apply (O2 r); auto.
      * simpl in *. rewrite Nat.eqb_refl. apply I2 in Hq. rewrite (NA q Hq). apply TP in Hq. lia.
  - unfold remove_task in E. destruct (my_get_iter p g) as [g1 it] eqn:I. apply get_iter_rows' in I. destruct I as [I1 I2].
    assert (K : orderly g1) by (unfold orderly; rewrite I1; auto).
    destruct it as [a|]; [|inversion E; subst; auto]. destruct (row_at a g1) as [r|]; [|inversion E; subst; auto].
    destruct (String.eqb (r_id r) n); [|inversion E; subst; auto].
    assert (Z : rows g' = drop_rows a (rows g)).
    { cbv zeta in E. destruct (pget p _); inversion E; subst; simpl; rewrite I1; auto. }
    unfold orderly. rewrite Z. split; [apply drop_nodup; auto|]. split.
    + intros x q Hx Hq. apply (drop_spec (rows g) a rank O1 O2) in Hx. destruct Hx as [Hx NU]. destruct (O3 x q Hx Hq) as (y & Y1 & Y2).
      exists y. split; auto. apply (drop_spec (rows g) a rank O1 O2). split; auto. intros U. apply NU. apply (under_below _ _ x y); auto. congruence.
    + exists rank. eapply ranked_incl; [exact O2|]. apply drop_incl.
  - unfold update_task in E. destruct (dget n (nodes T)) as [nd|]; [|inversion E; subst; auto].
    destruct (my_get_iter p g) as [g1 it] eqn:I. apply get_iter_rows' in I. destruct I as [I1 I2].
    destruct it as [a|]; inversion E; subst; [|unfold orderly; rewrite I1; auto].
    eapply orderly_perm; [|apply A2]. unfold orderly. simpl. rewrite I1.
    match goal with |- NoDup (map r_addr (map ?F _)) /\ _ => set (f := F) end.
    assert (F1 : forall r, r_addr (f r) = r_addr r). { intros r. unfold f. destruct (Nat.eqb (r_addr r) a) eqn:Q; auto. apply Nat.eqb_eq in Q. auto. }
    assert (F2 : forall r, r_parent (f r) = r_parent r). { intros r. unfold f. destruct (Nat.eqb (r_addr r) a) eqn:Q; auto. }
    split; [|split].
    + rewrite map_map. erewrite map_ext; [exact O1|]. auto.
    + intros r q Hr Hq. apply in_map_iff in Hr. destruct Hr as (r' & <- & Hr). rewrite F2 in Hq. destruct (O3 r' q Hr Hq) as (x & X1 & X2).
      exists (f x). rewrite F1. split; auto. apply in_map. auto.
    + exists rank. intros r q Hr Hq. apply in_map_iff in Hr. destruct Hr as (r' & <- & Hr). rewrite F2 in Hq. rewrite F1. apply (O2 r'); auto.
  - inversion E; subst. auto.
Qed.

Lemma orderly_heard : forall pf l g g' o, faithful pf -> orderly g -> on_heard pf l g = (g', o) -> orderly g'.
Proof.
  intros pf l. induction l as [|[T x] l IH]; simpl; intros g g' o A O E; [inversion E; subst; auto|].
  destruct (on_signal pf T x g) as [g1 [u|e|]] eqn:S; [|inversion E; subst; eapply orderly_signal; eauto ..].
  eapply IH; [auto| |exact E]. eapply orderly_signal; eauto.
Qed.

Lemma whole_subtree : forall pf l g o T n p g', faithful pf -> on_heard pf l new_gtk = (g, o) ->
  on_signal pf T (SDeleted n p) g = (g', Ok tt) ->
  exists r, In r (rows g) /\ r_id r = n /\ forall q, In q (rows g') <-> In q (rows g) /\ ~ under (rows g) (r_addr r) q.
Proof.
  intros pf l g o T n p g' A E D.
  assert (O : orderly g). { eapply orderly_heard; [exact A| |exact E]. split; [constructor|]. split; [intros r q []|]. exists (fun x => x). intros r q []. }
  destruct O as (O1 & O3 & rank & O2). simpl in D. unfold remove_task in D.
  destruct (my_get_iter p g) as [g1 it] eqn:I. apply get_iter_rows' in I. destruct I as [I1 I2].
  destruct it as [a|]; [|discriminate]. destruct (row_at a g1) as [r|] eqn:R; [|discriminate].
  destruct (String.eqb (r_id r) n) eqn:N; [|discriminate]. apply String.eqb_eq in N.
  apply find_some in R. destruct R as [R1 R2]. apply Nat.eqb_eq in R2. rewrite I1 in R1.
  exists r. split; [auto|]. split; [auto|]. intros q.
  assert (Z : rows g' = drop_rows a (rows g)).
  { cbv zeta in D. destruct (pget p _); inversion D; subst; simpl; rewrite I1; auto. }
  rewrite Z, R2. apply (drop_spec (rows g) a rank O1 O2).
Qed.
