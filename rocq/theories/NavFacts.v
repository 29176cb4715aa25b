(** Walking through a view. *)
From Coq Require Import Permutation.
From Verif Require Import Base BaseFacts MainTree Spec MainFacts Filters FTree ViewCount Api ViewApi SpecApi SpecView SpecViewing SpecNav FtBase FtThm FtRead FtTree.

Lemma disp_get : forall s n, is_displayed s n = true -> exists e, dget n (fnodes s) = Some e /\ fchi e = kids s n /\ fpar e = pars s n.
Proof.
  intros s n H. unfold is_displayed, dmem in H. unfold kids, pars. destruct (dget n (fnodes s)) as [e|]; [|discriminate]. eauto.
Qed.
Lemma nodisp_get : forall s n, is_displayed s n = false -> dget n (fnodes s) = None.
Proof. intros s n H. unfold is_displayed, dmem in H. destruct (dget n (fnodes s)); auto. discriminate. Qed.
Lemma nodisp_kids : forall s n, is_displayed s n = false -> kids s n = [].
Proof. intros s n H. unfold kids. rewrite (nodisp_get _ _ H). reflexivity. Qed.

Lemma nav_children : forall s n, let x := match n with None => froot s | Some x => x end in
  (is_displayed s x = true -> view_all_children s n = Ok (kids s x)) /\
  (is_displayed s x = false -> view_all_children s n = Err KeyError).
Proof.
  intros s n x. unfold view_all_children. fold x. split; intros H.
  - destruct (disp_get _ _ H) as (e & -> & -> & _). reflexivity.
  - rewrite (nodisp_get _ _ H). reflexivity.
Qed.

Lemma nav_has_child : forall s n,
  (is_displayed s n = true -> exists b, view_has_child s n = Ok b /\ (b = true <-> kids s n <> [])) /\
  (is_displayed s n = false -> view_has_child s n = Err KeyError).
Proof.
  intros s n. unfold view_has_child. split; intros H.
  - destruct (disp_get _ _ H) as (e & -> & -> & _). eexists. split; [reflexivity|]. destruct (kids s n); split; congruence.
  - rewrite (nodisp_get _ _ H). reflexivity.
Qed.

Lemma nav_nth : forall s n i,
  (forall c, nth_error (kids s n) i = Some c -> view_nth_child s (Some n) i = Ok c) /\
  (nth_error (kids s n) i = None -> view_nth_child s (Some n) i = Err ValueError).
Proof.
  intros s n i. unfold view_nth_child. rewrite direct_count. cbn [or_root]. split.
  - intros c H. assert (L : i < length (kids s n)) by (apply nth_error_Some; congruence).
    destruct (Nat.leb_spec (length (kids s n)) i); [lia|]. unfold kids in *. destruct (dget n (fnodes s)) as [e|].
    + rewrite H. reflexivity.
    + destruct i; discriminate.
  - intros H. apply nth_error_None in H. destruct (Nat.leb_spec (length (kids s n)) i); auto. lia.
Qed.

Lemma nav_parents : forall s n, sound s ->
  (is_displayed s n = true -> view_parents s n = Ok (proper_parents s n)) /\
  (is_displayed s n = false -> view_parents s n = Err IndexError).
Proof.
  intros s n So. unfold view_parents. split; intros H.
  - destruct (disp_get _ _ H) as (e & -> & _ & ->). rewrite BaseFacts.remove1_filter; [reflexivity|apply So].
  - rewrite (nodisp_get _ _ H). reflexivity.
Qed.

Lemma index_nth : forall n l i, NoDup l -> nth_error l i = Some n -> index_of n l = Some i.
Proof.
  intros n l. induction l as [|y l IH]; intros i ND H; [destruct i; discriminate|]. inversion ND; subst.
  destruct i as [|i]; simpl in *.
  - inv H. rewrite String.eqb_refl. reflexivity.
  - deq n y; [exfalso; apply nth_error_In in H; subst; auto|]. rewrite (IH i); auto.
Qed.

Lemma nav_next : forall s p i n, sound s -> p <> "" -> nth_error (kids s p) i = Some n ->
  view_next_node s n (Some p) = Ok (nth_error (kids s p) (S i)).
Proof.
  intros s p i n So Hp H. assert (Hc := nth_error_In _ _ H). destruct (sound_kids s p n So Hc) as (Dn & Dp & Nr).
  unfold view_next_node. deq n (froot s); [congruence|]. destruct (disp_get _ _ Dn) as (e & -> & _ & EP).
  assert (T : truthy p = true) by (unfold truthy; destruct p; auto; congruence). rewrite T, EP.
  assert (M : mem p (pars s n) = true) by (apply mem_In; apply (so_sym _ So); auto). rewrite M.
  destruct (disp_get _ _ Dp) as (pe & -> & -> & _). rewrite (index_nth n _ i); auto. apply So.
Qed.

Lemma nav_next_first : forall s p rest i n, sound s -> pars s n = p :: rest -> nth_error (kids s p) i = Some n ->
  view_next_node s n None = Ok (nth_error (kids s p) (S i)).
Proof.
  intros s p rest i n So Hp H. assert (Hc := nth_error_In _ _ H). destruct (sound_kids s p n So Hc) as (Dn & Dp & Nr).
  unfold view_next_node. deq n (froot s); [congruence|]. destruct (disp_get _ _ Dn) as (e & -> & _ & EP). rewrite EP, Hp.
  destruct (disp_get _ _ Dp) as (pe & -> & -> & _). rewrite (index_nth n _ i); auto. apply So.
Qed.

Lemma nav_next_raises : forall s n p, p <> "" ->
  (is_displayed s n = false \/ n = froot s \/ ~ In p (pars s n)) -> view_next_node s n (Some p) = Err PyException.
Proof.
  intros s n p Hp H. unfold view_next_node. deq n (froot s); auto. destruct (is_displayed s n) eqn:D.
  - destruct (disp_get _ _ D) as (e & -> & _ & EP). assert (T : truthy p = true) by (unfold truthy; destruct p; auto; congruence).
    rewrite T, EP. assert (M : mem p (pars s n) = false) by (apply mem_false; intuition discriminate). rewrite M. reflexivity.
  - rewrite (nodisp_get _ _ D). reflexivity.
Qed.

Lemma nav_validity : forall t b s, uptodate t b s -> test_validity s = true.
Proof.
  intros t b s U. pose proof (up_sound _ _ _ U) as So. unfold test_validity. apply forallb_forall. intros [n e] Hin.
  assert (G : dget n (fnodes s) = Some e) by (apply In_pair_dget; auto; apply So).
  assert (EP : fpar e = pars s n) by (unfold pars; rewrite G; auto). assert (EK : fchi e = kids s n) by (unfold kids; rewrite G; auto).
  rewrite EP, EK. rewrite !andb_true_iff. split; [split|].
  - apply forallb_forall. intros p Hp. pose proof (proj2 (sound_pars s p n So Hp)) as Dp. destruct (disp_get _ _ Dp) as (pe & -> & -> & _).
    apply mem_In. apply (so_sym _ So). auto.
  - destruct (pars s n) eqn:Z; auto. deq n (froot s); auto. exfalso.
    assert (V : In n (view_all_nodes s)).
    { apply all_nodes_In; [apply So|]. split; auto. unfold is_displayed, dmem. rewrite G. auto. }
    destruct (up_pars _ _ _ U n V) as [A B]. rewrite Z in *.
    destruct (flat s) eqn:F.
    + specialize (A (proj1 (up_flat _ _ _ U) F)). discriminate.
    + assert (NF : ~ flattened b (filters s)) by (intros Q; apply (up_flat _ _ _ U) in Q; congruence). specialize (B NF).
      unfold shown_parents in B. destruct (filter _ _); discriminate.
  - apply forallb_forall. intros c Hc. destruct (sound_kids s n c So Hc) as (Dc & _ & _). destruct (disp_get _ _ Dc) as (ce & -> & _ & ->).
    apply mem_In. apply (so_sym _ So). auto.
Qed.

(** ** print_tree *)
Section Print.
  Variable s : ft.
  Hypothesis So : sound s.

  Inductive vstk : list (nat * id) -> list (nat * id) -> Prop :=
  | vstk_nil : vstk [] []
  | vstk_cons : forall d n st l1 l2, listing s (S d) (kids s n) l1 -> vstk st l2 -> vstk ((d, n) :: st) ((d, n) :: l1 ++ l2).

  Lemma vstk_listing : forall d l ls st l2, listing s d l ls -> vstk st l2 -> vstk (map (fun c => (d, c)) l ++ st) (ls ++ l2).
  Proof.
    intros d l. induction l as [|c l IH]; intros ls st l2 H S; inversion H; subst; simpl; auto.
    rewrite <- app_assoc. constructor; auto.
  Qed.

  Lemma view_rank : exists g : id -> nat, (forall n y, In y (kids s n) -> g y < g n) /\ forall x, g x <= length (fnodes s).
  Proof.
    destruct (so_acyclic _ So) as (r & HR).
    exists (fun x => length (filter (fun y => Nat.ltb (r x) (r y)) (dkeys (fnodes s)))). split.
    - intros n y Hy. apply filter_length_lt with (p := y).
      + intros z. rewrite !Nat.ltb_lt. specialize (HR _ _ Hy). lia.
      + apply dmem_In. apply (sound_kids s n y So Hy).
      + apply Nat.ltb_irrefl.
      + apply Nat.ltb_lt. auto.
    - intros x. rewrite <- dkeys_length. generalize (dkeys (fnodes s)) as l. induction l as [|y l IH]; simpl; auto.
      destruct (Nat.ltb _ _); simpl; lia.
  Qed.

  Lemma listing_exists : forall d l, exists ls, listing s d l ls.
  Proof.
    destruct view_rank as (g & HG & _).
    assert (H : forall k n, g n <= k -> forall d, exists ls, listing s d (kids s n) ls).
    { induction k as [k IH] using lt_wf_ind. intros n Hn d. pose proof (HG n) as HC.
      induction (kids s n) as [|c l IHl]; [exists []; constructor|].
      destruct (IHl (fun y Hy => HC y (or_intror Hy))) as (l2 & H2).
      pose proof (HC c (or_introl eq_refl)) as Lt. destruct (IH (g c)) with (n := c) (d := S d) as (l1 & H1); auto; [lia|].
      exists ((d, c) :: l1 ++ l2). constructor; auto. }
    intros d l. induction l as [|c l (l2 & H2)]; [exists []; constructor|].
    destruct (H _ c (le_n _) (S d)) as (l1 & H1). exists ((d, c) :: l1 ++ l2). constructor; auto.
  Qed.

  Lemma view_print_ok : exists ls, view_print s = Ok ls /\ listing s 0 [froot s] ls.
  Proof.
    destruct (listing_exists 0 [froot s]) as (ls & HL). exists ls. split; auto.
    destruct view_rank as (g & HG & HB). set (b := length (fnodes s)) in *.
    set (mu := fun z : list (nat * id) * list (nat * id) => sum (fun y => (S b) ^ (g y)) (map snd (fst z))).
    assert (CH : forall n, sum (fun y => S b ^ g y) (kids s n) < S b ^ g n).
    { intros n. apply weight_dec; [|apply HG]. unfold b. rewrite <- dkeys_length. apply NoDup_incl_length; [apply So|].
      intros y Hy. apply dmem_In. apply (sound_kids s n y So Hy). }
    set (I := fun z : list (nat * id) * list (nat * id) => (forall y, In y (map snd (fst z)) -> is_displayed s y = true) /\ exists l, vstk (fst z) l /\ snd z ++ l = ls).
    assert (ST : forall q out, I (q, out) -> match q with
      | [] => view_print_step s (q, out) = Stop (Ok ls)
      | (d, n) :: rest => exists z, view_print_step s (q, out) = Go z /\ I z /\ mu z < mu (q, out) end).
    { intros [|[d n] rest] out [HL1 (l & S & E)]; simpl in *.
      - inversion S; subst. rewrite app_nil_r. reflexivity.
      - destruct (disp_get _ _ (HL1 n (or_introl eq_refl))) as (e & -> & -> & _). eexists. split; [reflexivity|]. split.
        + split; simpl.
          * intros y Hy. rewrite map_app, in_app_iff, map_map in Hy. destruct Hy as [Hy|Hy]; auto. simpl in Hy. rewrite map_id in Hy.
            apply (sound_kids s n y So Hy).
          * inversion S as [|? ? ? l1 l2 B1 S2]; subst. exists (l1 ++ l2). split; [apply vstk_listing; auto|]. rewrite <- app_assoc. reflexivity.
        + unfold mu. simpl. rewrite map_app, map_map. simpl. rewrite map_id. rewrite sum_app. pose proof (CH n). lia. }
    unfold view_print.
    destruct (loop_total (view_print_step s) I mu) with (k := walk_budget b) (s := ([(0, froot s)], @nil (nat * id)))
      as ([q out] & res & E & Is & Es).
    - intros [q out] z' W E. specialize (ST q out W). destruct q as [|[d n] rest]; [rewrite ST in E; discriminate|].
      destruct ST as (z & E2 & W2 & M2). rewrite E2 in E. inv E. split; auto.
    - split; simpl.
      + intros y [<-|[]]. apply So.
      + exists ls. split; auto. pose proof (vstk_listing 0 _ _ [] [] HL vstk_nil) as Q. rewrite !app_nil_r in Q. exact Q.
    - unfold mu. simpl. rewrite Nat.add_0_r. eapply Nat.le_lt_trans; [|apply (weight_bound' b b); lia].
      apply Nat.pow_le_mono_r; [lia|apply HB].
    - fold b. rewrite E. specialize (ST q out Is). destruct q as [|[d n] rest].
      + rewrite ST in Es. inv Es. auto.
      + destruct ST as (z & E2 & _). rewrite E2 in Es. discriminate.
  Qed.
End Print.
