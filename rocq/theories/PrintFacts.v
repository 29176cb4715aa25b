(** print_tree. *)
From Verif Require Import Base BaseFacts MainTree Spec SpecFrame MainFacts MainInv MainReg MainLaws MainTight FtTree.

Section Print.
  Variable t : mtree.
  Hypothesis R : reg t.

  Inductive stk : list (nat * id) -> list (nat * id) -> Prop :=
  | stk_nil : stk [] []
  | stk_cons : forall d n st l1 l2, below t (S d) (get_children t n) l1 -> stk st l2 -> stk ((d, n) :: st) ((d, n) :: l1 ++ l2).

  Lemma stk_below : forall d l ls st l2, below t d l ls -> stk st l2 -> stk (map (fun c => (d, c)) l ++ st) (ls ++ l2).
  Proof.
    intros d l. induction l as [|c l IH]; intros ls st l2 H S; inversion H; subst; simpl; auto.
    rewrite <- app_assoc. constructor; auto.
  Qed.

  Lemma child_parent : forall n y, In y (get_children t n) -> has_node t y = true /\ In n (parents t y).
  Proof.
    intros n y Hy. rewrite get_children_reg in Hy by apply R. apply filter_In in Hy. destruct Hy as [Hy Hl]. split; auto.
    apply (reg_sym t n y R); auto.
  Qed.

  Lemma below_exists : forall d l, exists ls, below t d l ls.
  Proof.
    destruct (bounded_rank t (g_ok _ _ _ (r_good _ R))) as (rk & HR & HB). set (b := length (nodes t)) in *.
    assert (H : forall k n, b - rk n <= k -> forall d, exists ls, below t d (get_children t n) ls).
    { induction k as [k IH] using lt_wf_ind. intros n Hn d.
      assert (HC : forall y, In y (get_children t n) -> b - rk y < b - rk n).
      { intros y Hy. apply child_parent in Hy. destruct Hy as [_ Hy]. apply HR in Hy. pose proof (HB y). lia. }
      induction (get_children t n) as [|c l IHl]; [exists []; constructor|].
      destruct (IHl (fun y Hy => HC y (or_intror Hy))) as (l2 & H2).
      pose proof (HC c (or_introl eq_refl)) as Lt. destruct (IH (b - rk c)) with (n := c) (d := S d) as (l1 & H1); auto; [lia|].
      exists ((d, c) :: l1 ++ l2). constructor; auto. }
    intros d l. induction l as [|c l (l2 & H2)]; [exists []; constructor|].
    destruct (H _ c (le_n _) (S d)) as (l1 & H1). exists ((d, c) :: l1 ++ l2). constructor; auto.
  Qed.

  Lemma print_ok : exists ls, print_tree t = Ok ls /\ below t 1 (root_children t) ls.
  Proof.
    destruct (below_exists 1 (root_children t)) as (ls & HL). exists ls. split; auto.
    destruct (bounded_rank t (g_ok _ _ _ (r_good _ R))) as (rk & HRk & HBk). set (b := length (nodes t)) in *.
    set (g := fun x => b - rk x). set (mu := fun z : list (nat * id) * list (nat * id) => sum (fun y => (S b) ^ (g y)) (map snd (fst z))).
    assert (CH : forall n, sum (fun y => S b ^ g y) (get_children t n) < S b ^ g n).
    { intros n. apply weight_dec.
      - rewrite get_children_reg by apply R. unfold b. rewrite <- dkeys_length. apply NoDup_incl_length.
        + apply filter_NoDup. apply (ok_ndc _ (g_ok _ _ _ (r_good _ R))).
        + intros y Hy. apply filter_In in Hy. apply has_node_In. tauto.
      - intros y Hy. apply child_parent in Hy. destruct Hy as [_ Hy]. apply HRk in Hy. pose proof (HBk y). unfold g. lia. }
    set (I := fun z : list (nat * id) * list (nat * id) => (forall y, In y (map snd (fst z)) -> has_node t y = true) /\ exists l, stk (fst z) l /\ snd z ++ l = ls).
    assert (ST : forall q out, I (q, out) -> match q with
      | [] => print_step t (q, out) = Stop (Ok ls)
      | (d, n) :: rest => exists z, print_step t (q, out) = Go z /\ I z /\ mu z < mu (q, out) end).
    { intros [|[d n] rest] out [HL1 (l & S & E)]; simpl in *.
      - inversion S; subst. rewrite app_nil_r. reflexivity.
      - destruct (has_node_get _ _ (HL1 n (or_introl eq_refl))) as (nd & ->). eexists. split; [reflexivity|]. split.
        + split; simpl.
          * intros y Hy. rewrite map_app, in_app_iff, map_map in Hy. destruct Hy as [Hy|Hy]; auto. simpl in Hy. rewrite map_id in Hy.
            apply child_parent in Hy. tauto.
          * inversion S as [|? ? ? l1 l2 B1 S2]; subst. exists (l1 ++ l2). split; [apply stk_below; auto|]. rewrite <- app_assoc. reflexivity.
        + unfold mu. simpl. rewrite map_app, map_map. simpl. rewrite map_id. rewrite sum_app. pose proof (CH n). lia. }
    unfold print_tree. rewrite (reg_root_children _ R) in HL.
    destruct (loop_total (print_step t) I mu) with (k := walk_budget b) (s := (map (fun c => (1, c)) (rootc t), @nil (nat * id)))
      as ([q out] & res & E & Is & Es).
    - intros [q out] z' W E. specialize (ST q out W). destruct q as [|[d n] rest]; [rewrite ST in E; discriminate|].
      destruct ST as (z & E2 & W2 & M2). rewrite E2 in E. inv E. split; auto.
    - split; simpl.
      + intros y. rewrite map_map. simpl. rewrite map_id. apply (proj1 (proj2 (r_root _ R))).
      + exists ls. split; auto. pose proof (stk_below 1 _ _ [] [] HL stk_nil) as Q. rewrite !app_nil_r in Q. exact Q.
    - unfold mu. cbn [fst]. rewrite map_map. simpl. rewrite map_id. eapply Nat.le_lt_trans; [|apply (weight_bound' b (S b)); auto].
      assert (HLn : length (rootc t) <= b).
      { unfold b. rewrite <- dkeys_length. apply NoDup_incl_length; [apply (r_root _ R)|].
        intros y Hy. apply has_node_In. apply (proj1 (proj2 (r_root _ R))). auto. }
      pose proof (sum_le (fun y => S b ^ g y) (rootc t) (S b ^ b)) as SL.
      assert (SL' : sum (fun y => S b ^ g y) (rootc t) <= length (rootc t) * S b ^ b).
      { apply SL. intros y _. apply Nat.pow_le_mono_r; [lia|unfold g; lia]. }
      eapply Nat.le_trans; [apply SL'|]. rewrite Nat.pow_succ_r'. nia.
    - fold b. rewrite E. specialize (ST q out Is). destruct q as [|[d n] rest].
      + rewrite ST in Es. inv Es. auto.
      + destruct ST as (z & E2 & _). rewrite E2 in Es. discriminate.
  Qed.
End Print.

Lemma print_lists : forall t, reach calm t -> exists ls, print_tree t = Ok ls /\ below t 1 (root_children t) ls.
Proof. intros t H. apply print_ok. apply MainTight.reach_reg. exact H. Qed.
