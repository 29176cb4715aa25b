(** Lemmas about named views and counts. *)
From Verif Require Import Base BaseFacts MainTree Filters FTree ViewCount Api SpecApi ApiFacts.

Section Sys.
  Variable ord : nat -> list id -> list id.
  Local Notation sys_call := (sys_call ord).
  Local Notation sys_calls := (sys_calls ord).

  Record wired (y : sys) : Prop := mkWired {
    wi_view : forall x i, dget x (s_views y) = Some i -> i < length (s_listeners y);
    wi_count : forall x i, dget x (s_counts y) = Some i -> i < length (s_listeners y);
    wi_inj : forall x x' i, dget x (s_views y) = Some i -> dget x' (s_views y) = Some i -> x = x';
    wi_injc : forall x x' i, dget x (s_counts y) = Some i -> dget x' (s_counts y) = Some i -> x = x'
  }.

  Definition later (y y' : sys) : Prop :=
    (forall x i, dget x (s_views y) = Some i -> dget x (s_views y') = Some i) /\
    (forall x i, dget x (s_counts y) = Some i -> dget x (s_counts y') = Some i) /\
    length (s_listeners y) <= length (s_listeners y').

  Lemma later_refl : forall y, later y y.
  Proof. repeat split; auto. Qed.
  Lemma later_trans : forall a b c, later a b -> later b c -> later a c.
  Proof. intros a b c (A1 & A2 & A3) (B1 & B2 & B3). repeat split; auto. lia. Qed.

  Definition fine (y y' : sys) : Prop := wired y -> wired y' /\ later y y'.

  Lemma fine_same : forall y y', s_views y' = s_views y -> s_counts y' = s_counts y ->
    length (s_listeners y) <= length (s_listeners y') -> fine y y'.
  Proof.
    intros y y' E1 E2 E3 [A B C D]. split.
    - constructor; rewrite ?E1, ?E2; auto; intros x i H; [apply A in H|apply B in H]; lia.
    - unfold later. rewrite E1, E2. auto.
  Qed.

  Lemma notify_all_length : forall b e ls, length (fst (notify_all ord b e ls)) = length ls.
  Proof.
    induction ls as [|l ls IH]; simpl; auto. destruct (notify ord b e l) as [l1 r]. destruct r; simpl; auto.
    destruct (notify_all ord b e ls) as [ls1 r]. simpl in *. auto.
  Qed.

  Lemma deliver_length : forall b es ls, length (fst (deliver ord b es ls)) = length ls.
  Proof.
    induction es as [|e es IH]; simpl; intros; auto. pose proof (notify_all_length b e ls) as L.
    destruct (notify_all ord b e ls) as [ls1 r]. simpl in L. destruct r; simpl; auto. rewrite IH. auto.
  Qed.

  Lemma set_nth_length : forall A i (x : A) l, length (set_nth i x l) = length l.
  Proof. induction i; destruct l; simpl; auto. Qed.

  Lemma view_fine : forall name r y, fine y (fst (get_viewtree ord name r y)).
  Proof.
    intros name r y. unfold get_viewtree.
    set (fc := if r then _ else _). destruct fc as [s1 r1].
    assert (New : fine y (fst (let s2 := mkFT (froot s1) (fnodes s1) (flat s1) (filters s1) (runonce s1) [] (tick s1) in
      match r1 with
      | Ok _ =>
          (mkSys (s_tree y) (s_bank y) (s_listeners y ++ [LView s2])
                 (match name with Some x => dset x (length (s_listeners y)) (s_views y) | None => s_views y end)
                 (s_counts y), Ok (length (s_listeners y)))
      | Err e =>
          (mkSys (s_tree y) (s_bank y) (s_listeners y ++ [LView s2]) (s_views y) (s_counts y), Err e)
      | Diverge =>
          (mkSys (s_tree y) (s_bank y) (s_listeners y ++ [LView s2]) (s_views y) (s_counts y), Diverge)
      end)) \/ exists x, name = Some x /\ dget x (s_views y) <> None).
    { destruct name as [x|].
      - destruct (dget x (s_views y)) as [i|] eqn:E; [right; exists x; split; auto; congruence|]. left. cbv zeta. destruct r1.
        + cbn [fst]. intros [A B C D]. cbn [s_views s_counts s_listeners] in *. split; [constructor|]; cbn [s_views s_counts s_listeners].
          * intros z i. rewrite dget_dset, app_length. simpl. deq z x; [intros H; inv H; lia|intros H; apply A in H; lia].
          * intros z i H. rewrite app_length. apply B in H. simpl. lia.
          * intros z z' i. rewrite !dget_dset. deq z x; deq z' x; intros H1 H2; try congruence.
            -- inv H1. apply A in H2. lia.
            -- inv H2. apply A in H1. lia.
            -- eapply C; eauto.
          * auto.
          * unfold later. cbn [s_views s_counts s_listeners]. rewrite app_length. split; [|split; auto; lia].
            intros z i H. rewrite dget_dset. deq z x; auto. congruence.
        + cbn [fst]. apply fine_same; cbn [s_views s_counts s_listeners]; rewrite ?app_length; auto; lia.
        + cbn [fst]. apply fine_same; cbn [s_views s_counts s_listeners]; rewrite ?app_length; auto; lia.
      - left. cbv zeta. destruct r1; cbn [fst]; apply fine_same; cbn [s_views s_counts s_listeners]; rewrite ?app_length; auto; lia. }
    destruct name as [x|].
    - destruct (dget x (s_views y)) as [i|] eqn:E; [apply fine_same; auto|]. destruct New as [New|(x' & Q1 & Q2)]; auto. inv Q1. congruence.
    - destruct New as [New|(x' & Q1 & Q2)]; auto. discriminate.
  Qed.

  Lemma count_fine : forall name r y, fine y (fst (get_viewcount name r y)).
  Proof.
    intros name r y. unfold get_viewcount.
    set (fc := if r then _ else _). destruct fc as [v1 r1].
    assert (New : fine y (fst (
      match r1 with
      | Ok _ =>
          (mkSys (s_tree y) (s_bank y) (s_listeners y ++ [LCount v1]) (s_views y)
                 (match name with Some x => dset x (length (s_listeners y)) (s_counts y) | None => s_counts y end),
           Ok (length (s_listeners y)))
      | Err e =>
          (mkSys (s_tree y) (s_bank y) (s_listeners y ++ [LCount v1]) (s_views y) (s_counts y), Err e)
      | Diverge =>
          (mkSys (s_tree y) (s_bank y) (s_listeners y ++ [LCount v1]) (s_views y) (s_counts y), Diverge)
      end)) \/ exists x, name = Some x /\ dget x (s_counts y) <> None).
    { destruct name as [x|].
      - destruct (dget x (s_counts y)) as [i|] eqn:E; [right; exists x; split; auto; congruence|]. left. destruct r1.
        + cbn [fst]. intros [A B C D]. cbn [s_views s_counts s_listeners] in *. split; [constructor|]; cbn [s_views s_counts s_listeners].
          * intros z i H. rewrite app_length. apply A in H. simpl. lia.
          * intros z i. rewrite dget_dset, app_length. simpl. deq z x; [intros H; inv H; lia|intros H; apply B in H; lia].
          * auto.
          * intros z z' i. rewrite !dget_dset. deq z x; deq z' x; intros H1 H2; try congruence.
            -- inv H1. apply B in H2. lia.
            -- inv H2. apply B in H1. lia.
            -- eapply D; eauto.
          * unfold later. cbn [s_views s_counts s_listeners]. rewrite app_length. split; [auto|split; [|lia]].
            intros z i H. rewrite dget_dset. deq z x; auto. congruence.
        + cbn [fst]. apply fine_same; cbn [s_views s_counts s_listeners]; rewrite ?app_length; auto; lia.
        + cbn [fst]. apply fine_same; cbn [s_views s_counts s_listeners]; rewrite ?app_length; auto; lia.
      - left. destruct r1; cbn [fst]; apply fine_same; cbn [s_views s_counts s_listeners]; rewrite ?app_length; auto; lia. }
    destruct name as [x|].
    - destruct (dget x (s_counts y)) as [i|] eqn:E; [apply fine_same; auto|]. destruct New as [New|(x' & Q1 & Q2)]; auto. inv Q1. congruence.
    - destruct New as [New|(x' & Q1 & Q2)]; auto. discriminate.
  Qed.

  Lemma call_fine : forall c y, fine y (sys_call c y).
  Proof.
    intros c y. destruct c; cbn [SpecApi.sys_call].
    - unfold tree_call. destruct (run_op o (s_tree y)) as [[t1 es] r].
      pose proof (deliver_length (s_bank y) es (s_listeners y)) as L.
      destruct (deliver ord (s_bank y) es (s_listeners y)) as [ls [[t2 r2]|]]; cbn [fst] in *; apply fine_same; cbn; auto; lia.
    - apply view_fine.
    - apply count_fine.
    - unfold view_apply_filter. destruct (nth_error (s_listeners y) view) as [[h|s|v]|]; try (apply fine_same; auto; fail).
      destruct (apply_filter _ _ _ _ _ _ _ _) as [[b1 s1] r]. apply fine_same; cbn; auto. rewrite set_nth_length. auto.
    - unfold view_unapply_filter. destruct (nth_error (s_listeners y) view) as [[h|s|v]|]; try (apply fine_same; auto; fail).
      destruct (unapply_filter _ _ _ _ _ _) as [s1 r]. apply fine_same; cbn; auto. rewrite set_nth_length. auto.
    - unfold view_reset_filters. destruct (nth_error (s_listeners y) view) as [[h|s|v]|]; try (apply fine_same; auto; fail).
      destruct (reset_filters _ _ _ _ _) as [s1 r]. apply fine_same; cbn; auto. rewrite set_nth_length. auto.
    - apply fine_same; auto.
    - unfold main_filtered. destruct (nth_error (s_listeners y) 0) as [[[h|]|s|v]|]; try (apply fine_same; auto; fail).
      pose proof (view_fine None true y) as F. destruct (get_viewtree ord None true y) as [y1 [i|e|]]; cbn [fst] in *; auto.
      intros W. destruct (F W) as [W1 L1]. destruct (fine_same y1 (mkSys (s_tree y1) (s_bank y1) (set_nth 0 (LMain (Some i)) (s_listeners y1)) (s_views y1) (s_counts y1))) as [W2 L2]; auto.
      { cbn [s_listeners]. rewrite set_nth_length. auto. }
      split; auto. eapply later_trans; eauto.
  Qed.

  Lemma calls_fine : forall l y, fine y (sys_calls l y).
  Proof.
    induction l as [|c l IH]; intros y; [apply fine_same; auto|]. intros W. cbn [SpecApi.sys_calls fold_left].
    destruct (call_fine c y W) as [W1 L1]. destruct (IH (sys_call c y) W1) as [W2 L2].
    split; auto. eapply later_trans; eauto.
  Qed.

  Lemma new_wired : wired new_sys.
  Proof.
    constructor; simpl; try discriminate.
    - intros x i. destruct (String.eqb x "main"); [intros H; inv H; auto|discriminate].
    - intros x x' i. deq x "main"; [|discriminate]. deq x' "main"; [|discriminate]. congruence.
  Qed.

  Lemma view_result : forall x r y i, snd (get_viewtree ord (Some x) r y) = Ok i ->
    dget x (s_views (fst (get_viewtree ord (Some x) r y))) = Some i.
  Proof.
    intros x r y i. unfold get_viewtree. destruct (if r then _ else _) as [s1 r1].
    destruct (dget x (s_views y)) as [j|] eqn:E; [intros H; inv H; auto|].
    destruct r1; cbn [fst snd]; intros H; inv H. cbn [s_views]. apply dget_dset_same.
  Qed.

  Lemma view_found : forall x r y i, dget x (s_views y) = Some i -> get_viewtree ord (Some x) r y = (y, Ok i).
  Proof. intros x r y i H. unfold get_viewtree. destruct (if r then _ else _) as [s1 r1]. rewrite H. auto. Qed.

  Lemma count_result : forall x r y i, snd (get_viewcount (Some x) r y) = Ok i ->
    dget x (s_counts (fst (get_viewcount (Some x) r y))) = Some i.
  Proof.
    intros x r y i. unfold get_viewcount. destruct (if r then _ else _) as [s1 r1].
    destruct (dget x (s_counts y)) as [j|] eqn:E; [intros H; inv H; auto|].
    destruct r1; cbn [fst snd]; intros H; inv H. cbn [s_counts]. apply dget_dset_same.
  Qed.

  Lemma count_found : forall x r y i, dget x (s_counts y) = Some i -> get_viewcount (Some x) r y = (y, Ok i).
  Proof. intros x r y i H. unfold get_viewcount. destruct (if r then _ else _) as [s1 r1]. rewrite H. auto. Qed.

  Lemma view_again : forall l x r i l' r', let y := sys_calls l new_sys in
    snd (get_viewtree ord (Some x) r y) = Ok i ->
    let y' := sys_calls l' (fst (get_viewtree ord (Some x) r y)) in
    get_viewtree ord (Some x) r' y' = (y', Ok i).
  Proof.
    intros l x r i l' r' y H y'. apply view_found.
    destruct (calls_fine l new_sys new_wired) as [W _]. destruct (view_fine (Some x) r y W) as [W1 _].
    destruct (calls_fine l' _ W1) as [_ (L & _)]. apply L. apply view_result; auto.
  Qed.

  Lemma count_again : forall l x r i l' r', let y := sys_calls l new_sys in
    snd (get_viewcount (Some x) r y) = Ok i ->
    let y' := sys_calls l' (fst (get_viewcount (Some x) r y)) in
    get_viewcount (Some x) r' y' = (y', Ok i).
  Proof.
    intros l x r i l' r' y H y'. apply count_found.
    destruct (calls_fine l new_sys new_wired) as [W _]. destruct (count_fine (Some x) r y W) as [W1 _].
    destruct (calls_fine l' _ W1) as [_ (_ & L & _)]. apply L. apply count_result; auto.
  Qed.

  Lemma views_differ : forall l x r i l' x' r' i', let y := sys_calls l new_sys in
    snd (get_viewtree ord (Some x) r y) = Ok i ->
    let y' := sys_calls l' (fst (get_viewtree ord (Some x) r y)) in
    snd (get_viewtree ord (Some x') r' y') = Ok i' -> x <> x' -> i <> i'.
  Proof.
    intros l x r i l' x' r' i' y H y' H' Hne Hi. subst i'. apply Hne.
    destruct (calls_fine l new_sys new_wired) as [W _]. destruct (view_fine (Some x) r y W) as [W1 _].
    destruct (calls_fine l' _ W1) as [W2 (L & _)]. destruct (view_fine (Some x') r' y' W2) as [W3 (L3 & _)].
    apply (wi_inj _ W3 x x' i); [|apply view_result; auto]. apply L3, L. apply view_result; auto.
  Qed.

  Lemma anonymous_new : forall r y i, snd (get_viewtree ord None r y) = Ok i ->
    nth_error (s_listeners y) i = None /\
    (exists s, nth_error (s_listeners (fst (get_viewtree ord None r y))) i = Some (LView s)) /\
    s_views (fst (get_viewtree ord None r y)) = s_views y.
  Proof.
    intros r y i. unfold get_viewtree. destruct (if r then _ else _) as [s1 r1]. destruct r1; cbn [fst snd]; intros H; inv H.
    split; [apply nth_error_None; auto|]. split; auto. cbn [s_listeners]. rewrite nth_error_app2, Nat.sub_diag by auto. simpl. eauto.
  Qed.

  Lemma new_name_new : forall l x r i, let y := sys_calls l new_sys in
    (forall j, dget x (s_views y) <> Some j) -> snd (get_viewtree ord (Some x) r y) = Ok i ->
    nth_error (s_listeners y) i = None /\
    exists s, nth_error (s_listeners (fst (get_viewtree ord (Some x) r y))) i = Some (LView s).
  Proof.
    intros l x r i y Hx. unfold get_viewtree. destruct (if r then _ else _) as [s1 r1].
    destruct (dget x (s_views y)) as [j|] eqn:E; [exfalso; eapply Hx; reflexivity|].
    destruct r1; cbn [fst snd]; intros H; inv H.
    split; [apply nth_error_None; auto|]. cbn [s_listeners]. rewrite nth_error_app2, Nat.sub_diag by auto. simpl. eauto.
  Qed.
End Sys.
