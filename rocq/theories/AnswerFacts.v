(** What a view with filters answers. *)
From Coq Require Import Permutation.
From Verif Require Import Base BaseFacts MainTree Spec MainFacts Filters FTree ViewCount Api ViewApi SpecApi ApiFacts SpecView SpecViewing SpecNav FtBase FtThm FtRead NavFacts SpecSys SysFacts SysRead SpecAnswers.

Section Answers.
  Variables (ord : nat -> list id -> list id) (y : sys) (i : nat) (s : ft) (fl : bool).
  Hypothesis Hi : nth_error (s_listeners y) i = Some (LView s).
  Hypothesis Sh : shows (s_tree y) (s_bank y) (LView s).
  Hypothesis Fl : fl = true <-> flattened (s_bank y) (filters s).
  Let t := s_tree y.
  Let shown := satisfying (s_bank y) (s_tree y) (filters s).

  Lemma an_sound : sound s. Proof. apply (up_sound _ _ _ (proj2 Sh)). Qed.
  Lemma an_nodes : forall x, In x (view_all_nodes s) <-> In x shown.
  Proof. apply (up_nodes _ _ _ (proj2 Sh)). Qed.
  Lemma an_perm : Permutation (view_all_nodes s) shown.
  Proof. destruct (up_nodes _ _ _ (proj2 Sh)) as (A & B & C). apply NoDup_Permutation; auto. Qed.
  Lemma an_disp : forall x, In x shown <-> is_displayed s x = true /\ x <> froot s.
  Proof. intros x. rewrite <- an_nodes. apply all_nodes_In. apply an_sound. Qed.
  Lemma an_has : forall x, In x shown -> has_node t x = true.
  Proof. intros x H. unfold shown, satisfying in H. apply filter_In in H. apply has_node_In. tauto. Qed.
  Lemma an_mem : forall p, mem p (view_all_nodes s) = mem p shown.
  Proof.
    intros p. destruct (mem p (view_all_nodes s)) eqn:A, (mem p shown) eqn:B; auto.
    - apply mem_In, an_nodes, mem_In in A. congruence.
    - apply mem_In, an_nodes, mem_In in B. congruence.
  Qed.

  Lemma an_pars : forall x, In x shown -> pars s x = match rows_above fl t shown x with [] => [froot s] | l => l end.
  Proof.
    intros x Hx. destruct (up_pars _ _ _ (proj2 Sh) x (proj2 (an_nodes x) Hx)) as [P1 P2]. unfold rows_above. destruct fl.
    - apply P1, Fl. reflexivity.
    - rewrite P2 by (intros F; apply Fl in F; discriminate). unfold shown_parents. rewrite (filter_ext _ _ an_mem). reflexivity.
  Qed.
  Lemma an_above : forall x p, In p (rows_above fl t shown x) -> In p shown.
  Proof. intros x p. unfold rows_above. destruct fl; [intros []|]. intros H. apply filter_In in H. apply mem_In. tauto. Qed.
  Lemma an_root : ~ In (froot s) shown.
  Proof. intros H. apply an_disp in H. tauto. Qed.

  Lemma an_kids : forall n, among shown n -> forall z, In z (kids s (or_root s n)) <-> In z (rows_below fl t shown n).
  Proof.
    intros n Hn z.
    assert (D : In z (kids s (or_root s n)) -> In z shown).
    { intros H. destruct (sound_kids s _ z an_sound H) as (D1 & _ & D3). apply an_disp. auto. }
    assert (D' : In z (rows_below fl t shown n) -> In z shown).
    { unfold rows_below. destruct n, fl; auto; try (intros []); intros H; apply filter_In in H; tauto. }
    cut (In z shown -> (In (or_root s n) (pars s z) <-> In z (rows_below fl t shown n))).
    { intros C. rewrite (so_sym _ an_sound). split; intros H; apply C; auto. apply D, (so_sym _ an_sound). auto. }
    clear D D'. intros Hz. rewrite (an_pars z Hz). destruct n as [x|]; cbn [or_root among rows_below] in *.
    - assert (Nx : x <> froot s) by (intros ->; apply an_root; auto). unfold rows_above. destruct fl; [simpl; intuition congruence|].
      rewrite filter_In, mem_In.
      assert (Q : In x (get_parents t z) <-> In x (filter (fun p => mem p shown) (get_parents t z))) by (rewrite filter_In, mem_In; tauto).
      rewrite Q. destruct (filter (fun p => mem p shown) (get_parents t z)) as [|p l]; [simpl; intuition congruence|tauto].
    - assert (Q : In (froot s) (match rows_above fl t shown z with [] => [froot s] | l => l end) <-> rows_above fl t shown z = []).
      { pose proof (an_above z) as U. destruct (rows_above fl t shown z) as [|p l]; [simpl; tauto|]. split; [|discriminate].
        intros H. exfalso. apply an_root, U. exact H. }
      rewrite Q. unfold rows_above. destruct fl; [tauto|]. rewrite filter_In, negb_true_iff. split.
      + intros H. split; auto. apply not_true_iff_false. intros E. apply existsb_exists in E.
        assert (E' : exists p, In p (filter (fun p => mem p shown) (get_parents t z))) by (destruct E as (p & E1 & E2); exists p; apply filter_In; auto).
        rewrite H in E'. destruct E' as (p & []).
      + intros [_ H]. destruct (filter (fun p => mem p shown) (get_parents t z)) as [|p l] eqn:E; auto. exfalso. apply not_true_iff_false in H. apply H.
        assert (E' : In p (filter (fun p => mem p shown) (get_parents t z))) by (rewrite E; left; auto). apply filter_In in E'. apply existsb_exists. exists p. auto.
  Qed.

  Lemma an_NoDup : NoDup shown. Proof. destruct (up_nodes _ _ _ (proj2 Sh)) as (A & B & C). exact B. Qed.
  Lemma an_below_NoDup : forall n, NoDup (rows_below fl t shown n).
  Proof. intros n. unfold rows_below. destruct n, fl; [apply NoDup_nil|apply filter_NoDup, an_NoDup|apply an_NoDup|apply filter_NoDup, an_NoDup]. Qed.
  Lemma an_below_in : forall n z, In z (rows_below fl t shown n) -> In z shown.
  Proof. intros n z. unfold rows_below. destruct n, fl; auto; try (intros []); intros H; apply filter_In in H; tauto. Qed.

  Lemma an_way : forall n, among shown n -> forall q, (q <> [] /\ downward (kids s) (or_root s n) q) <-> way_down fl t shown n q.
  Proof.
    intros n Hn q. destruct q as [|c q]; [simpl; tauto|].
    assert (Q : In c (rows_below fl t shown n) -> (downward (kids s) c q <-> downward (fun a => rows_below fl t shown (Some a)) c q)).
    { intros Hc. apply an_below_in in Hc. apply (downward_cong _ _ (fun z => In z shown)).
      - exact (an_kids (Some c) Hc).
      - intros z Hz. apply (an_kids (Some c) Hc) in Hz. apply an_below_in in Hz. exact Hz.
      - intros a z Ha. exact (an_kids (Some a) Ha z).
      - intros a z Ha Hz. apply (an_kids (Some a) Ha) in Hz. apply an_below_in in Hz. exact Hz. }
    cbn [downward way_down]. rewrite (an_kids n Hn c). split.
    - intros [_ [H1 H2]]. split; auto. apply (Q H1). exact H2.
    - intros [H1 H2]. split; [discriminate|]. split; auto. apply (Q H1). exact H2.
  Qed.

  Lemma an_answers_nodes : Permutation (vt_all_nodes i y) shown /\
    (forall x, x <> froot s -> (vt_is_displayed i x y = true <-> In x shown)) /\
    forall names, exists l, vt_nodes ord i names y = (y, Ok l) /\ vt_n_nodes ord i names y = (y, Ok (length l)) /\
      Permutation l (filter (fun n => forallb (fun name => match get_filter (s_bank y) name with
        | Some f => xorb (f_fun f (s_tree y) n (f_dic f)) (match f_dic f with Some d => p_negate d | None => false end)
        | None => true
        end) names) shown).
  Proof.
    unfold vt_all_nodes, vt_is_displayed, vt_nodes, vt_n_nodes, vt_filtered. rewrite Hi. split; [apply an_perm|]. split.
    - intros x Nx. rewrite an_disp. tauto.
    - intros names. destruct (counted_nodes (s_bank y) (s_tree y) s names an_sound) as [C1 C2].
      { intros x Hx. apply an_has, an_nodes. auto. }
      eexists. split; [reflexivity|]. split; [rewrite C2; auto|]. rewrite C1. apply NoDup_Permutation.
      + apply filter_NoDup. apply (proj1 (up_nodes _ _ _ (proj2 Sh))).
      + apply filter_NoDup. apply an_NoDup.
      + intros x. rewrite !filter_In, an_nodes. reflexivity.
  Qed.

  Lemma an_answers_rows : forall n, among shown n -> exists l, vt_all_children i n y = Ok l /\ Permutation l (rows_below fl t shown n) /\
    vt_n_children ord i n false y = (y, Ok (length l)) /\
    (exists L, NoDup L /\ (forall q, In q L <-> way_down fl t shown n q) /\ vt_n_children ord i n true y = (y, Ok (length L))) /\
    forall x, n = Some x -> (exists b, vt_has_child i x y = Ok b /\ (b = true <-> l <> [])) /\
      (forall k, vt_nth_child i n k y = match nth_error l k with Some c => Ok c | None => Err ValueError end) /\
      forall k c, x <> "" -> nth_error l k = Some c -> vt_next_node i c n y = Ok (nth_error l (S k)).
  Proof.
    intros n Hn. unfold vt_all_children, vt_n_children, vt_has_child, vt_nth_child, vt_next_node, vt_filtered. rewrite Hi.
    assert (Dn : is_displayed s (or_root s n) = true).
    { destruct n as [x|]; cbn [or_root among] in *; [apply an_disp; auto|apply an_sound]. }
    destruct (nav_children s n) as [C _]. fold (or_root s n) in C. specialize (C Dn). exists (kids s (or_root s n)). split; [exact C|]. split.
    { apply NoDup_Permutation; [apply an_sound|apply an_below_NoDup|]. apply an_kids. exact Hn. }
    split; [rewrite direct_count; reflexivity|]. split.
    { destruct (sound_count s n an_sound) as (L & L1 & L2 & L3). exists L. split; auto. split; [intros q; rewrite L2; apply an_way; auto|]. rewrite L3. reflexivity. }
    intros x ->. cbn [or_root] in *. destruct (nav_has_child s x) as [B _]. split; [exact (B Dn)|]. split.
    - intros k. destruct (nav_nth s x k) as [N1 N2]. destruct (nth_error (kids s x) k) as [c|]; auto.
    - intros k c Nx Hk. apply nav_next; auto. apply an_sound.
  Qed.

  Lemma an_answers_parents : forall x, In x shown -> exists l, vt_parents i x y = Ok l /\ l = rows_above fl t shown x /\
    vt_has_parent i x y = Ok (match l with [] => false | _ => true end).
  Proof.
    intros x Hx. exists (rows_above fl t shown x). unfold vt_has_parent, vt_parents. rewrite Hi.
    destruct (nav_parents s x an_sound) as [P _]. rewrite (P (proj1 (proj1 (an_disp x) Hx))).
    assert (E : proper_parents s x = rows_above fl t shown x).
    { unfold proper_parents. rewrite (an_pars x Hx). pose proof (an_above x) as U. destruct (rows_above fl t shown x) as [|p l].
      - simpl. rewrite String.eqb_refl. reflexivity.
      - apply filter_id. intros z Hz. apply negb_true_iff, String.eqb_neq. intros ->. apply an_root, U, Hz. }
    rewrite E. auto.
  Qed.

  Lemma an_answers_paths : (forall x, In x shown -> exists P, vt_paths i x y = Ok P /\ NoDup P /\ forall q, In q P <-> way_down fl t shown None q /\ last q "" = x) /\
    forall q, exists r, vt_node_for_path i q y = Ok r /\ forall x, r = Some x <-> way_down fl t shown None q /\ last q "" = x.
  Proof.
    unfold vt_paths, vt_node_for_path. rewrite Hi.
    assert (W : forall q, view_path s q <-> way_down fl t shown None q) by (intros q; apply (an_way None I q)).
    split.
    - intros x Hx. destruct (sound_paths s x an_sound (proj2 (an_nodes x) Hx)) as (P & P1 & P2 & P3). exists P. split; auto. split; auto. intros q. rewrite P3, W. tauto.
    - intros q. destruct (sound_lookup s q an_sound) as (r & R1 & R2). exists r. split; auto. intros x. rewrite R2, W. tauto.
  Qed.

  Lemma an_answers_missing : forall x, x <> froot s -> ~ In x shown ->
    vt_is_displayed i x y = false /\ vt_all_children i (Some x) y = Err KeyError /\ vt_has_child i x y = Err KeyError /\
    (forall b, vt_n_children ord i (Some x) b y = (y, Ok 0)) /\ (forall k, vt_nth_child i (Some x) k y = Err ValueError) /\
    vt_parents i x y = Err IndexError /\ vt_has_parent i x y = Err IndexError /\ vt_paths i x y = Ok [[]] /\
    forall p, p <> "" -> vt_next_node i x (Some p) y = Err PyException.
  Proof.
    intros x Nx Hx. unfold vt_is_displayed, vt_all_children, vt_has_child, vt_n_children, vt_nth_child, vt_has_parent, vt_parents, vt_paths, vt_next_node, vt_filtered. rewrite Hi.
    assert (D : is_displayed s x = false) by (apply not_true_iff_false; intros D; apply Hx, an_disp; auto).
    split; auto. split; [apply (nav_children s (Some x)); auto|]. split; [apply (nav_has_child s x); auto|]. split.
    { intros [|]; [|rewrite direct_count; cbn [or_root]; rewrite (nodisp_kids s x D); reflexivity].
      destruct (sound_count s (Some x) an_sound) as (L & L1 & L2 & L3). rewrite L3. destruct L as [|q L]; auto. exfalso.
      destruct (proj1 (L2 q) (or_introl eq_refl)) as [Q1 Q2]. destruct q as [|c q]; [congruence|]. cbn [or_root downward] in Q2. rewrite (nodisp_kids s x D) in Q2. tauto. }
    split; [intros k; apply (nav_nth s x k); rewrite (nodisp_kids s x D); destruct k; auto|].
    destruct (nav_parents s x an_sound) as [_ P]. rewrite (P D). split; auto. split; auto. split; [apply other_paths; auto|].
    intros p Np. apply nav_next_raises; auto.
  Qed.
End Answers.

Lemma answers_nodes : forall ord y i s, nth_error (s_listeners y) i = Some (LView s) -> shows (s_tree y) (s_bank y) (LView s) ->
  let shown := satisfying (s_bank y) (s_tree y) (filters s) in
  Permutation (vt_all_nodes i y) shown /\
  (forall x, x <> froot s -> (vt_is_displayed i x y = true <-> In x shown)) /\
  forall names, exists l, vt_nodes ord i names y = (y, Ok l) /\ vt_n_nodes ord i names y = (y, Ok (length l)) /\
    Permutation l (filter (fun n => forallb (fun name => match get_filter (s_bank y) name with
      | Some f => xorb (f_fun f (s_tree y) n (f_dic f)) (match f_dic f with Some d => p_negate d | None => false end)
      | None => true
      end) names) shown).
Proof.
  intros ord y i s H1 H2. first [exact (an_answers_nodes ord y i s (flat s) H1 H2 (up_flat _ _ _ (proj2 H2))) | exact (an_answers_nodes y i s (flat s) H1 H2 (up_flat _ _ _ (proj2 H2)))].
Qed.
Lemma answers_rows : forall ord y i s fl, nth_error (s_listeners y) i = Some (LView s) -> shows (s_tree y) (s_bank y) (LView s) ->
  (fl = true <-> flattened (s_bank y) (filters s)) ->
  let t := s_tree y in let shown := satisfying (s_bank y) (s_tree y) (filters s) in
  forall n, among shown n -> exists l, vt_all_children i n y = Ok l /\ Permutation l (rows_below fl t shown n) /\
    vt_n_children ord i n false y = (y, Ok (length l)) /\
    (exists L, NoDup L /\ (forall q, In q L <-> way_down fl t shown n q) /\ vt_n_children ord i n true y = (y, Ok (length L))) /\
    forall x, n = Some x -> (exists b, vt_has_child i x y = Ok b /\ (b = true <-> l <> [])) /\
      (forall k, vt_nth_child i n k y = match nth_error l k with Some c => Ok c | None => Err ValueError end) /\
      forall k c, x <> "" -> nth_error l k = Some c -> vt_next_node i c n y = Ok (nth_error l (S k)).
Proof.
  intros ord y i s fl H1 H2 H3. first [exact (an_answers_rows ord y i s fl H1 H2 H3) | exact (an_answers_rows y i s fl H1 H2 H3)].
Qed.
Lemma answers_parents : forall y i s fl, nth_error (s_listeners y) i = Some (LView s) -> shows (s_tree y) (s_bank y) (LView s) ->
  (fl = true <-> flattened (s_bank y) (filters s)) ->
  let t := s_tree y in let shown := satisfying (s_bank y) (s_tree y) (filters s) in
  forall x, In x shown -> exists l, vt_parents i x y = Ok l /\ l = rows_above fl t shown x /\
    vt_has_parent i x y = Ok (match l with [] => false | _ => true end).
Proof.
  intros y i s fl H1 H2 H3. first [exact (an_answers_parents (fun _ l => l) y i s fl H1 H2 H3) | exact (an_answers_parents y i s fl H1 H2 H3)].
Qed.
Lemma answers_paths : forall y i s fl, nth_error (s_listeners y) i = Some (LView s) -> shows (s_tree y) (s_bank y) (LView s) ->
  (fl = true <-> flattened (s_bank y) (filters s)) ->
  let t := s_tree y in let shown := satisfying (s_bank y) (s_tree y) (filters s) in
  (forall x, In x shown -> exists P, vt_paths i x y = Ok P /\ NoDup P /\ forall q, In q P <-> way_down fl t shown None q /\ last q "" = x) /\
  forall q, exists r, vt_node_for_path i q y = Ok r /\ forall x, r = Some x <-> way_down fl t shown None q /\ last q "" = x.
Proof.
  intros y i s fl H1 H2 H3. first [exact (an_answers_paths (fun _ l => l) y i s fl H1 H2 H3) | exact (an_answers_paths y i s fl H1 H2 H3)].
Qed.
Lemma answers_missing : forall ord y i s, nth_error (s_listeners y) i = Some (LView s) -> shows (s_tree y) (s_bank y) (LView s) ->
  let shown := satisfying (s_bank y) (s_tree y) (filters s) in
  forall x, x <> froot s -> ~ In x shown ->
  vt_is_displayed i x y = false /\ vt_all_children i (Some x) y = Err KeyError /\ vt_has_child i x y = Err KeyError /\
  (forall b, vt_n_children ord i (Some x) b y = (y, Ok 0)) /\ (forall k, vt_nth_child i (Some x) k y = Err ValueError) /\
  vt_parents i x y = Err IndexError /\ vt_has_parent i x y = Err IndexError /\ vt_paths i x y = Ok [[]] /\
  forall p, p <> "" -> vt_next_node i x (Some p) y = Err PyException.
Proof.
  intros ord y i s H1 H2. first [exact (an_answers_missing ord y i s (flat s) H1 H2 (up_flat _ _ _ (proj2 H2))) | exact (an_answers_missing y i s (flat s) H1 H2 (up_flat _ _ _ (proj2 H2)))].
Qed.
