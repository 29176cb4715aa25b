(** What the main view reports. *)
From Coq Require Import Permutation.
From Verif Require Import Base BaseFacts MainTree Spec MainFacts MainInv MainReg MainTight MainLaws MainThm Filters FTree ViewCount Api ViewApi SpecApi ApiFacts CountFacts
  SpecView SpecViewing FtThm FtRead FtQuiet SpecSys SysFacts.

Lemma downward_cong : forall (f g : id -> list id) (K : id -> Prop) q x y, (forall z, In z (f x) <-> In z (g y)) ->
  (forall z, In z (f x) -> K z) -> (forall a z, K a -> (In z (f a) <-> In z (g a))) -> (forall a z, K a -> In z (f a) -> K z) ->
  (downward f x q <-> downward g y q).
Proof.
  intros f g K q. induction q as [|c q IH]; intros x y H1 H2 H3 H4; simpl; [tauto|].
  split; intros [A B].
  - split; [apply H1; auto|]. apply (IH c c); eauto.
  - apply H1 in A. split; auto. apply (IH c c); eauto.
Qed.

Section Read.
  Variable ord : nat -> list id -> list id.
  Hypothesis HO : forall k l, Permutation (ord k l) l.

  Lemma filtered_main : forall y, library ord y -> has_node (s_tree y) (root_name None) = false ->
    exists y' s, vt_filtered ord 0 y = (y', Ok s) /\ s_tree y' = s_tree y /\ s_bank y' = s_bank y /\
      uptodate (s_tree y) (s_bank y) s /\ no_clash (s_tree y) s /\ filters s = [].
  Proof.
    intros y L N. pose proof (library_sinv ord HO y L) as I. destruct (i_main _ I) as (h & M1 & M2).
    unfold vt_filtered, main_filtered. rewrite M1. destruct h as [i|].
    - destruct (M2 i eq_refl) as (s & S1 & S2 & S3). rewrite S1. exists y, s. destruct (i_all _ I i _ S1). repeat (split; auto).
    - unfold get_viewtree. destruct (new_view ord HO None y I N) as (s & E & [L1 L2] & F & Ro). rewrite E. cbn [fst snd s_tree s_bank s_listeners s_views s_counts].
      set (s2 := mkFT _ _ _ _ _ _ _).
      assert (M0 : nth_error (s_listeners y ++ [LView s2]) 0 = Some (LMain None)) by (rewrite nth_error_app1; auto; apply nth_error_Some; congruence).
      assert (Q : nth_error (set_nth 0 (LMain (Some (length (s_listeners y)))) (s_listeners y ++ [LView s2])) (length (s_listeners y)) = Some (LView s2)).
      { rewrite nth_set. destruct (Nat.eqb_spec (length (s_listeners y)) 0) as [Q|Q]; [destruct (s_listeners y); [discriminate|simpl in Q; lia]|].
        rewrite nth_error_app2, Nat.sub_diag by lia. auto. }
      rewrite Q. eexists. exists s2. split; [reflexivity|]. cbn [s_tree s_bank]. split; auto. split; auto.
      split; [apply (same_uptodate _ _ s); auto|]. split; [exact L1|]. exact F.
  Qed.

  Lemma all_satisfy : forall b t, satisfying b t [] = get_all_nodes t.
  Proof. intros b t. unfold satisfying. simpl. induction (get_all_nodes t); simpl; congruence. Qed.

  Lemma not_flat : forall b, ~ flattened b [].
  Proof. intros b (name & f & d & [] & _). Qed.

  Lemma whole_pars : forall t b s, uptodate t b s -> filters s = [] -> forall x, In x (view_all_nodes s) ->
    pars s x = match get_parents t x with [] => [froot s] | l => l end.
  Proof.
    intros t b s U F x Hx. destruct U as [U1 (U2 & U2' & U2'') U3 U4]. rewrite F in *. rewrite (proj2 (U3 x Hx) (not_flat b)). unfold shown_parents.
    replace (filter (fun p => mem p (view_all_nodes s)) (get_parents t x)) with (get_parents t x); auto.
    symmetry. apply filter_id. intros p Hp. apply mem_In. apply U2''. rewrite all_satisfy.
    unfold get_parents in Hp. destruct (dget x (nodes t)) as [nd|]; [|destruct Hp]. destruct (pen nd); [|destruct Hp]. apply filter_In in Hp. apply has_node_In. tauto.
  Qed.

  Lemma whole_nodes : forall t b s, uptodate t b s -> filters s = [] -> forall x, In x (view_all_nodes s) <-> has_node t x = true.
  Proof. intros t b s U F x. destruct U as [_ (_ & _ & U2) _ _]. rewrite U2, F, all_satisfy. split; apply has_node_In. Qed.

  Lemma whole_kids : forall t b s, reach calm t -> no_clash t s -> uptodate t b s -> filters s = [] -> forall n, standing t n ->
    forall z, In z (kids s (match n with None => froot s | Some x => x end)) <-> In z (main_kids t (id_of n)).
  Proof.
    intros t b s R N U F n Hn z. pose proof (reach_reg t R) as RG. pose proof (up_sound _ _ _ U) as So.
    assert (D : In z (kids s (match n with None => froot s | Some x => x end)) -> In z (view_all_nodes s)).
    { intros H. destruct (sound_kids s _ z So H) as (D1 & _ & D3). apply all_nodes_In; [apply So|]. auto. }
    assert (Nr : forall x, has_node t x = true -> x <> main_root) by (intros x Hx ->; pose proof (r_main _ RG); congruence).
    assert (Nf : forall x, has_node t x = true -> x <> froot s) by (intros x Hx ->; destruct N; congruence).
    destruct (root_exact t R) as [_ RE].
    destruct n as [x|]; simpl in Hn; unfold main_kids, id_of.
    - deq x main_root; [destruct (Nr x Hn); auto|]. rewrite <- (agree t R x z). rewrite (so_sym _ So). split; intros H.
      + assert (Hz : In z (view_all_nodes s)) by (apply D, (so_sym _ So); auto). rewrite (whole_pars t b s U F z Hz) in H.
        destruct (get_parents t z) as [|p l]; auto. destruct H as [H|[]]. destruct (Nf x Hn). auto.
      + assert (Hz : In z (view_all_nodes s)).
        { apply (whole_nodes t b s U F). unfold get_parents in H. unfold has_node, dmem. destruct (dget z (nodes t)); auto. }
        rewrite (whole_pars t b s U F z Hz). destruct (get_parents t z); [destruct H|auto].
    - rewrite String.eqb_refl. rewrite RE, (so_sym _ So). split; intros H.
      + assert (Hz : In z (view_all_nodes s)) by (apply D, (so_sym _ So); auto). split; [apply (whole_nodes t b s U F); auto|].
        rewrite (whole_pars t b s U F z Hz) in H. destruct (get_parents t z) as [|p l] eqn:E; auto. exfalso.
        assert (Hp : In (froot s) (get_parents t z)) by (rewrite E; auto).
        unfold get_parents in Hp. destruct (dget z (nodes t)) as [nd|]; [|destruct Hp]. destruct (pen nd); [|destruct Hp]. apply filter_In in Hp.
        destruct (Nf (froot s)); tauto.
      + destruct H as [H1 H2]. rewrite (whole_pars t b s U F z), H2; simpl; auto. apply (whole_nodes t b s U F). auto.
  Qed.

  Lemma get_children_alive : forall t p c, In c (get_children t p) -> has_node t c = true.
  Proof.
    intros t p c H. unfold get_children in H. destruct (dget p (nodes t)) as [nd|]; [|destruct H]. destruct (cen nd); [|destruct H]. apply filter_In in H. tauto.
  Qed.

  Lemma main_kids_NoDup : forall t x, reach calm t -> NoDup (main_kids t x).
  Proof.
    intros t x R. unfold main_kids. deq x main_root; [apply (root_exact t R)|]. unfold get_children.
    pose proof (ok_ndc _ (g_ok _ _ _ (r_good _ (reach_reg t R))) x) as N. unfold childs in N.
    destruct (dget x (nodes t)) as [nd|]; [|constructor]. destruct (cen nd); [|constructor]. apply filter_NoDup. auto.
  Qed.

  Lemma main_kids_alive : forall t x c, reach calm t -> In c (main_kids t x) -> has_node t c = true.
  Proof.
    intros t x c R. unfold main_kids. deq x main_root; [intros H; apply (root_exact t R) in H; tauto|apply get_children_alive].
  Qed.

  Lemma main_children : forall y, library ord y -> forall n, standing (s_tree y) n ->
    vt_all_children 0 n y = Ok (main_kids (s_tree y) (id_of n)).
  Proof.
    intros y L n Hn. pose proof (library_sinv ord HO y L) as I. destruct (i_main _ I) as (h & M1 & _). unfold vt_all_children. rewrite M1.
    pose proof (i_reg _ I) as RG. unfold static_all_children. destruct n as [x|]; simpl in Hn; cbn [falsy id_of].
    - rewrite Hn, orb_true_r. unfold node_of, raw_children, main_kids, get_children.
      deq x main_root; [pose proof (r_main _ RG); congruence|]. apply has_node_get in Hn. destruct Hn as (nd & ->). auto.
    - unfold main_kids. rewrite String.eqb_refl. auto.
  Qed.

  Lemma main_counts : forall y, library ord y -> has_node (s_tree y) (root_name None) = false -> forall n, standing (s_tree y) n ->
    snd (vt_n_children ord 0 n false y) = Ok (length (main_kids (s_tree y) (id_of n))) /\
    exists L, NoDup L /\ (forall q, In q L <-> q <> [] /\ downward (main_kids (s_tree y)) (id_of n) q) /\
      snd (vt_n_children ord 0 n true y) = Ok (length L).
  Proof.
    intros y L N n Hn. destruct (filtered_main y L N) as (y' & s & E & T & B & U & Nc & F). unfold vt_n_children. rewrite E. cbn [snd].
    pose proof (i_calm _ (library_sinv ord HO y L)) as R. pose proof (up_sound _ _ _ U) as So.
    pose proof (whole_kids (s_tree y) (s_bank y) s R Nc U F) as WK. split.
    - rewrite direct_count. f_equal. apply Permutation_length. apply NoDup_Permutation; [apply So|apply main_kids_NoDup; auto|]. apply (WK n Hn).
    - destruct (sound_count s n So) as (P & P1 & P2 & P3). exists P. split; auto. split; auto. intros q. rewrite P2.
      assert (Q : downward (kids s) (match n with None => froot s | Some x => x end) q <-> downward (main_kids (s_tree y)) (id_of n) q).
      { apply (downward_cong _ _ (fun z => has_node (s_tree y) z = true)).
        - apply (WK n Hn).
        - intros z Hz. apply (WK n Hn) in Hz. eapply main_kids_alive; eauto.
        - intros a z Ha. apply (WK (Some a) Ha z).
        - intros a z Ha Hz. apply (WK (Some a) Ha z) in Hz. eapply main_kids_alive; eauto. }
      rewrite Q. tauto.
  Qed.

  Lemma main_nodes : forall y, library ord y -> has_node (s_tree y) (root_name None) = false -> forall names,
    exists l, snd (vt_nodes ord 0 names y) = Ok l /\ snd (vt_n_nodes ord 0 names y) = Ok (length l) /\
      Permutation l (filter (fun n => forallb (fun name => match get_filter (s_bank y) name with
        | Some f => xorb (f_fun f (s_tree y) n (f_dic f)) (match f_dic f with Some d => p_negate d | None => false end)
        | None => true
        end) names) (get_all_nodes (s_tree y))).
  Proof.
    intros y L N names. destruct (filtered_main y L N) as (y' & s & E & T & B & U & Nc & F). unfold vt_nodes, vt_n_nodes. rewrite E. cbn [snd].
    pose proof (up_sound _ _ _ U) as So. rewrite T, B.
    destruct (counted_nodes (s_bank y) (s_tree y) s names So) as [C1 C2].
    { intros x Hx. apply (whole_nodes _ _ _ U F). auto. }
    eexists. split; [reflexivity|]. split; [rewrite C2; auto|]. rewrite C1. apply NoDup_Permutation.
    - apply filter_NoDup. apply U.
    - apply filter_NoDup. apply (ok_keys _ (g_ok _ _ _ (r_good _ (i_reg _ (library_sinv ord HO y L))))).
    - intros x. rewrite !filter_In, (whole_nodes _ _ _ U F), has_node_In. reflexivity.
  Qed.

  Lemma listed_all : forall t n, reach calm t -> standing t n ->
    (forall x c, n = Some x -> In c (childs t x) -> has_node t c = true) ->
    node_of t n = Ok (true, main_kids t (id_of n)) /\ filter (has_node t) (main_kids t (id_of n)) = main_kids t (id_of n) /\ (forall x, n = Some x -> x <> main_root /\ x <> "").
  Proof.
    intros t n R Hn H. pose proof (reach_reg t R) as RG. destruct n as [x|]; simpl in Hn; cbn [id_of]; unfold main_kids.
    - assert (Nx : x <> main_root) by (intros ->; pose proof (r_main _ RG); congruence). deq x main_root; [congruence|].
      specialize (H x). unfold childs in H. unfold node_of, raw_children, get_children. pose proof Hn as Hn'. apply has_node_get in Hn. destruct Hn as (nd & En). rewrite En in *.
      destruct (r_flags _ RG x nd En) as [_ C]. rewrite C.
      assert (F : filter (has_node t) (chi nd) = chi nd) by (apply filter_id; intros c Hc; apply (H c); auto). rewrite F.
      split; auto. split; auto. intros z Q. inv Q. split; auto. intros ->. pose proof (r_empty _ RG). congruence.
    - rewrite String.eqb_refl. destruct (r_root _ RG) as (_ & A & _).
      assert (F : filter (has_node t) (rootc t) = rootc t) by (apply filter_id; auto). unfold node_of, root_children. rewrite F. split; auto. split; auto. discriminate.
  Qed.

  Lemma main_nth : forall y, library ord y -> forall n k, standing (s_tree y) n ->
    (forall x c, n = Some x -> In c (childs (s_tree y) x) -> has_node (s_tree y) c = true) ->
    vt_nth_child 0 n k y = match nth_error (main_kids (s_tree y) (id_of n)) k with Some c => Ok c | None => Err ValueError end.
  Proof.
    intros y L n k Hn H. pose proof (library_sinv ord HO y L) as I. destruct (i_main _ I) as (h & M1 & _). unfold vt_nth_child. rewrite M1.
    destruct (listed_all (s_tree y) n (i_calm _ I) Hn H) as (A & B & C). unfold static_nth_child.
    assert (E : (if falsy n || (match n with Some x => String.eqb x main_root | None => false end) then Ok (true, rootc (s_tree y)) else node_of (s_tree y) n) = node_of (s_tree y) n).
    { destruct n as [x|]; auto. destruct (C x eq_refl) as [C1 C2]. deq x main_root; [congruence|]. cbn [falsy].
      assert (T : truthy x = true) by (unfold truthy; destruct x; auto; congruence). rewrite T. auto. }
    rewrite E, A, B. destruct (Nat.ltb_spec k (length (main_kids (s_tree y) (id_of n)))); auto.
    rewrite (proj2 (nth_error_None _ _)); auto.
  Qed.

  Lemma main_has : forall y, library ord y -> forall x, has_node (s_tree y) x = true ->
    (forall c, In c (childs (s_tree y) x) -> has_node (s_tree y) c = true) ->
    exists b, vt_has_child 0 x y = Ok b /\ (b = true <-> get_children (s_tree y) x <> []).
  Proof.
    intros y L x Hx H. pose proof (library_sinv ord HO y L) as I. destruct (i_main _ I) as (h & M1 & _). unfold vt_has_child. rewrite M1.
    destruct (listed_all (s_tree y) (Some x) (i_calm _ I) Hx) as (A & B & C); [intros z c Q; inv Q; auto|]. unfold static_has_child. rewrite A.
    destruct (C x eq_refl) as [C1 _]. unfold main_kids, id_of. deq x main_root; [congruence|]. eexists. split; [reflexivity|].
    destruct (get_children (s_tree y) x); simpl; split; congruence.
  Qed.

  Lemma main_reads : forall y, library ord y -> forall x, has_node (s_tree y) x = true ->
    vt_parents 0 x y = Ok (get_parents (s_tree y) x) /\ vt_is_displayed 0 x y = true /\ In x (vt_all_nodes 0 y) /\
    vt_has_parent 0 x y = Ok (negb (mem x (root_children (s_tree y)))).
  Proof.
    intros y L x Hx. pose proof (library_sinv ord HO y L) as I. destruct (i_main _ I) as (h & M1 & _).
    unfold vt_has_parent, vt_parents, vt_is_displayed, vt_all_nodes. rewrite M1. unfold static_parents. rewrite Hx.
    split; auto. split; auto. split; [apply has_node_In; auto|]. f_equal.
    destruct (root_exact (s_tree y) (i_calm _ I)) as [_ RE]. destruct (get_parents (s_tree y) x) as [|p l] eqn:E.
    - symmetry. apply negb_false_iff. apply mem_In. apply RE. auto.
    - symmetry. apply negb_true_iff. apply mem_false. intros Q. apply RE in Q. destruct Q. congruence.
  Qed.

  Lemma main_unknown : forall y, library ord y -> forall x, x <> "" -> x <> main_root -> ~ In x (get_all_nodes (s_tree y)) ->
    vt_is_displayed 0 x y = false /\ vt_all_children 0 (Some x) y = Ok [] /\ vt_has_child 0 x y = Err ValueError /\
    (forall k, vt_nth_child 0 (Some x) k y = Err ValueError) /\ vt_parents 0 x y = Err ValueError /\ vt_has_parent 0 x y = Err ValueError /\
    vt_paths 0 x y = Err ValueError /\ (forall p, vt_next_node 0 x p y = Err ValueError) /\
    (forall q, vt_node_for_path 0 (q ++ [x]) y = Err ValueError).
  Proof.
    intros y L x Nx Rx Ix.
    assert (Tx : truthy x = true) by (unfold truthy; destruct x; auto; congruence).
    assert (Hx : has_node (s_tree y) x = false) by (destruct (has_node (s_tree y) x) eqn:Q; auto; apply has_node_In in Q; contradiction).
    pose proof (library_sinv ord HO y L) as I. destruct (i_main _ I) as (h & M1 & _).
    assert (E : String.eqb x main_root = false) by (apply String.eqb_neq; auto).
    assert (D : dget x (nodes (s_tree y)) = None).
    { unfold has_node, dmem in Hx. destruct (dget x (nodes (s_tree y))); auto; discriminate. }
    assert (P : get_paths_for_node (s_tree y) x = Err ValueError).
    { unfold get_paths_for_node. simpl. rewrite Tx, E, Hx. reflexivity. }
    unfold vt_has_parent, vt_parents, vt_is_displayed, vt_all_children, vt_has_child, vt_nth_child, vt_paths, vt_next_node, vt_node_for_path.
    rewrite M1. unfold static_parents, static_all_children, static_has_child, static_nth_child, node_of, raw_children, next_node, falsy.
    rewrite D, E, Hx, Tx. simpl. repeat split; auto.
    intros q. unfold get_node_for_path. destruct (q ++ [x]) as [|z l] eqn:Q; [destruct q; discriminate|].
    rewrite <- Q. rewrite last_last. rewrite P. reflexivity.
  Qed.

  Lemma main_answers : forall y, library ord y ->
    (forall x, vt_is_displayed 0 x y = true <-> In x (get_all_nodes (s_tree y))) /\
    vt_all_nodes 0 y = get_all_nodes (s_tree y) /\
    (forall q, vt_node_for_path 0 q y = get_node_for_path (s_tree y) q) /\
    (forall n, vt_paths 0 n y = get_paths_for_node (s_tree y) n) /\
    (forall n p, vt_next_node 0 n p y = next_node (s_tree y) n p).
  Proof.
    intros y L. pose proof (library_sinv ord HO y L) as I. destruct (i_main _ I) as (h & M1 & _).
    unfold vt_is_displayed, vt_all_nodes, vt_node_for_path, vt_paths, vt_next_node. rewrite M1.
    split; [intros x; apply has_node_In|]. auto.
  Qed.
End Read.
