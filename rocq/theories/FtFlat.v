(** Views: flat views, whatever the filters say. *)
From Coq Require Import Permutation.
From Verif Require Import Base BaseFacts MainTree MainFacts Filters FTree SpecView FtBase FtWalk FtEdge FtUp FtFront FtNoop FtDel FtStep.
Open Scope f_scope.

Lemma ord_one : forall (ord : nat -> list id -> list id), (forall k l, Permutation (ord k l) l) -> forall k x, ord k [x] = [x].
Proof. intros ord HO k x. apply Permutation_length_1_inv, Permutation_sym, HO. Qed.
Lemma ord_none : forall (ord : nat -> list id -> list id), (forall k l, Permutation (ord k l) l) -> forall k, ord k [] = [].
Proof. intros ord HO k. apply Permutation_nil, Permutation_sym, HO. Qed.

Section Flat.
  Context {EAR : Ear}.
  Variable ord : nat -> list id -> list id.
  Variable T : mtree.
  Variable D : id -> bool.
  Variable root : id.
  Variable rk : id -> nat.
  Variable fl : bool.
  Hypothesis HG : forall q, ear_gone q.
  Hypothesis HO : forall k l, Permutation (ord k l) l.
  Hypothesis HD : forall x, D x = true -> x <> root /\ fine x.
  Hypothesis HR : forall x p, In p (get_parents T x) -> rk p < rk x.
  Hypothesis HT : forall x, ~ In root (get_parents T x).
  Hypothesis HNP : forall n s, D n = true -> froot s = root -> flat s = fl -> node_parents_of T D n s = [root].
  Hypothesis HNC : forall n s, D n = true -> froot s = root -> flat s = fl -> node_children_of T D n s = [].

  Definition two (x : id) : nat := if String.eqb x root then 0 else 1.
  Lemma two_root : two root = 0.
  Proof. unfold two. rewrite eqb_refl. auto. Qed.
  Lemma two_other : forall x, x <> root -> two x = 1.
  Proof. intros x H. unfold two. apply eqb_neq in H. rewrite H. auto. Qed.
  Lemma two_le : forall x, two x <= 1.
  Proof. intros x. unfold two. destruct (String.eqb x root); auto. Qed.

  (** Every node is directly below the root, except those of [U], which are nowhere. *)
  Record level (U : list id) (s : ft) : Prop := {
    l_base : base two root fl (fun _ => True) s;
    l_pars : forall x, is_displayed s x = true -> x <> root -> pars s x = if mem x U then [] else [root];
    l_U : forall x, In x U -> is_displayed s x = true /\ x <> root
  }.

  Record lpost (U : list id) (n : id) (s s' : ft) : Prop := {
    lp_level : level U s';
    lp_filters : filters s' = filters s;
    lp_frame : forall x, rk n < rk x -> is_displayed s' x = is_displayed s x;
    lp_done : n <> root -> is_displayed s' n = D n
  }.

  Lemma level_pars_root : forall U s x p, level U s -> In p (pars s x) -> p = root /\ x <> root /\ ~ In x U.
  Proof.
    intros U s x p L H. pose proof (b_g _ _ _ _ _ (l_base _ _ L)) as G. assert (Nx : x <> root).
    { intros ->. rewrite (gb_top _ _ _ _ _ G) in H. destruct H. }
    rewrite (l_pars _ _ L x) in H; auto; [|eapply pars_disp; eauto]. destruct (mem_spec x U) as [I|I]; [destruct H|].
    destruct H as [<-|[]]. auto.
  Qed.
  Lemma level_kids : forall U s x, level U s -> x <> root -> kids s x = [].
  Proof.
    intros U s x L H. pose proof (b_g _ _ _ _ _ (l_base _ _ L)) as G. destruct (kids s x) as [|c l] eqn:E; auto. exfalso.
    assert (Hc : In x (pars s c)) by (apply (gb_sym _ _ _ _ _ G); auto; rewrite E; left; auto).
    apply (level_pars_root U s c x L) in Hc. tauto.
  Qed.

  Section Body.
    Variable rec : id -> direction -> FM unit.
    Variable n : id.
    Hypothesis IH : forall p U s, rk p < rk n -> level U s -> (forall u, In u U -> rk p < rk u) -> fwp (rec p Up) (fun _ s' => lpost U p s s') s.
    Hypothesis Rroot : forall s, froot s = root -> rec root Up s = (s, Ok tt).

    Lemma rec_root : forall (Q : unit -> ft -> Prop) s, froot s = root -> Q tt s -> fwp (rec root Up) Q s.
    Proof. intros Q s H HQ. unfold fwp. rewrite Rroot; auto. Qed.

    (** Going up to parents of [n]. *)
    Lemma up_all : forall (test : id -> ft -> bool) l U s, (forall p, In p l -> In p (get_parents T n)) -> level U s -> (forall u, In u U -> rk n <= rk u) ->
      fwp (ffor l (fun p => s <- fget ;; if test p s then fret tt else rec p Up))
        (fun _ s' => level U s' /\ filters s' = filters s /\ forall x, rk n <= rk x -> is_displayed s' x = is_displayed s x) s.
    Proof.
      intros test l U s Hl L HU. apply (fwp_for _ (fun _ s' => level U s' /\ filters s' = filters s /\ forall x, rk n <= rk x -> is_displayed s' x = is_displayed s x)).
      - auto.
      - intros done p rest s1 El (L1 & F1 & D1). apply fwp_bind. apply fwp_get. destruct (test p s1); [apply fwp_ret; auto|].
        assert (Hp : In p (get_parents T n)) by (apply Hl; rewrite El; apply in_app_iff; right; left; auto).
        pose proof (HR _ _ Hp) as Rp.
        eapply fwp_mono; [apply (IH p U s1); auto|].
        + intros u Hu. specialize (HU u Hu). lia.
        + intros ? s2 [L2 F2 E2 _]. split; auto. split; [congruence|]. intros x Hx. rewrite E2 by lia. auto.
    Qed.

    Lemma go_up_root : forall (b : bool) (Q : unit -> ft -> Prop) s, froot s = root -> Q tt s -> fwp (if b then rec root Up else fret tt) Q s.
    Proof. intros [] Q s H HQ; [apply rec_root; auto|apply fwp_ret; auto]. Qed.

    (** The node stays or comes below the root. *)
    Lemma flat_shown_new : forall dir U s, level (n :: U) s -> (forall u, In u U -> rk n < rk u) -> D n = true ->
      fwp (update_shown ord T D rec n dir true) (fun _ s' => lpost U n s s') s.
    Proof.
      intros dir U s L HU Dn. destruct (HD n Dn) as [Nn Fn]. destruct (l_U _ _ L n (or_introl eq_refl)) as [Dsp _].
      assert (P0 : pars s n = []).
      { rewrite (l_pars _ _ L) by auto. simpl. rewrite eqb_refl. auto. }
      unfold update_shown. apply fwp_bind. destruct (disp_entry s n Dsp) as (e & Ee & Ep & Ek). apply (fwp_node n e); auto.
      apply fwp_bind. apply fwp_get. pose proof (b_g _ _ _ _ _ (l_base _ _ L)) as G.
      rewrite (HNP n s Dn (gb_root _ _ _ _ _ G) (b_flat _ _ _ _ _ (l_base _ _ L))).
      apply fwp_bind.
      eapply fwp_mono with (Q := fun _ s' => level (n :: U) s' /\ filters s' = filters s /\ forall x, rk n <= rk x -> is_displayed s' x = is_displayed s x).
      { rewrite Ep, P0.
        pose proof (up_all (fun p _ => negb (negb (mem p [root]) && negb (mem p []))) (get_parents T n) (n :: U) s (fun _ H => H) L) as W.
        assert (HU' : forall u, In u (n :: U) -> rk n <= rk u).
        { intros u [<-|Hu]; auto. specialize (HU u Hu). lia. }
        specialize (W HU').
        assert (EQ : forall l s, ffor l (fun p => s <- fget ;; if negb (negb (mem p [root]) && negb (mem p [])) then fret tt else rec p Up) s =
          ffor l (fun p => if negb (mem p [root]) && negb (mem p []) then rec p Up else fret tt) s).
        { induction l as [|p l IHl]; intros z; auto. cbn [ffor]. unfold fbind. unfold fget at 1.
          destruct (negb (mem p [root]) && negb (mem p [])); simpl;
            [destruct (rec p Up z) as [z1 [[]| |]]; auto|apply IHl]. }
        unfold fwp in W |- *. rewrite EQ in W. exact W. }
      intros ? s1 (L1 & F1 & D1). clear e Ee Ep Ek.
      pose proof (l_base _ _ L1) as B1. pose proof (b_g _ _ _ _ _ B1) as G1.
      assert (Dn1 : is_displayed s1 n = true) by (apply (l_U _ _ L1 n); left; auto).
      assert (P1 : pars s1 n = []).
      { rewrite (l_pars _ _ L1) by auto. simpl. rewrite eqb_refl. auto. }
      destruct (disp_entry s1 n Dn1) as (e & Ee & Ep & Ek).
      apply fwp_bind. apply (fwp_node n e); auto. apply fwp_bind. apply fwp_get.
      rewrite (HNP n s1 Dn (gb_root _ _ _ _ _ G1) (b_flat _ _ _ _ _ B1)), Ep, P1.
      assert (FR : filter (is_displayed s1) [root] = [root]) by (simpl; rewrite (gb_disp _ _ _ _ _ G1); auto). rewrite FR.
      apply fwp_bind.
      apply (step_pars root fl two (fun _ => True) (fun x => x <> n) (kids s1) s1 n [root]); auto.
      { apply base_gview. auto. }
      { apply NoDup_cons; [intros []|constructor]. }
      { intros p [<-|[]]. rewrite two_root, two_other; auto. }
      intros s2 V2 K2. cbn zeta.
      assert (SD1 : set_diff [] [root] = []) by reflexivity. assert (SD2 : set_diff [root] [] = [root]) by reflexivity.
      assert (SD3 : set_diff [root] [root] = []) by (unfold set_diff; simpl; rewrite eqb_refl; auto).
      rewrite SD1, SD2, SD3.
      set (dir' := if _ && _ then Both else dir).
      apply fwp_bind. unfold iterate_set at 1. unfold fwp at 1. rewrite (ord_none ord HO). cbn [ffor fret].
      apply gview_bump in V2. set (s3 := bump s2) in *.
      assert (K3 : looks s1 s3 (is_displayed s1) (put_at n [root] (pars s1)) (kids s1)) by (eapply looks_like; [apply K2|constructor; auto]).
      pose proof (gv_g _ _ _ _ _ _ V2) as G3.
      apply fwp_bind. unfold iterate_set at 1. unfold fwp at 1. rewrite (ord_one ord HO).
      match goal with |- let '(_, _) := ?m (bump s3) in _ => idtac | |- match ?m (bump s3) with _ => _ end => idtac | _ => idtac end.
      match goal with |- context [ffor [root] ?body (bump s3)] => assert (W : fwp (ffor [root] body) (fun _ s' =>
        gview root fl two (fun x => x <> n) (put_at root (kids s1 root ++ [n]) (kids s1)) s' /\
        looks s1 s' (is_displayed s1) (put_at n [root] (pars s1)) (put_at root (kids s1 root ++ [n]) (kids s1))) (bump s3)) end.
      { apply gview_bump in V2. set (s4 := bump s3) in *.
        assert (K4 : looks s1 s4 (is_displayed s1) (put_at n [root] (pars s1)) (kids s1)) by (eapply looks_like; [apply K3|constructor; auto]).
        cbn [ffor]. apply fwp_bind. apply fwp_bind. apply fwp_get. rewrite (lo_disp _ _ _ _ _ K4), (gb_disp _ _ _ _ _ G1).
        apply fwp_assoc. apply fwp_bind.
        apply (step_link root fl two (fun x => x <> n) (fun x => x <> n) (kids s1) s4 n root); auto.
        - intros x Hx ->. rewrite two_root, two_other in Hx by auto. lia.
        - rewrite (lo_disp _ _ _ _ _ K4). apply G1.
        - rewrite (lo_disp _ _ _ _ _ K4). auto.
        - rewrite two_root, two_other; auto.
        - intros x _ [->|Hx]; auto. pose proof (two_le x). rewrite (two_other n) in Hx by auto. lia.
        - intros x c _. rewrite (lo_kids _ _ _ _ _ K4). auto.
        - rewrite (lo_kids _ _ _ _ _ K4). intros H. apply (gb_sym _ _ _ _ _ G1) in H; auto. rewrite P1 in H. destruct H.
        - intros _ q H. apply (gb_sym _ _ _ _ _ G1) in H; auto. rewrite P1 in H. destruct H.
        - intros s5 V5 K5. assert (K15 : looks s1 s5 (is_displayed s1) (put_at n [root] (pars s1)) (put_at root (kids s1 root ++ [n]) (kids s1))).
          { destruct K5 as [a1 a2 a3 a4 a5 a6]. destruct K4 as [b1 b2 b3 b4 b5 b6]. constructor; try congruence.
            intros x. rewrite a6. unfold put_at. rewrite !b6. destruct (String.eqb x root); auto. }
          apply go_up_root; [apply (gb_root _ _ _ _ _ (gv_g _ _ _ _ _ _ V5))|]. apply fwp_ret. auto. }
      apply fwp_elim in W. destruct W as (s5 & [] & E5 & V5 & K5). rewrite E5. clear E5.
      assert (V6 : gview root fl two (fun _ => True) (kids s5) s5).
      { apply (gview_same root fl two (fun _ => True) (put_at root (kids s1 root ++ [n]) (kids s1))).
        - apply (gview_restore root fl two (fun x => x <> n) (fun _ => True) n); auto.
          + intros x _. destruct (id_dec x n); auto.
          + intros p. rewrite (lo_pars _ _ _ _ _ K5). unfold put_at. rewrite eqb_refl. deq p root.
            * subst. rewrite in_app_iff. simpl. tauto.
            * split; [intros [H|[]]; exfalso; auto|]. intros H. apply (gb_sym _ _ _ _ _ G1) in H; auto. rewrite P1 in H. destruct H.
        - intros x c. rewrite (lo_kids _ _ _ _ _ K5). tauto. }
      assert (B6 : base two root fl (fun _ => True) s5) by (eapply gview_base; eauto).
      assert (L6 : forall s', like s5 s' -> sent s' = sent s5 -> level U s').
      { intros s' Lk Es. constructor.
        - apply (base_like two root fl (fun _ => True) s5); auto. eapply knows_sent; [apply Es|apply (gb_knows _ _ _ _ _ (b_g _ _ _ _ _ B6))].
        - intros x. rewrite (like_disp _ _ _ Lk), (like_pars _ _ _ Lk), (lo_disp _ _ _ _ _ K5), (lo_pars _ _ _ _ _ K5). intros Hx Nx.
          unfold put_at. deq x n.
          + subst. rewrite (proj2 (mem_false n U)); auto. intros H. specialize (HU n H). lia.
          + rewrite (l_pars _ _ L1) by auto. simpl. rewrite (proj2 (eqb_neq x n)) by auto. auto.
        - intros x Hx. rewrite (like_disp _ _ _ Lk), (lo_disp _ _ _ _ _ K5). apply (l_U _ _ L1). right. auto. }
      assert (Post : forall s', like s5 s' -> sent s' = sent s5 -> lpost U n s s').
      { intros s' Lk Es. constructor; auto.
        - rewrite (lk_filters _ _ Lk), (lo_filters _ _ _ _ _ K5). auto.
        - intros x Hx. rewrite (like_disp _ _ _ Lk), (lo_disp _ _ _ _ _ K5). apply D1. lia.
        - intros _. rewrite (like_disp _ _ _ Lk), (lo_disp _ _ _ _ _ K5). congruence. }
      apply fwp_bind.
      assert (W : fwp (if goes_up dir' then iterate_set ord [] (fun p => rec p Up) else fret tt) (fun _ s' => like s5 s' /\ sent s' = sent s5) s5).
      { destruct (goes_up dir'); [|apply fwp_ret; auto]. unfold iterate_set, fwp. rewrite (ord_none ord HO). cbn. split; auto. constructor; auto. }
      eapply fwp_mono; [apply W|]. intros ? s6 [Lk Es]. apply fwp_bind. apply fwp_ret. apply fwp_bind.
      destruct (disp_entry s6 n) as (e6 & Ee6 & _); [rewrite (like_disp _ _ _ Lk), (lo_disp _ _ _ _ _ K5); auto|].
      apply (fwp_node n e6); auto. apply fwp_bind. apply fwp_get. rewrite (HNC n); auto.
      - destruct (goes_down dir'); cbn [ffor]; apply fwp_ret; auto.
      - rewrite (lk_root _ _ Lk). apply (gb_root _ _ _ _ _ (b_g _ _ _ _ _ B6)).
      - rewrite (lk_flat _ _ Lk). apply B6.
    Qed.

    Lemma flat_shown_old : forall dir U s, level U s -> (forall u, In u U -> rk n < rk u) -> D n = true -> is_displayed s n = true ->
      fwp (update_shown ord T D rec n dir false) (fun _ s' => lpost U n s s') s.
    Proof.
      intros dir U s1 L1 HU Dn Dn1. destruct (HD n Dn) as [Nn Fn].
      pose proof (l_base _ _ L1) as B1. pose proof (b_g _ _ _ _ _ B1) as G1.
      assert (P1 : pars s1 n = [root]).
      { rewrite (l_pars _ _ L1) by auto. rewrite (proj2 (mem_false n U)); auto. intros H. specialize (HU n H). lia. }
      unfold update_shown. destruct (disp_entry s1 n Dn1) as (e & Ee & Ep & Ek).
      apply fwp_bind. apply (fwp_node n e); auto. apply fwp_bind. apply fwp_get. apply fwp_bind. apply fwp_ret.
      apply fwp_bind. apply (fwp_node n e); auto. apply fwp_bind. apply fwp_get.
      rewrite (HNP n s1 Dn (gb_root _ _ _ _ _ G1) (b_flat _ _ _ _ _ B1)), Ep, P1.
      assert (FR : filter (is_displayed s1) [root] = [root]) by (simpl; rewrite (gb_disp _ _ _ _ _ G1); auto). rewrite FR.
      apply fwp_bind.
      apply (step_pars root fl two (fun _ => True) (fun x => x <> n) (kids s1) s1 n [root]); auto.
      { apply base_gview. auto. }
      { apply NoDup_cons; [intros []|constructor]. }
      { intros p [<-|[]]. rewrite two_root, two_other; auto. }
      intros s2 V2 K2. cbn zeta.
      assert (SD3 : set_diff [root] [root] = []) by (unfold set_diff; simpl; rewrite eqb_refl; auto).
      assert (SD2 : set_diff [root] [] = [root]) by reflexivity.
      rewrite !SD3, SD2. cbn [mem existsb]. rewrite andb_false_r.
      assert (V3 : gview root fl two (fun _ => True) (kids s1) s2).
      { apply (gview_restore root fl two (fun x => x <> n) (fun _ => True) n); auto.
        - intros x _. destruct (id_dec x n); auto.
        - intros p. rewrite (lo_pars _ _ _ _ _ K2). unfold put_at. rewrite eqb_refl, <- P1. apply (gb_sym _ _ _ _ _ G1). auto. }
      apply fwp_bind. unfold iterate_set at 1. unfold fwp at 1. rewrite (ord_none ord HO). cbn [ffor fret].
      apply fwp_bind. unfold iterate_set at 1. unfold fwp at 1. rewrite (ord_none ord HO). cbn [ffor fret].
      apply gview_bump, gview_bump in V3. set (s3 := bump (bump s2)) in *.
      assert (K3 : looks s1 s3 (is_displayed s1) (put_at n [root] (pars s1)) (kids s1)) by (eapply looks_like; [apply K2|constructor; auto]).
      apply fwp_bind.
      assert (W : fwp (if goes_up dir then iterate_set ord [root] (fun p => rec p Up) else fret tt) (fun _ s' => like s3 s' /\ gview root fl two (fun _ => True) (kids s1) s') s3).
      { destruct (goes_up dir); [|apply fwp_ret; auto]. unfold iterate_set, fwp. rewrite (ord_one ord HO). cbn [ffor]. unfold fbind.
        rewrite Rroot by (apply (gb_root _ _ _ _ _ (gv_g _ _ _ _ _ _ V3))). cbn. split; [constructor; auto|apply gview_bump; auto]. }
      eapply fwp_mono; [apply W|]. intros ? s4 [Lk4 V4]. cbn beta.
      assert (Dn4 : is_displayed s4 n = true) by (rewrite (like_disp _ _ _ Lk4), (lo_disp _ _ _ _ _ K3); auto).
      apply fwp_bind.
      eapply fwp_mono; [apply (step_modified root fl two (fun _ => True) (kids s1) s4 n); auto; apply Fn|].
      intros ? s5 [Lk5 V5]. assert (K5 : looks s1 s5 (is_displayed s1) (put_at n [root] (pars s1)) (kids s1)).
      { eapply looks_like; [apply K3|]. eapply like_trans; eauto. }
      apply fwp_bind. destruct (disp_entry s5 n) as (e5 & Ee5 & _); [rewrite (lo_disp _ _ _ _ _ K5); auto|].
      apply (fwp_node n e5); auto. apply fwp_bind. apply fwp_get. rewrite (HNC n); [|auto|apply (gb_root _ _ _ _ _ (gv_g _ _ _ _ _ _ V5))|apply (gv_flat _ _ _ _ _ _ V5)].
      assert (PP : lpost U n s1 s5).
      { constructor.
        - constructor.
          + eapply gview_base; [apply V5|]. intros p c. rewrite (lo_kids _ _ _ _ _ K5). auto.
          + intros x. rewrite (lo_disp _ _ _ _ _ K5), (lo_pars _ _ _ _ _ K5). intros Hx Nx. unfold put_at. deq x n; [|apply (l_pars _ _ L1); auto]. subst x. pose proof (l_pars _ _ L1 n Hx Nx) as HH. congruence.
          + intros x Hx. rewrite (lo_disp _ _ _ _ _ K5). apply (l_U _ _ L1). auto.
        - apply (lo_filters _ _ _ _ _ K5).
        - intros x _. apply (lo_disp _ _ _ _ _ K5).
        - intros _. rewrite (lo_disp _ _ _ _ _ K5). congruence. }
      destruct (goes_down dir); cbn [ffor]; apply fwp_ret; auto.
    Qed.

    Lemma flat_hidden : forall U s, level U s -> (forall u, In u U -> rk n < rk u) -> D n = false -> is_displayed s n = true -> n <> root ->
      fwp (update_hidden T rec n) (fun _ s' => lpost U n s s') s.
    Proof.
      intros U s L HU Dn Dsp Nn. pose proof (l_base _ _ L) as B. pose proof (b_g _ _ _ _ _ B) as G.
      assert (NU : ~ In n U) by (intros H; specialize (HU n H); lia).
      assert (P0 : pars s n = [root]).
      { rewrite (l_pars _ _ L) by auto. rewrite (proj2 (mem_false n U)); auto. }
      unfold update_hidden. destruct (gpaths two root (fun _ => True) (kids s) s n G (fun _ _ => I) Dsp) as (P & EP & ND & IP).
      apply fwp_bind. unfold paths_of. unfold fwp at 1. rewrite EP.
      destruct (disp_entry s n Dsp) as (e & Ee & Ep & Ek). apply fwp_bind. apply (fwp_node n e); auto.
      rewrite Ek, (level_kids U s n L Nn). cbn [rev ffor]. apply fwp_bind. apply fwp_ret.
      apply fwp_bind. apply (fwp_node n e); auto. rewrite Ep, P0.
      assert (AS : forall (m1 m2 m3 m4 : FM unit) (R : unit -> ft -> Prop) z, fwp ((m1 ;; m2 ;; m3) ;; m4) R z -> fwp (m1 ;; m2 ;; m3 ;; m4) R z).
      { intros m1 m2 m3 m4 R z. unfold fwp, fbind. destruct (m1 z) as [z1 [[]| |]]; auto. destruct (m2 z1) as [z2 [[]| |]]; auto. }
      apply AS. apply fwp_bind. rewrite <- P0.
      apply (step_drop root fl HG two (fun _ => True) (kids s) s n P (fun p => rec p Up)); auto.
      - apply base_gview. auto.
      - intros c. rewrite (level_kids U s n L Nn). intros [].
      - intros x Hx. apply (gb_sym _ _ _ _ _ G); auto.
      - right. exists root. split; auto. apply (gb_sym _ _ _ _ _ G); auto. rewrite P0. left. auto.
      - intros x _ Hx. apply (level_pars_root U s x n L) in Hx. tauto.
      - intros s1 V1 K1. rewrite P0. cbn [ffor]. apply fwp_bind. apply rec_root; [apply (gb_root _ _ _ _ _ (gv_g _ _ _ _ _ _ V1))|].
        apply fwp_ret.
        assert (L1 : level U s1).
        { constructor.
          - eapply gview_base; [apply V1|]. intros p c. rewrite (lo_kids _ _ _ _ _ K1). deq p n; auto. rewrite P0. simpl. rewrite orb_false_r. deq p root.
            + subst. rewrite wo_In, remove1_iff; auto. apply B.
            + rewrite (level_kids U s p L) by auto. intros [].
          - intros x. rewrite (lo_disp _ _ _ _ _ K1), (lo_pars _ _ _ _ _ K1). unfold put_at. deq x n; [discriminate|]. simpl. apply (l_pars _ _ L).
          - intros x Hx. rewrite (lo_disp _ _ _ _ _ K1). destruct (l_U _ _ L x Hx) as [-> ?]. deq x n; [subst; contradiction|]. auto. }
        assert (Post : forall s', level U s' -> filters s' = filters s1 -> (forall x, rk n <= rk x -> is_displayed s' x = is_displayed s1 x) -> lpost U n s s').
        { intros s' H1 H2 H3. constructor; auto.
          - rewrite H2. apply (lo_filters _ _ _ _ _ K1).
          - intros x Hx. rewrite H3, (lo_disp _ _ _ _ _ K1) by lia. deq x n; [subst; lia|]. auto.
          - intros _. rewrite H3, (lo_disp _ _ _ _ _ K1), eqb_refl by lia. auto. }
        destruct (has_node T n); [|apply fwp_ret; apply Post; auto].
        eapply fwp_mono; [apply (up_all (fun p s => is_displayed s p) (get_parents T n) U s1); auto|].
        + intros u Hu. specialize (HU u Hu). lia.
        + intros ? s2 (H1 & H2 & H3). apply Post; auto.
    Qed.
  End Body.

  Lemma flat_update : forall fuel n dir U s, rk n + 1 < fuel -> level U s -> (forall u, In u U -> rk n < rk u) ->
    fwp (update_node ord T D fuel n dir) (fun _ s' => lpost U n s s') s.
  Proof.
    induction fuel as [|fuel IHf]; intros n dir U s Hf L HU; [lia|]. cbn [update_node].
    pose proof (gb_root _ _ _ _ _ (b_g _ _ _ _ _ (l_base _ _ L))) as Ro.
    destruct (id_dec n root) as [->|Nn].
    { rewrite <- Ro at 1. unfold fwp. rewrite (update_body_root ord T D). constructor; auto. intros H. contradiction. }
    set (rec := update_node ord T D fuel).
    assert (IH : forall p U s, rk p < rk n -> level U s -> (forall u, In u U -> rk p < rk u) -> fwp (rec p Up) (fun _ s' => lpost U p s s') s).
    { intros p U' s' Hp L' HU'. apply IHf; auto. lia. }
    assert (Rroot : forall s, froot s = root -> rec root Up s = (s, Ok tt)).
    { intros z Hz. unfold rec. destruct fuel as [|f]; [lia|]. cbn [update_node]. rewrite <- Hz. apply (update_body_root ord T D). }
    unfold update_body. apply fwp_bind. apply fwp_get. rewrite Ro, (proj2 (eqb_neq n root) Nn).
    destruct (is_displayed s n) eqn:Dsp; destruct (D n) eqn:Dn.
    - apply (flat_shown_old rec n Rroot); auto.
    - apply (flat_hidden rec n IH Rroot); auto.
    - apply fwp_bind. apply fwp_modify.
      destruct (step_new root fl two (fun _ => True) (kids s) s n (base_gview _ _ _ _ _ (l_base _ _ L)) Dsp) as [V1 K1].
      cbn zeta in V1, K1. set (s1 := set_fnodes (dset n (mkF [] []) (fnodes s)) s) in *.
      assert (L1 : level (n :: U) s1).
      { constructor.
        - eapply gview_base; [apply V1|]. intros p c. rewrite (lo_kids _ _ _ _ _ K1). auto.
        - intros x. rewrite (lo_disp _ _ _ _ _ K1), (lo_pars _ _ _ _ _ K1). simpl. deq x n.
          + subst. intros _ _. apply (not_disp _ _ Dsp).
          + simpl. apply (l_pars _ _ L).
        - intros x Hx. rewrite (lo_disp _ _ _ _ _ K1). destruct Hx as [<-|Hx]; [rewrite eqb_refl; auto|].
          destruct (l_U _ _ L x Hx) as [-> ?]. rewrite orb_true_r. auto. }
      eapply fwp_mono; [apply (flat_shown_new rec n IH Rroot dir U); auto|].
      intros ? s2 [H1 H2 H3 H4]. constructor; auto.
      intros x Hx. rewrite H3, (lo_disp _ _ _ _ _ K1) by auto. deq x n; [subst; lia|auto].
    - assert (Post : forall s', level U s' -> filters s' = filters s -> (forall x, rk n <= rk x -> is_displayed s' x = is_displayed s x) -> lpost U n s s').
      { intros s' H1 H2 H3. constructor; auto.
        - intros x Hx. apply H3. lia.
        - intros _. rewrite H3 by lia. congruence. }
      destruct (has_node T n); [|apply fwp_ret; apply Post; auto].
      pose proof (up_all rec n IH (fun _ _ => false) (get_parents T n) U s (fun _ H => H) L) as W. cbn beta in W.
      assert (HU' : forall u, In u U -> rk n <= rk u) by (intros u Hu; specialize (HU u Hu); lia).
      specialize (W HU'). unfold fwp in W |- *. 
      assert (EQ : forall l z, ffor l (fun p => s <- fget ;; rec p Up) z = ffor l (fun p => rec p Up) z).
      { induction l as [|p l IHl]; intros z; auto. }
      rewrite EQ in W. destruct (ffor (get_parents T n) (fun p => rec p Up) s) as [s' [[]| |]]; auto. destruct W as (H1 & H2 & H3). apply Post; auto.
  Qed.
End Flat.
