(** Views: updates that go down. *)
From Coq Require Import Permutation.
From Verif Require Import Base BaseFacts MainTree MainFacts Filters FTree SpecView FtBase FtWalk FtEdge FtUp FtFront.
Open Scope f_scope.

Section Down.
  Context {EAR : Ear}.
  Variable ord : nat -> list id -> list id.
  Variable T : mtree.
  Variable D : id -> bool.
  Variable root : id.
  Variable fl : bool.
  Variable r : id -> nat.
  Variable B : nat.
  Hypothesis EV : env ord T D root fl r.
  Hypothesis HB : forall x, r x <= B.
  Hypothesis Hsym : forall p c, D c = true -> (In c (get_children T p) <-> In p (get_parents T c)).

  Notation base := (base r root fl).
  Notation nostale := (nostale root D).
  Notation sp := (sp T D root fl).
  Notation tanc := (tanc T).
  Notation closed := (closed T D).
  Notation evolves := (evolves T D root fl).
  Notation update_node := (update_node ord T D).

  Record dpre (n : id) (s : ft) : Prop := {
    dn_base : base (fun _ => True) s;
    dn_stale : nostale s;
    dn_closed : forall x a, is_displayed s x = true -> tanc a x -> D a = true -> is_displayed s a = true \/ a = n
  }.
  Record dpost (n : id) (s s' : ft) : Prop := {
    do_base : base (fun _ => True) s';
    do_stale : nostale s';
    do_ev : evolves s s';
    do_closed : forall x, is_displayed s' x = true -> closed s' x;
    do_sync : D n = true -> is_displayed s' n = true /\ pars s' n = sp n;
    do_kids : forall c, D n = true -> D c = true -> In n (sp c) -> pars s' c = sp c \/ In n (pars s c)
  }.

  Lemma tanc_rank : forall a x, tanc a x -> a = x \/ r a < r x.
  Proof.
    intros a x H. induction H; auto. right. pose proof (e_rank _ _ _ _ _ _ EV _ _ H). destruct IHtanc; [subst; auto|lia].
  Qed.

  Lemma tail_down : forall fuel n dir s0 s1,
    (forall c s, r n < r c -> dpre c s -> fwp (update_node fuel c Down) (fun _ s' => dpost c s s') s) ->
    D n = true -> goes_down dir = true -> base (fun _ => True) s1 -> nostale s1 -> evolves s0 s1 ->
    (forall x, is_displayed s1 x = true -> closed s1 x) -> is_displayed s1 n = true -> pars s1 n = sp n ->
    fwp (tail T D (update_node fuel) n dir s1) (fun _ s' => dpost n s0 s') s1.
  Proof.
    intros fuel n dir s0 s1 Hrec Dn Hd B1 N1 E1 C1 D1 P1. unfold tail. rewrite Hd.
    assert (Hnr : n <> root) by (intros ->; rewrite (e_root _ _ _ _ _ _ EV) in Dn; discriminate).
    eapply fwp_mono; [apply (fwp_for _ (fun done s => base (fun _ => True) s /\ nostale s /\ evolves s0 s /\
       (forall x, is_displayed s x = true -> closed s x) /\ is_displayed s n = true /\ pars s n = sp n /\
       forall c, In c done -> pars s c = sp c \/ In n (pars s0 c)))|].
    - split; auto. split; auto. split; auto. split; auto. split; auto. split; auto. intros c [].
    - intros done c rest s El (B2 & N2 & E2 & C2 & D2 & P2 & K2).
      assert (Hc : In c (node_children_of T D n s1)) by (rewrite El; apply in_app_iff; right; left; auto).
      unfold node_children_of in Hc. destruct (flat s1); [destruct Hc|]. apply filter_In in Hc. destruct Hc as [Hc Dc].
      apply Hsym in Hc; auto. pose proof (e_rank _ _ _ _ _ _ EV _ _ Hc) as L.
      destruct (disp_entry s n D2) as (e & Ee & Ep & Ek). apply fwp_bind. apply (fwp_node n e); auto. rewrite Ek.
      destruct (mem_spec c (kids s n)) as [Hk|Hk].
      + apply fwp_ret. split; auto. split; auto. split; auto. split; auto. split; auto. split; auto.
        intros x Hx. apply in_app_iff in Hx. destruct Hx as [Hx|[<-|[]]]; auto.
        assert (Hp : In n (pars s c)) by (apply (gb_sym _ _ _ _ _ (b_g _ _ _ _ _ B2)); auto).
        destruct (is_displayed s0 c) eqn:D0.
        * destruct (ev_keep _ _ _ _ _ _ E2 c D0) as [_ [<-|H]]; auto.
        * left. apply (ev_new _ _ _ _ _ _ E2); auto. apply (base_kid r root fl _ s n c B2 Hk).
      + eapply fwp_mono; [apply (Hrec c s L)|].
        * constructor; auto. intros x a Hx Ha Da. left. apply (C2 x); auto.
        * intros ? s' P. pose proof (do_ev _ _ _ P) as E3. split; [apply (do_base _ _ _ P)|]. split; [apply (do_stale _ _ _ P)|].
          split; [eapply ev_trans; eauto|]. split; [apply (do_closed _ _ _ P)|].
          destruct (ev_keep _ _ _ _ _ _ E3 n D2) as [H1 H2]. split; auto. split; [destruct H2; congruence|].
          intros x Hx. apply in_app_iff in Hx. destruct Hx as [Hx|[<-|[]]].
          -- destruct (K2 x Hx) as [H|H]; auto.
             destruct (is_displayed s x) eqn:Dx; [destruct (ev_keep _ _ _ _ _ _ E3 x Dx) as [_ [H3|H3]]; [rewrite H3|]; auto|].
             right. assert (In n (pars s0 x) \/ sp x = []) as [|H3]; auto.
             { right. rewrite <- H. apply not_disp in Dx. tauto. }
             exfalso. clear -H3. unfold FtFront.sp in H3. destruct fl; [discriminate|]. destruct (filter D (get_parents T x)); discriminate.
          -- left. apply (do_sync _ _ _ P Dc).
    - intros ? s (B2 & N2 & E2 & C2 & D2 & P2 & K2). constructor; auto.
      intros c _ Dc Hc. apply K2. unfold node_children_of. rewrite (b_flat _ _ _ _ _ B1).
      assert (F : fl = false).
      { unfold FtFront.sp in Hc. destruct fl; auto. destruct Hc as [Hc|[]]. congruence. }
      apply (sp_cases ord T D root fl r EV) in Hc. destruct Hc as [|[_ Hc]]; [contradiction|].
      rewrite F. apply filter_In. split; auto. apply Hsym; auto.
  Qed.

  Lemma update_down : forall fuel n dir s, 2 * B + 1 - r n < fuel -> goes_down dir = true -> dpre n s ->
    fwp (update_node fuel n dir) (fun _ s' => dpost n s s') s.
  Proof.
    induction fuel as [|fuel IH]; intros n dir s Hf Hd P; [lia|].
    change (fwp (update_body ord T D (update_node fuel) n dir) (fun _ s' => dpost n s s') s).
    pose proof (HB n) as Hn.
    assert (Hup : forall A p s, r p < r n -> upre T D root fl r A p s -> fwp (update_node fuel p Up) (fun _ s' => upost T D root fl r A p s s') s).
    { intros A p s1 L. apply update_up; auto. lia. }
    assert (Hdn : forall c s, r n < r c -> dpre c s -> fwp (update_node fuel c Down) (fun _ s' => dpost c s s') s).
    { intros c s1 L. apply IH; auto. pose proof (HB c). lia. }
    assert (CL : D n = false -> forall x, is_displayed s x = true -> closed s x).
    { intros Dn x Hx a Ha Da. destruct (dn_closed _ _ P x a Hx Ha Da); auto. congruence. }
    assert (SELF : D n = false -> dpost n s s).
    { intros Dn. destruct P. constructor; auto; try congruence. apply (ev_refl T D root fl). }
    unfold update_body. apply fwp_bind. apply fwp_get. pose proof (b_g _ _ _ _ _ (dn_base _ _ P)) as G.
    rewrite (gb_root _ _ _ _ _ G). deq n root.
    { subst n. apply fwp_ret. apply SELF. apply (e_root _ _ _ _ _ _ EV). }
    assert (FIN : forall s1 s2 dir', evolves s s2 -> D n = true ->
       (forall x, is_displayed s1 x = true -> r n < r x -> is_displayed s x = true) ->
       fpost T D root fl r n (fun _ => True) s1 s2 -> goes_down dir' = goes_down dir ->
       fwp (tail T D (update_node fuel) n dir' s2) (fun _ s' => dpost n s s') s2).
    { intros s1 s2 dir' E2 Dn H1 FP Hd'. pose proof (fp_frame _ _ _ _ _ _ _ _ _ FP) as F. destruct FP.
      apply tail_down; auto; [congruence|]. intros x Hx. destruct (le_lt_dec (r x) (r n)) as [Hl|Hl]; auto.
      intros a Ha Da. rewrite (fr_disp _ _ _ _ F) in Hx by lia. apply H1 in Hx; auto.
      destruct (dn_closed _ _ P x a Hx Ha Da) as [H| ->]; auto. apply (ev_keep _ _ _ _ _ _ E2); auto. }
    assert (CB : forall x, is_displayed s x = true -> r x <= r n -> x <> n -> closed s x).
    { intros x Hx Hr Nx a Ha Da. destruct (dn_closed _ _ P x a Hx Ha Da) as [H| ->]; auto.
      exfalso. apply tanc_rank in Ha. destruct Ha; [congruence|lia]. }
    destruct (is_displayed s n) eqn:Dn; destruct (D n) eqn:En.
    - eapply (front ord T D root fl r EV (update_node fuel) n (fun _ => True)); auto; try apply (dn_base _ _ P); try apply (dn_stale _ _ P).
      + intros a Ha Da. destruct (dn_closed _ _ P n a Dn Ha Da) as [H| ->]; auto.
      + intros s' dir' Hd' FP. apply (FIN s); auto. apply FP.
    - exfalso. destruct (dn_stale _ _ P n Dn); congruence.
    - apply fwp_bind. apply fwp_modify.
      assert (B1 := base_new root fl r (fun _ => True) s n (dn_base _ _ P) Dn).
      set (s1 := set_fnodes (dset n (mkF [] []) (fnodes s)) s) in *.
      destruct (not_disp _ _ Dn) as [Kn Pn].
      assert (X1 : forall x, is_displayed s1 x = String.eqb x n || is_displayed s x) by (intros; apply disp_set).
      assert (X2 : forall x, pars s1 x = pars s x).
      { intros. unfold s1. rewrite pars_set. deq x n; auto. subst. auto. }
      apply (front ord T D root fl r EV (update_node fuel) n (fun _ => True)); auto.
      + intros x. rewrite X1. deq x n; [subst; auto|]. simpl. apply (dn_stale _ _ P).
      + rewrite X1, eqb_refl. auto.
      + intros x. rewrite X1. deq x n; [tauto|]. simpl. intros Hx Hr Nx a Ha Da. rewrite X1.
        rewrite (CB x Hx Hr Nx a Ha Da). apply orb_true_r.
      + rewrite X2. auto.
      + intros s' dir' Hd' FP. apply (FIN s1); auto.
        * destruct FP. destruct fp_ev as [E1 E2 E3]. constructor; auto.
          -- intros x Hx. rewrite <- X2. apply E2. rewrite X1, Hx. apply orb_true_r.
          -- intros x Hx Hx'. deq x n; [subst; auto|]. apply E3; auto. rewrite X1, Hx. rewrite (proj2 (eqb_neq x n)); auto.
        * intros x. rewrite X1. deq x n; [subst; lia|auto].
    - destruct (has_node T n) eqn:Hl; [|apply fwp_ret; apply SELF; auto].
      eapply fwp_mono; [apply (up_parents ord T D root fl r EV _ (fun _ => True) n s); auto|].
      + constructor; auto; try apply (dn_base _ _ P); try apply (dn_stale _ _ P). intros x Hx _. apply CL; auto.
      + intros ? s' U. pose proof (po_frame _ _ _ _ _ _ _ _ _ U) as F. destruct U. constructor; auto; try congruence.
        intros x Hx. destruct (le_lt_dec (r x) (r n)) as [Hr|Hr]; auto.
        rewrite (fr_disp _ _ _ _ F) in Hx by lia. eapply closed_mono; [apply po_ev|]. apply CL; auto.
  Qed.
End Down.
