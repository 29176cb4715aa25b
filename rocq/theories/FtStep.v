(** Views: the single steps of an update, for nodes with one parent in the view. *)
From Coq Require Import Permutation.
From Verif Require Import Base BaseFacts MainTree MainFacts Filters FTree SpecView FtBase FtWalk FtEdge FtUp FtFront FtNoop FtDel.
Open Scope f_scope.

Lemma fwp_assoc : forall A C (m1 : FM A) (m2 : FM unit) (m3 : FM C) (R : C -> ft -> Prop) s, fwp ((m1 ;; m2) ;; m3) R s -> fwp (m1 ;; m2 ;; m3) R s.
Proof. intros A C m1 m2 m3 R s1. unfold fwp, fbind. destruct (m1 s1) as [s2 [x| |]]; auto. Qed.

Lemma fwp_assoc2 : forall A C (m1 : FM A) (m2 : FM unit) (m3 : FM C) (R : C -> ft -> Prop) s, fwp (m1 ;; m2 ;; m3) R s -> fwp ((m1 ;; m2) ;; m3) R s.
Proof. intros A C m1 m2 m3 R s1. unfold fwp, fbind. destruct (m1 s1) as [s2 [x| |]]; auto. Qed.

(** The stored relations of [s'] are given by [fd], [fp] and [fk]. *)
Record looks (s s' : ft) (fd : id -> bool) (fp fk : id -> list id) : Prop := {
  lo_root : froot s' = froot s;
  lo_flat : flat s' = flat s;
  lo_filters : filters s' = filters s;
  lo_disp : forall x, is_displayed s' x = fd x;
  lo_pars : forall x, pars s' x = fp x;
  lo_kids : forall x, kids s' x = fk x
}.

Definition put_at (n : id) (l : list id) (f : id -> list id) (x : id) : list id := if String.eqb x n then l else f x.

Definition wo (n : id) (l : list id) : list id := filter (fun y => negb (String.eqb y n)) l.
Lemma wo_In : forall n l x, In x (wo n l) <-> In x l /\ x <> n.
Proof. intros. unfold wo. rewrite filter_In, negb_true_iff, eqb_neq. tauto. Qed.
Lemma wo_remove1 : forall n l, NoDup l -> remove1 n l = wo n l.
Proof.
  intros n l. induction 1 as [|x l Hx ND IH]; simpl; auto. rewrite (String.eqb_sym n x). deq x n; simpl.
  - subst. rewrite <- IH. rewrite remove1_notin; auto.
  - rewrite IH. auto.
Qed.

Section Steps.
  Context {EAR : Ear}.
  Variable root : id.
  Variable fl : bool.
  Hypothesis HG : forall q, ear_gone q.

  Notation gview := (gview root fl).

  Lemma looks_like : forall s s' s'' fd fp fk, looks s s' fd fp fk -> like s' s'' -> looks s s'' fd fp fk.
  Proof.
    intros s s' s'' fd fp fk [] L. constructor; [rewrite (lk_root _ _ L)|rewrite (lk_flat _ _ L)|rewrite (lk_filters _ _ L)| | |]; auto;
      intros x; [rewrite (like_disp _ _ _ L)|rewrite (like_pars _ _ _ L)|rewrite (like_kids _ _ _ L)]; auto.
  Qed.
  Lemma like_looks : forall s s', like s s' -> looks s s' (is_displayed s) (pars s) (kids s).
  Proof.
    intros s s' L. destruct L as [L1 L2 L3 L4]. assert (L : like s s') by (constructor; auto).
    constructor; auto; intros x; [apply like_disp|apply like_pars|apply like_kids]; auto.
  Qed.

  Lemma gview_rank : forall r r' A ch s, gview r A ch s -> (forall x p, In p (pars s x) -> r' p < r' x) ->
    (forall p c, In c (kids s p) -> r' p < r' c) -> gview r' A ch s.
  Proof.
    intros r r' A ch s [[] ? ? ? ?] H1 H2. constructor; auto.
    - constructor; auto. intros p c Hc. split; [apply (gb_ch p c Hc)|]. apply H2. auto.
  Qed.

  Lemma gview_weaken : forall r (A A' : id -> Prop) ch s, gview r A ch s -> (forall x, A' x -> A x) -> gview r A' ch s.
  Proof. intros r A A' ch s [[] ? ? ? ?] H. constructor; auto. constructor; auto. Qed.

  Lemma gview_same : forall r A ch ch' s, gview r A ch s -> (forall x c, In c (ch x) <-> In c (ch' x)) -> gview r A ch' s.
  Proof.
    intros r A ch ch' s V H. eapply gview_like; eauto. eapply knows_iff; [|apply (gb_knows _ _ _ _ _ (gv_g _ _ _ _ _ _ V))].
    intros l. apply paths_same. auto.
  Qed.

  Lemma gview_bump : forall r A ch s, gview r A ch s -> gview r A ch (bump s).
  Proof.
    intros r A ch s V. apply (gview_like root fl r A ch ch s); auto; [constructor; auto| |tauto].
    eapply knows_sent; [|apply (gb_knows _ _ _ _ _ (gv_g _ _ _ _ _ _ V))]. auto.
  Qed.

  Lemma gview_restore : forall r (A A' : id -> Prop) n ch s, gview r A ch s -> (forall x, A' x -> A x \/ x = n) ->
    (forall p, In p (pars s n) <-> In n (ch p)) -> gview r A' ch s.
  Proof.
    intros r A A' n ch s [[] ? ? ? ?] HA H. constructor; auto. constructor; auto.
    intros x p Hx. destruct (HA x Hx) as [| ->]; auto.
  Qed.

  Lemma base_gview : forall r A s, base r root fl A s -> gview r A (kids s) s.
  Proof. intros r A s [G ? ? ?]. constructor; auto. intros x c H. apply (gb_ch _ _ _ _ _ G x c H). Qed.
  Lemma gview_base : forall r A ch s, gview r A ch s -> (forall p c, In c (kids s p) -> In c (ch p)) -> base r root fl A s.
  Proof.
    intros r A ch s V H. apply (gview_same r A ch (kids s)) in V.
    - destruct V. constructor; auto.
    - intros x c. split; auto. apply (gb_sub _ _ _ _ _ (gv_g _ _ _ _ _ _ V)).
  Qed.

  (** A new entry. *)
  Lemma step_new : forall r A ch s n, gview r A ch s -> is_displayed s n = false ->
    let s' := set_fnodes (dset n (mkF [] []) (fnodes s)) s in
    gview r A ch s' /\ looks s s' (fun x => String.eqb x n || is_displayed s x) (pars s) (kids s).
  Proof.
    intros r A ch s n V Dn s'. destruct (not_disp _ _ Dn) as [Kn Pn]. pose proof (gv_g _ _ _ _ _ _ V) as G.
    assert (X1 : forall x, is_displayed s' x = String.eqb x n || is_displayed s x) by (intros; apply disp_set).
    assert (X2 : forall x, pars s' x = pars s x).
    { intros. unfold s'. rewrite pars_set. deq x n; auto. subst. auto. }
    assert (X3 : forall x, kids s' x = kids s x).
    { intros. unfold s'. rewrite kids_set. deq x n; auto. subst. auto. }
    split; [|constructor; auto]. destruct V as [_ V1 V2 V3 V4]. constructor; auto.
    - constructor.
      + apply G.
      + rewrite X1, (gb_disp _ _ _ _ _ G). apply orb_true_r.
      + rewrite X2. apply G.
      + intros p c Hc. rewrite X3. apply G. auto.
      + intros p c H. rewrite X1. apply (gb_ch _ _ _ _ _ G) in H. destruct H as [-> H]. rewrite orb_true_r. auto.
      + intros x. rewrite X2. apply G.
      + intros x p. rewrite X2. apply (gb_pars _ _ _ _ _ G).
      + intros x p Hx. rewrite X2. apply (gb_sym _ _ _ _ _ G); auto.
      + eapply knows_sent; [|apply (gb_knows _ _ _ _ _ G)]. auto.
      + apply (gb_one _ _ _ _ _ G).
    - simpl. apply dset_NoDup. auto.
    - intros x c. rewrite X3. auto.
    - intros x. rewrite X3. auto.
  Qed.

  (** New stored parents for a node. *)
  Lemma step_pars : forall r (A A' : id -> Prop) ch s n ps f, gview r A ch s -> is_displayed s n = true -> n <> root -> NoDup ps ->
    (forall p, In p ps -> r p < r n) -> (forall x, A' x -> A x /\ x <> n) ->
    (forall e, fpar (f e) = ps /\ fchi (f e) = fchi e) ->
    forall (Q : unit -> ft -> Prop),
    (forall s', gview r A' ch s' -> looks s s' (is_displayed s) (put_at n ps (pars s)) (kids s) -> Q tt s') ->
    fwp (upd_f n f) Q s.
  Proof.
    intros r A A' ch s n ps f V Dn Nn ND Hps HA Hf Q HQ. destruct (disp_entry s n Dn) as (e & Ee & Ep & Ek).
    apply (fwp_upd n e); auto. set (s1 := set_fnodes (dset n (f e) (fnodes s)) s).
    destruct (Hf e) as [F1 F2]. pose proof (gv_g _ _ _ _ _ _ V) as G.
    assert (X1 : forall x, is_displayed s1 x = is_displayed s x).
    { intros x. unfold s1. rewrite disp_set. deq x n; simpl; auto. subst. auto. }
    assert (X2 : forall x, pars s1 x = put_at n ps (pars s) x) by (intros; unfold s1, put_at; rewrite pars_set; rewrite F1; auto).
    assert (X3 : forall x, kids s1 x = kids s x).
    { intros x. unfold s1. rewrite kids_set. deq x n; simpl; auto. subst. congruence. }
    apply HQ; [|constructor; auto]. destruct V as [_ V1 V2 V3 V4]. constructor; auto.
    - constructor.
      + apply G.
      + rewrite X1. apply G.
      + rewrite X2. unfold put_at. deq root n; [subst; exfalso; apply Nn; auto|]. apply G.
      + intros p c Hc. rewrite X3. apply G. auto.
      + intros p c. rewrite X1. apply (gb_ch _ _ _ _ _ G).
      + intros x. rewrite X2. unfold put_at. deq x n; auto. apply G.
      + intros x p. rewrite X2. unfold put_at. deq x n; [subst; auto|]. apply (gb_pars _ _ _ _ _ G).
      + intros x p Hx. destruct (HA x Hx) as [Ax Nx]. rewrite X2. unfold put_at. deq x n; [contradiction|]. apply (gb_sym _ _ _ _ _ G); auto.
      + eapply knows_sent; [|apply (gb_knows _ _ _ _ _ G)]. auto.
      + apply (gb_one _ _ _ _ _ G).
    - simpl. apply dset_NoDup. auto.
    - intros x c. rewrite X3. auto.
    - intros x. rewrite X3. auto.
  Qed.

  (** A new edge. *)
  Lemma step_link : forall r (A A' : id -> Prop) ch s n p (Q : unit -> ft -> Prop), gview r A ch s -> (forall x, r x <= r p -> A x) ->
    is_displayed s p = true -> is_displayed s n = true -> r p < r n ->
    (forall x, is_displayed s x = true -> x = n \/ r n < r x -> fine x) ->
    (forall x c, r n <= r x -> In c (kids s x) -> In c (ch x)) ->
    ~ In n (kids s p) -> (forall x, A' x -> A x /\ x <> n) ->
    (ear_one -> forall q, ~ In n (ch q)) ->
    (forall s', gview r A' (put_at p (ch p ++ [n]) ch) s' -> looks s s' (is_displayed s) (pars s) (put_at p (kids s p ++ [n]) (kids s)) -> Q tt s') ->
    fwp (upd_f p (fun e => mkF (fpar e) (fchi e ++ [n])) ;; send_add_tree n p) Q s.
  Proof.
    intros r A A' ch s n p Q V HA Dp Dn Rp Hres Hag Hn HA' HO HQ. pose proof (gv_g _ _ _ _ _ _ V) as G.
    destruct (disp_entry s p Dp) as (e & Ee & Ep & Ek).
    apply fwp_bind. apply (fwp_upd p e); auto. cbn beta.
    set (s1 := set_fnodes (dset p (mkF (fpar e) (fchi e ++ [n])) (fnodes s)) s).
    assert (D1 : forall x, is_displayed s1 x = is_displayed s x).
    { intros x. unfold s1. rewrite disp_set. deq x p; simpl; auto. subst. auto. }
    assert (P1 : forall x, pars s1 x = pars s x).
    { intros x. unfold s1. rewrite pars_set. deq x p; simpl; auto. subst. auto. }
    assert (K1 : forall x, kids s1 x = put_at p (kids s p ++ [n]) (kids s) x).
    { intros x. unfold s1, put_at. rewrite kids_set. simpl. rewrite Ek. auto. }
    set (ch1 := put_at p (ch p ++ [n]) ch).
    assert (HC : forall x c, In c (kids s1 x) -> r x < r c).
    { intros x c. rewrite K1. unfold put_at. deq x p; [|apply (gv_kid _ _ _ _ _ _ V)]. subst x. rewrite in_app_iff. simpl.
      intros [H|[<-|[]]]; auto. apply (gv_kid _ _ _ _ _ _ V). auto. }
    assert (Cn : ~ In n (ch p)) by (intros H; apply Hn; apply (gb_sub _ _ _ _ _ G); auto).
    assert (Sub : forall x c, In c (ch1 x) -> In c (kids s1 x)).
    { intros x c. rewrite K1. unfold ch1, put_at. deq x p; [|apply (gb_sub _ _ _ _ _ G)]. subst. rewrite !in_app_iff. intros [H|H]; auto. left. apply (gb_sub _ _ _ _ _ G). auto. }
    assert (G1 : gbase r root A ch s1).
    { constructor.
      + apply G.
      + rewrite D1. apply G.
      + rewrite P1. apply G.
      + intros x c H. rewrite K1. apply (gb_sub _ _ _ _ _ G) in H. unfold put_at. deq x p; auto. subst. apply in_app_iff. auto.
      + intros x c. rewrite D1. apply (gb_ch _ _ _ _ _ G).
      + intros x. rewrite P1. apply G.
      + intros x c. rewrite P1. apply (gb_pars _ _ _ _ _ G).
      + intros x c Hx. rewrite P1. apply (gb_sym _ _ _ _ _ G); auto.
      + eapply knows_sent; [|apply (gb_knows _ _ _ _ _ G)]. auto.
      + apply (gb_one _ _ _ _ _ G). }
    assert (N1 : forall x, NoDup (kids s1 x)).
    { intros x. rewrite K1. unfold put_at. destruct (String.eqb x p); [|apply V]. apply NoDup_snoc; auto. apply V. }
    assert (Lo1 : ear_one -> lone_ch ch1).
    { intros Ho. pose proof (gb_one _ _ _ _ _ G Ho) as Lo. specialize (HO Ho).
      assert (Fb : forall x a, In x (ch1 a) -> In x (ch a) \/ a = p /\ x = n).
      { intros x a. unfold ch1, put_at. deq a p; auto. subst a. rewrite in_app_iff. simpl. intuition. }
      intros x a c H1 H2. apply Fb in H1. apply Fb in H2. destruct H1 as [H1|[-> ->]], H2 as [H2|[-> E2]]; [apply (Lo x); auto|subst; destruct (HO _ H1)|destruct (HO _ H2)|auto]. }
    eapply fwp_mono; [apply (send_added r root A ch1 ch s1 n p); auto|].
    - rewrite D1. auto.
    - intros x c Hx. rewrite K1. unfold ch1, put_at. deq x p; [subst; lia|]. apply Hag. auto.
    - intros x. rewrite D1. auto.
    - rewrite K1. unfold put_at. rewrite eqb_refl, in_app_iff. simpl. auto.
    - unfold ch1, put_at. rewrite eqb_refl, in_app_iff. simpl. auto.
    - intros x c. unfold ch1, put_at. deq x p.
      + subst x. rewrite in_app_iff. simpl. split; [intros H; split; auto; intros [_ ->]; auto|].
        intros [[H|[H|[]]] H2]; auto. exfalso. auto.
      + tauto.
    - intros [] s' [L K]. apply HQ.
      + constructor.
        * constructor.
          -- rewrite (lk_root _ _ L). apply G1.
          -- rewrite (like_disp _ _ _ L). apply G1.
          -- rewrite (like_pars _ _ _ L). apply G1.
          -- intros x c Hc. rewrite (like_kids _ _ _ L). auto.
          -- intros x c Hc. rewrite (like_disp _ _ _ L), D1. split; [|apply HC; auto]. revert Hc. unfold ch1, put_at. deq x p; [|apply (gb_ch _ _ _ _ _ G)].
             subst. rewrite in_app_iff. intros [H|[<-|[]]]; auto. apply (gb_ch _ _ _ _ _ G p c). auto.
          -- intros x. rewrite (like_pars _ _ _ L). apply G1.
          -- intros x c. rewrite (like_pars _ _ _ L). apply G1.
          -- intros x c Hx. rewrite (like_pars _ _ _ L). destruct (HA' x Hx) as [Ax Nx]. rewrite (gb_sym _ _ _ _ _ G1) by auto.
             unfold ch1, put_at. deq c p; [|tauto]. subst. rewrite in_app_iff. simpl. intuition congruence.
          -- auto.
          -- auto.
        * rewrite (lk_flat _ _ L). apply V.
        * rewrite (lk_nodes _ _ L). simpl. apply dset_NoDup. apply V.
        * intros x c. rewrite (like_kids _ _ _ L). auto.
        * intros x. rewrite (like_kids _ _ _ L). auto.
      + eapply looks_like; [|apply L]. constructor; auto.
  Qed.

  (** What the removal of a visible edge does to the clients. *)
  Lemma step_unsend : forall r (A : id -> Prop) ch s n p, gview r A ch s -> (forall x, r x <= r p -> A x) ->
    (forall x c, r n <= r x -> In c (kids s x) -> In c (ch x)) -> In n (ch p) ->
    forall ch', minus ch p n ch' ->
    fwp (send_remove_tree n p) (fun _ s' => like s s' /\ knows s' (paths ch' root)) s.
  Proof.
    intros r A ch s n p V HA Hag Hn ch' M.
    apply (send_removed r root A ch ch' s n p); auto; try apply V.
  Qed.

  Lemma children_remove_ok : forall s p n (Q : unit -> ft -> Prop), In n (kids s p) ->
    (forall s', s' = set_fnodes (fnodes s') s -> sent s' = sent s -> looks s s' (is_displayed s) (pars s) (put_at p (remove1 n (kids s p)) (kids s)) ->
       (NoDup (dkeys (fnodes s)) -> NoDup (dkeys (fnodes s'))) -> Q tt s') ->
    fwp (children_remove p n) Q s.
  Proof.
    intros s p n Q Hn HQ. unfold children_remove. apply fwp_bind. destruct (disp_entry s p (kids_disp _ _ _ Hn)) as (e & Ee & Ep & Ek).
    apply (fwp_node p e); auto. rewrite Ek, (proj2 (mem_In _ _) Hn). apply (fwp_upd p e); auto. cbn beta.
    apply HQ; auto.
    - constructor; auto.
      + intros x. rewrite disp_set. deq x p; simpl; auto. subst. symmetry. eapply kids_disp; eauto.
      + intros x. rewrite pars_set. deq x p; simpl; auto. subst. auto.
      + intros x. rewrite kids_set. unfold put_at. simpl. rewrite Ek. auto.
    - intros H. simpl. apply dset_NoDup. auto.
  Qed.

  (** A visible edge goes. *)
  Lemma step_unlink : forall r (A A' : id -> Prop) ch s n p (Q : unit -> ft -> Prop), gview r A ch s -> (forall x, r x <= r p -> A x) ->
    (forall x c, r n <= r x -> In c (kids s x) -> In c (ch x)) -> In n (ch p) -> (forall x, A' x -> A x /\ x <> n) ->
    (forall s', gview r A' (put_at p (wo n (ch p)) ch) s' -> looks s s' (is_displayed s) (pars s) (put_at p (remove1 n (kids s p)) (kids s)) -> Q tt s') ->
    fwp (send_remove_tree n p ;; children_remove p n) Q s.
  Proof.
    intros r A A' ch s n p Q V HA Hag Hn HA' HQ. pose proof (gv_g _ _ _ _ _ _ V) as G. set (ch' := put_at p (wo n (ch p)) ch) in *.
    assert (M : minus ch p n ch').
    { intros x c. unfold ch', put_at. deq x p; [|tauto]. subst. rewrite wo_In. tauto. }
    apply fwp_bind. eapply fwp_mono; [apply (step_unsend r A ch s n p V HA Hag Hn ch' M)|].
    intros ? s1 [L K]. apply children_remove_ok.
    { rewrite (like_kids _ _ _ L). apply (gb_sub _ _ _ _ _ G). auto. }
    intros s2 Es S2 [L1 L2 L3 L4 L5 L6] ND.
    assert (Y1 : forall x, is_displayed s2 x = is_displayed s x) by (intros; rewrite L4; apply like_disp; auto).
    assert (Y2 : forall x, pars s2 x = pars s x) by (intros; rewrite L5; apply like_pars; auto).
    assert (Y3 : forall x, kids s2 x = put_at p (remove1 n (kids s p)) (kids s) x).
    { intros x. rewrite L6. unfold put_at. rewrite !(like_kids _ _ _ L). auto. }
    assert (KS : forall x c, In c (kids s2 x) -> In c (kids s x)).
    { intros x c. rewrite Y3. unfold put_at. deq x p; auto. subst. apply remove1_In. }
    apply HQ; [|constructor; auto; [rewrite L1; apply L|rewrite L2; apply L|rewrite L3; apply L]].
    constructor.
    - constructor.
      + rewrite L1, (lk_root _ _ L). apply G.
      + rewrite Y1. apply G.
      + rewrite Y2. apply G.
      + intros x c Hc. apply M in Hc. destruct Hc as [Hc Nc]. apply (gb_sub _ _ _ _ _ G) in Hc. rewrite Y3. unfold put_at. deq x p; auto. subst.
        apply remove1_iff; [apply V|]. split; auto.
      + intros x c Hc. rewrite Y1. apply (gb_ch _ _ _ _ _ G). apply M in Hc. tauto.
      + intros x. rewrite Y2. apply G.
      + intros x q. rewrite Y2. apply (gb_pars _ _ _ _ _ G).
      + intros x q Hx. destruct (HA' x Hx) as [Ax Nx]. rewrite Y2, (gb_sym _ _ _ _ _ G) by auto. rewrite (M q x). tauto.
      + eapply knows_sent; [apply S2|]. auto.
      + intros Ho x p1 q1 H1 H2. apply M in H1. apply M in H2. apply (gb_one _ _ _ _ _ G Ho x); tauto.
    - rewrite L2, (lk_flat _ _ L). apply V.
    - apply ND. rewrite (lk_nodes _ _ L). apply V.
    - intros x c Hc. apply (gv_kid _ _ _ _ _ _ V). auto.
    - intros x. rewrite Y3. unfold put_at. destruct (String.eqb x p); [apply remove1_NoDup|]; apply V.
  Qed.

  (** A node that is no longer a child of [p], which keeps its list of children. *)
  Lemma step_cut : forall r (A : id -> Prop) ch s n p (Q : unit -> ft -> Prop), gview r A ch s -> (forall x, r x <= r p -> A x) ->
    (forall x c, r n <= r x -> In c (kids s x) -> In c (ch x)) -> In n (ch p) -> pars s n = [p] -> n <> root -> A n ->
    (forall s', gview r A (put_at p (wo n (ch p)) ch) s' -> looks s s' (is_displayed s) (put_at n [] (pars s)) (kids s) -> Q tt s') ->
    fwp (send_remove_tree n p ;; parents_remove n p) Q s.
  Proof.
    intros r A ch s n p Q V HA Hag Hn Pn Nr An HQ. pose proof (gv_g _ _ _ _ _ _ V) as G. set (ch' := put_at p (wo n (ch p)) ch) in *.
    assert (M : minus ch p n ch').
    { intros x c. unfold ch', put_at. deq x p; [|tauto]. subst. rewrite wo_In. tauto. }
    apply fwp_bind. eapply fwp_mono; [apply (step_unsend r A ch s n p V HA Hag Hn ch' M)|].
    intros ? s1 [L K]. unfold parents_remove. apply fwp_bind. destruct (disp_entry s n) as (e & Ee & Ep & Ek); [apply (gb_ch _ _ _ _ _ G p n); auto|].
    apply (fwp_node n e); [rewrite (lk_nodes _ _ L); auto|]. rewrite Ep, Pn. simpl mem. rewrite eqb_refl. cbn [orb].
    apply (fwp_upd n e); [rewrite (lk_nodes _ _ L); auto|]. cbn beta. rewrite Ep, Pn. simpl remove1. rewrite eqb_refl.
    set (s2 := set_fnodes (dset n (mkF [] (fchi e)) (fnodes s1)) s1).
    assert (Y1 : forall x, is_displayed s2 x = is_displayed s x).
    { intros x. unfold s2. rewrite disp_set, (like_disp _ _ _ L). deq x n; simpl; auto. subst. symmetry. apply (gb_ch _ _ _ _ _ G p n); auto. }
    assert (Y2 : forall x, pars s2 x = put_at n [] (pars s) x).
    { intros x. unfold s2, put_at. rewrite pars_set, (like_pars _ _ _ L). auto. }
    assert (Y3 : forall x, kids s2 x = kids s x).
    { intros x. unfold s2. rewrite kids_set, (like_kids _ _ _ L). simpl. deq x n; auto. subst. auto. }
    apply HQ; [|constructor; auto; apply L].
    constructor.
    - constructor.
      + unfold s2. simpl. rewrite (lk_root _ _ L). apply G.
      + rewrite Y1. apply G.
      + rewrite Y2. unfold put_at. destruct (String.eqb root n); auto. apply G.
      + intros x c Hc. apply M in Hc. rewrite Y3. apply (gb_sub _ _ _ _ _ G). tauto.
      + intros x c Hc. rewrite Y1. apply (gb_ch _ _ _ _ _ G). apply M in Hc. tauto.
      + intros x. rewrite Y2. unfold put_at. destruct (String.eqb x n); [constructor|]. apply G.
      + intros x q. rewrite Y2. unfold put_at. destruct (String.eqb x n); [intros []|]. apply (gb_pars _ _ _ _ _ G).
      + intros x q Hx. rewrite Y2, (M q x), <- (gb_sym _ _ _ _ _ G) by auto. unfold put_at. deq x n.
        * subst. rewrite Pn. simpl. split; [tauto|]. intros [[->|[]] H2]. apply H2. auto.
        * tauto.
      + eapply knows_sent; [|apply K]. auto.
      + intros Ho x p1 q1 H1 H2. apply M in H1. apply M in H2. apply (gb_one _ _ _ _ _ G Ho x); tauto.
    - unfold s2. simpl. rewrite (lk_flat _ _ L). apply V.
    - unfold s2. simpl. apply dset_NoDup. rewrite (lk_nodes _ _ L). apply V.
    - intros x c. rewrite Y3. apply (gv_kid _ _ _ _ _ _ V).
    - intros x. rewrite Y3. apply V.
  Qed.

  (** The modified signals of a node. *)
  Lemma step_modified : forall r (A : id -> Prop) ch s n, gview r A ch s -> (forall x, r x <= r n -> A x) ->
    is_displayed s n = true -> n <> root -> ear_ok n ->
    fwp (ps <- paths_of n ;; ffor ps (fun p => callback_modified n p)) (fun _ s' => like s s' /\ gview r A ch s') s.
  Proof.
    intros r A ch s n V HA Dn Nn Hok. eapply fwp_mono; [apply (send_modified r root A ch s n)|]; auto; [apply V|].
    intros ? s' (L & _ & _ & G & _). split; auto. apply (gview_like root fl r A ch ch s); auto; [apply G|tauto].
  Qed.

  (** The entry of a node without visible children goes, with its place below its
      parent if it has one. *)
  Lemma step_drop : forall r (A : id -> Prop) ch s n P K (Q : unit -> ft -> Prop), gview r A ch s -> n <> root -> is_displayed s n = true ->
    (forall c, ~ In c (ch n)) -> (forall q, In q P <-> chain ch root n q) -> NoDup P ->
    (forall x, In n (ch x) -> In x (pars s n)) ->
    pars s n = [] \/ (exists p, pars s n = [p] /\ In n (kids s p)) ->
    (forall x, A x -> ~ In n (pars s x)) ->
    (forall s', gview r A (fun x => if String.eqb x n then [] else wo n (ch x)) s' ->
       looks s s' (fun x => negb (String.eqb x n) && is_displayed s x) (put_at n [] (pars s))
         (fun x => if String.eqb x n then [] else if mem x (pars s n) then remove1 n (kids s x) else kids s x) ->
       fwp (ffor (pars s n) K) Q s') ->
    fwp (fmodify (fun s => set_fnodes (ddel n (fnodes s)) s) ;; ffor P (fun p => callback_deleted n p) ;;
         ffor (pars s n) (fun p => children_remove p n ;; K p)) Q s.
  Proof.
    intros r A ch s n P K Q V Nn Dn Cn HP NP Hin Hpar HA HQ. pose proof (gv_g _ _ _ _ _ _ V) as G.
    set (ch' := fun x => if String.eqb x n then [] else wo n (ch x)) in *.
    apply fwp_bind. apply fwp_modify. set (s1 := set_fnodes (ddel n (fnodes s)) s).
    assert (X1 : forall x, is_displayed s1 x = negb (String.eqb x n) && is_displayed s x).
    { intros x. unfold is_displayed, s1. simpl. apply dmem_ddel. apply V. }
    destruct (not_disp s1 n) as [KN PN]; [rewrite X1, eqb_refl; auto|].
    assert (X2 : forall x, pars s1 x = put_at n [] (pars s) x).
    { intros x. unfold put_at. deq x n; [subst; auto|]. unfold pars, s1. simpl. rewrite dget_ddel_other; auto. }
    assert (X3 : forall x, kids s1 x = put_at n [] (kids s) x).
    { intros x. unfold put_at. deq x n; [subst; auto|]. unfold kids, s1. simpl. rewrite dget_ddel_other; auto. }
    assert (CI : forall x c, In c (ch' x) <-> In c (ch x) /\ c <> n).
    { intros x c. unfold ch'. deq x n; [|apply wo_In]. subst. simpl. split; [tauto|]. intros [H _]. eapply Cn; eauto. }
    set (X := paths ch root).
    apply fwp_bind. eapply fwp_mono; [apply (fwp_for _ (fun done s' => like s1 s' /\ knows s' (fun l => X l /\ ~ In l done)))|].
    - split; auto. eapply knows_sent; [|eapply knows_iff; [|apply (gb_knows _ _ _ _ _ G)]]; auto. intros l. unfold X. simpl. tauto.
    - intros done q rest s2 El [L2 K2]. assert (Hq : In q P) by (rewrite El; apply in_app_iff; right; left; auto).
      apply HP in Hq. destruct (chain_last s ch n q) as (p & q' & -> & Hp & _); auto.
      { rewrite (gb_root _ _ _ _ _ G). auto. }
      { rewrite (gb_root _ _ _ _ _ G). auto. }
      eapply fwp_mono; [apply (knows_deleted s2 n q' _) with (2 := K2)|].
      + auto.
      + split; [split; [destruct q'; discriminate|apply Hq]|]. rewrite El in NP. intros Hd. apply (NoDup_app_disj _ _ _ NP Hd). left. auto.
      + intros b Hb [[_ Hd] _]. rewrite app_assoc in Hd. apply downward_app in Hd. destruct Hd as [_ Hd]. rewrite last_snoc in Hd.
        destruct b as [|y b]; [auto|]. destruct Hd as [Hd _]. eapply Cn; eauto.
      + intros ? s3 [L3 K3]. split; [eapply like_trans; eauto|]. eapply knows_iff; [|apply K3]. intros l. cbn beta.
        rewrite in_app_iff. simpl. intuition congruence.
    - intros [] s2 [L2 K2]. cbn beta in K2.
      assert (KP : knows s2 (paths ch' root)).
      { eapply knows_iff; [|apply K2]. intros l. unfold X, paths. split.
        - intros [[H1 H2] H3]. split; auto. assert (Hno : forall a b, l = a ++ n :: b -> False).
          { intros a b E. rewrite E in H2. assert (b = []) as ->.
            { destruct b as [|y b]; auto. exfalso. change (a ++ n :: y :: b) with (a ++ [n] ++ y :: b) in H2. rewrite app_assoc in H2.
              apply downward_app in H2. destruct H2 as [_ H2]. rewrite last_snoc in H2. destruct H2 as [H2 _]. eapply Cn; eauto. }
            apply H3. rewrite E. apply HP. split; auto. apply last_snoc. }
          clear H1 H3. revert H2 Hno. generalize root as z. induction l as [|y l IH]; intros z H2 Hno; [simpl; auto|].
          destruct H2 as [H2 H4]. split.
          + apply CI. split; auto. intros ->. apply (Hno [] l). auto.
          + apply IH; auto. intros a b E. apply (Hno (y :: a) b). rewrite E. auto.
        - intros [H1 H2]. split.
          + split; auto. revert H2. apply (downward_ext (fun _ => True)); auto. intros a c _ H. split; auto. apply CI in H. tauto.
          + intros H. apply HP in H. destruct (chain_last s ch n l) as (p & q' & -> & Hp & _); auto.
            { rewrite (gb_root _ _ _ _ _ G). auto. }
            { rewrite (gb_root _ _ _ _ _ G). auto. }
            apply downward_app in H2. destruct H2 as [_ [H2 _]]. apply CI in H2. tauto. }
      assert (Fin : forall s3, froot s3 = froot s -> flat s3 = flat s -> (forall x, is_displayed s3 x = negb (String.eqb x n) && is_displayed s x) ->
        (forall x, pars s3 x = put_at n [] (pars s) x) ->
        (forall x, kids s3 x = if String.eqb x n then [] else if mem x (pars s n) then remove1 n (kids s x) else kids s x) ->
        knows s3 (paths ch' root) -> NoDup (dkeys (fnodes s3)) -> gview r A ch' s3).
      { intros s3 E1 E2 Y1 Y2 Y3 K3 N3. constructor; auto.
        - constructor; auto.
          + rewrite E1. apply G.
          + rewrite Y1. deq root n; [exfalso; auto|]. simpl. apply G.
          + rewrite Y2. unfold put_at. destruct (String.eqb root n); auto. apply G.
          + intros x c Hc. apply CI in Hc. destruct Hc as [Hc Nc]. rewrite Y3. deq x n; [subst; exfalso; eapply Cn; eauto|].
            apply (gb_sub _ _ _ _ _ G) in Hc. destruct (mem x (pars s n)); auto. apply remove1_iff; auto. apply V.
          + intros x c Hc. apply CI in Hc. destruct Hc as [Hc Nc]. apply (gb_ch _ _ _ _ _ G) in Hc. rewrite Y1. destruct Hc as [-> Hc]. deq c n; [contradiction|]. auto.
          + intros x. rewrite Y2. unfold put_at. destruct (String.eqb x n); [constructor|]. apply G.
          + intros x q. rewrite Y2. unfold put_at. destruct (String.eqb x n); [intros []|]. apply (gb_pars _ _ _ _ _ G).
          + intros x q Hx. rewrite Y2, CI, <- (gb_sym _ _ _ _ _ G) by auto. unfold put_at. deq x n; [subst|]; simpl; tauto.
          + intros Ho x p1 q1 H1 H2. apply CI in H1. apply CI in H2. apply (gb_one _ _ _ _ _ G Ho x); tauto.
        - rewrite E2. apply V.
        - intros x c. rewrite Y3. destruct (String.eqb x n); [intros []|]. intros H. apply (gv_kid _ _ _ _ _ _ V).
          destruct (mem x (pars s n)); auto. apply remove1_In in H. auto.
        - intros x. rewrite Y3. destruct (String.eqb x n); [constructor|]. destruct (mem x (pars s n)); [apply remove1_NoDup|]; apply V. }
      assert (Y1 : forall x, is_displayed s2 x = negb (String.eqb x n) && is_displayed s x) by (intros; rewrite (like_disp _ _ _ L2); auto).
      assert (Y2 : forall x, pars s2 x = put_at n [] (pars s) x) by (intros; rewrite (like_pars _ _ _ L2); auto).
      assert (Y3 : forall x, kids s2 x = put_at n [] (kids s) x) by (intros; rewrite (like_kids _ _ _ L2); auto).
      assert (N2 : NoDup (dkeys (fnodes s2))) by (rewrite (lk_nodes _ _ L2); simpl; apply ddel_NoDup; apply V).
      destruct Hpar as [E|(p & E & Hk)].
      + rewrite E in *. cbn [ffor]. apply HQ; [apply Fin|constructor]; auto; apply L2.
      + rewrite E in *. cbn [ffor].
        assert (Np : p <> n).
        { intros ->. pose proof (gv_kid _ _ _ _ _ _ V n n Hk). lia. }
        apply fwp_assoc2. apply fwp_bind. apply children_remove_ok.
        { rewrite Y3. unfold put_at. deq p n; [contradiction|auto]. }
        intros s3 Es S3 [L31 L32 L33 L34 L35 L36] ND3.
        assert (Z3 : forall x, kids s3 x = if String.eqb x n then [] else if mem x [p] then remove1 n (kids s x) else kids s x).
        { intros x. rewrite L36, !Y3. unfold put_at. simpl. rewrite (proj2 (eqb_neq p n) Np). deq x p; simpl.
          - subst. rewrite (proj2 (eqb_neq p n) Np). auto.
          - rewrite Y3. auto. }
        assert (Z1 : forall x, is_displayed s3 x = negb (String.eqb x n) && is_displayed s x) by (intros; rewrite L34; auto).
        assert (Z2 : forall x, pars s3 x = put_at n [] (pars s) x) by (intros; rewrite L35; auto).
        apply HQ; [apply Fin|constructor]; auto.
        * rewrite L31. apply L2.
        * rewrite L32. apply L2.
        * eapply knows_sent; [apply S3|auto].
        * rewrite L31. apply L2.
        * rewrite L32. apply L2.
        * rewrite L33. apply L2.
  Qed.
End Steps.
