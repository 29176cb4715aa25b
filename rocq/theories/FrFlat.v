(** Views with filters that raise: flat views. *)
From Coq Require Import Permutation.
From Verif Require Import Base BaseFacts MainTree MainFacts Filters FTree FRaise SpecView FtBase FtWalk FtEdge FtUp FtFront FtNoop FtDel FtStep FtFlat.
Open Scope f_scope.

(** What holds when the call is over, and what when it raised. *)
Definition fwx {A} (m : FM A) (Q : A -> ft -> Prop) (R : exn -> ft -> Prop) (s : ft) : Prop :=
  match m s with (s', Ok a) => Q a s' | (s', Err e) => R e s' | (_, Diverge) => False end.
Lemma fwx_bind : forall A B (m : FM A) (k : A -> FM B) Q R s, fwx m (fun a s' => fwx (k a) Q R s') R s -> fwx (fbind m k) Q R s.
Proof. unfold fwx, fbind. intros A B m k Q R s H. destruct (m s) as [s' [a|e|]]; auto. Qed.
Lemma fwx_mono : forall A (m : FM A) (Q Q' : A -> ft -> Prop) (R R' : exn -> ft -> Prop) s, fwx m Q R s -> (forall a s', Q a s' -> Q' a s') -> (forall e s', R e s' -> R' e s') -> fwx m Q' R' s.
Proof. unfold fwx. intros A m Q Q' R R' s H H1 H2. destruct (m s) as [s' [a|e|]]; auto. Qed.
Lemma fwp_fwx : forall A (m : FM A) Q R s, fwp m Q s -> fwx m Q R s.
Proof. unfold fwp, fwx. intros A m Q R s H. destruct (m s) as [s' [a|e|]]; tauto. Qed.
Lemma fwx_ret : forall A (a : A) (Q : A -> ft -> Prop) R s, Q a s -> fwx (fret a) Q R s.
Proof. auto. Qed.

Section Flat.
  Context {EAR : Ear}.
  Variable ord : nat -> list id -> list id.
  Variable T : mtree.
  Variable F : id -> res bool.
  Variable root : id.
  Variable rk : id -> nat.
  Hypothesis HG : forall q, ear_gone q.
  Hypothesis HO : forall k l, Permutation (ord k l) l.
  Hypothesis HF : forall x, F x = Ok true -> x <> root /\ fine x.
  Hypothesis HN : forall x, F x <> Diverge.
  Hypothesis HR : forall x p, In p (get_parents T x) -> rk p < rk x.

  (** What may be raised. *)
  Variable blamed : exn -> Prop.
  Hypothesis HB : forall x e, F x = Err e -> blamed e.

  Let two := two root.
  (** Every node is directly below the root, or nowhere. *)
  Record loft (s : ft) : Prop := {
    o_base : base two root true (fun _ => True) s;
    o_pars : forall x, is_displayed s x = true -> x <> root -> pars s x = [] \/ pars s x = [root]
  }.

  Lemma loft_pars_root : forall s x p, loft s -> In p (pars s x) -> p = root /\ x <> root.
  Proof.
    intros s x p L H. pose proof (b_g _ _ _ _ _ (o_base _ L)) as G. assert (Nx : x <> root).
    { intros ->. rewrite (gb_top _ _ _ _ _ G) in H. destruct H. }
    destruct (o_pars _ L x) as [E|E]; auto; [eapply pars_disp; eauto| |]; rewrite E in H; [destruct H|destruct H as [<-|[]]]; auto.
  Qed.
  Lemma loft_kids : forall s x, loft s -> x <> root -> kids s x = [].
  Proof.
    intros s x L H. pose proof (b_g _ _ _ _ _ (o_base _ L)) as G. destruct (kids s x) as [|c l] eqn:E; auto. exfalso.
    assert (Hc : In x (pars s c)) by (apply (gb_sym _ _ _ _ _ G); auto; rewrite E; left; auto).
    apply (loft_pars_root s c x L) in Hc. tauto.
  Qed.

  (** A call for [n] changed nothing about the nodes above rank [k]. *)
  Record kept (k : nat) (s s' : ft) : Prop := {
    kp_filters : filters s' = filters s;
    kp_disp : forall x, k < rk x -> is_displayed s' x = is_displayed s x;
    kp_pars : forall x, k < rk x -> pars s' x = pars s x
  }.
  Lemma kept_refl : forall k s, kept k s s.
  Proof. constructor; auto. Qed.
  Lemma kept_trans : forall k s1 s2 s3, kept k s1 s2 -> kept k s2 s3 -> kept k s1 s3.
  Proof. intros k s1 s2 s3 [A1 A2 A3] [B1 B2 B3]. constructor; [congruence| |]; intros x Hx; [rewrite B2, A2|rewrite B3, A3]; auto. Qed.
  Lemma kept_less : forall k k' s s', k <= k' -> kept k s s' -> kept k' s s'.
  Proof. intros k k' s s' H [A1 A2 A3]. constructor; auto; intros x Hx; [apply A2|apply A3]; lia. Qed.

  Definition gone_on (n : id) (s s' : ft) : Prop := loft s' /\ kept (rk n) s s' /\ (n <> root -> F n = Ok (is_displayed s' n)).
  Definition broken (n : id) (s : ft) (e : exn) (s' : ft) : Prop := loft s' /\ kept (rk n) s s' /\ blamed e.

  Lemma flat_parents : forall n s, loft s -> r_parents T F n s = (s, Ok [root]).
  Proof.
    intros n s L. unfold r_parents. rewrite (b_flat _ _ _ _ _ (o_base _ L)). rewrite (gb_root _ _ _ _ _ (b_g _ _ _ _ _ (o_base _ L))). auto.
  Qed.

  Section Body.
    Variable rec : id -> direction -> FM unit.
    Variable n : id.
    Hypothesis IH : forall p s, rk p < rk n -> loft s -> fwx (rec p Up) (fun _ s' => gone_on p s s') (fun e s' => broken p s e s') s.
    Hypothesis Rroot : forall s, froot s = root -> rec root Up s = (s, Ok tt).

    Lemma x_root : forall (Q : unit -> ft -> Prop) s, froot s = root -> Q tt s -> fwp (rec root Up) Q s.
    Proof. intros Q s H HQ. unfold fwp. rewrite Rroot; auto. Qed.
    Lemma x_up_root : forall (b : bool) (Q : unit -> ft -> Prop) s, froot s = root -> Q tt s -> fwp (if b then rec root Up else fret tt) Q s.
    Proof. intros [] Q s H HQ; [apply x_root; auto|apply fwp_ret; auto]. Qed.

    (** Going up to parents of [n]. *)
    Lemma x_up_all : forall (test : id -> ft -> bool) l s, (forall p, In p l -> In p (get_parents T n)) -> loft s ->
      fwx (ffor l (fun p => s <- fget ;; if test p s then rec p Up else fret tt))
        (fun _ s' => loft s' /\ kept (pred (rk n)) s s') (fun e s' => loft s' /\ kept (pred (rk n)) s s' /\ blamed e) s.
    Proof.
      intros test l. induction l as [|p l IHl]; intros s Hl L; cbn [ffor]; [apply fwx_ret; split; auto; apply kept_refl|].
      assert (Hp : In p (get_parents T n)) by (apply Hl; left; auto). pose proof (HR _ _ Hp) as Rp.
      apply fwx_bind.
      assert (W : fwx (s0 <- fget ;; if test p s0 then rec p Up else fret tt) (fun _ s' => loft s' /\ kept (pred (rk n)) s s') (fun e s' => loft s' /\ kept (pred (rk n)) s s' /\ blamed e) s).
      { apply fwx_bind. cbn [fget fwx]. destruct (test p s); [|apply fwx_ret; split; auto; apply kept_refl].
        eapply fwx_mono; [apply (IH p s); auto| |].
        - intros ? s1 (L1 & K1 & _). split; auto. eapply kept_less; [|apply K1]. lia.
        - intros e s1 (L1 & K1 & B1). split; auto. split; auto. eapply kept_less; [|apply K1]. lia. }
      eapply fwx_mono; [apply W| |auto]. intros ? s1 (L1 & K1).
      eapply fwx_mono; [apply (IHl s1); auto; intros q Hq; apply Hl; right; auto| |].
      - intros ? s2 (L2 & K2). split; auto. eapply kept_trans; eauto.
      - intros e s2 (L2 & K2 & B2). split; auto. split; auto. eapply kept_trans; eauto.
    Qed.
    Lemma test_get : forall (test : id -> bool) l s, ffor l (fun p => s <- fget ;; if test p then rec p Up else fret tt) s = ffor l (fun p => if test p then rec p Up else fret tt) s.
    Proof. reflexivity. Qed.
    Lemma x_up_tests : forall (test : id -> bool) l s, (forall p, In p l -> In p (get_parents T n)) -> loft s ->
      fwx (ffor l (fun p => if test p then rec p Up else fret tt))
        (fun _ s' => loft s' /\ kept (pred (rk n)) s s') (fun e s' => loft s' /\ kept (pred (rk n)) s s' /\ blamed e) s.
    Proof. intros test l s Hl L. pose proof (x_up_all (fun p _ => test p) l s Hl L) as W. unfold fwx in *. rewrite test_get in W. auto. Qed.

    (** The node stays or comes below the root. *)
    Lemma x_place : forall dir added s, loft s -> F n = Ok true -> is_displayed s n = true ->
      fwp (r_place ord T F rec n dir added) (fun _ s' => loft s' /\ filters s' = filters s /\
        (forall x, is_displayed s' x = is_displayed s x) /\ forall x, x <> n -> pars s' x = pars s x) s.
    Proof.
      intros dir added s1 L1 Dn Dn1. destruct (HF n Dn) as [Nn Fn].
      pose proof (o_base _ L1) as B1. pose proof (b_g _ _ _ _ _ B1) as G1.
      unfold r_place. destruct (disp_entry s1 n Dn1) as (e & Ee & Ep & Ek).
      apply fwp_bind. apply (fwp_node n e); auto. apply fwp_bind. unfold fwp at 1. rewrite (flat_parents n s1 L1).
      apply fwp_bind. apply fwp_get. rewrite Ep.
      assert (FR : filter (is_displayed s1) [root] = [root]) by (simpl; rewrite (gb_disp _ _ _ _ _ G1); auto). rewrite FR.
      apply fwp_bind.
      apply (step_pars root true two (fun _ => True) (fun x => x <> n) (kids s1) s1 n [root]); auto.
      { apply base_gview. auto. }
      { apply NoDup_cons; [intros []|constructor]. }
      { intros p [<-|[]]. unfold two. rewrite two_root, two_other; auto. }
      intros s2 V2 K2. cbn zeta.
      assert (SD3 : set_diff [root] [root] = []) by (unfold set_diff; simpl; rewrite eqb_refl; auto).
      assert (SD2 : set_diff [root] [] = [root]) by reflexivity.
      assert (SD1 : set_diff [] [root] = []) by reflexivity.
      (* The rest, once the node is below the root. *)
      assert (FIN : forall dir' s3 ks, gview root true two (fun _ => True) ks s3 -> looks s1 s3 (is_displayed s1) (put_at n [root] (pars s1)) ks ->
        fwp ((if added then fret tt else paths <- paths_of n ;; ffor paths (fun p => callback_modified n p)) ;;
             e3 <- fnode_at n ;; new_children <- r_children T F n ;;
             (if goes_down dir' then ffor new_children (fun c => e4 <- fnode_at n ;; if mem c (fchi e4) then fret tt else rec c Down) else fret tt))
          (fun _ s' => loft s' /\ filters s' = filters s1 /\ (forall x, is_displayed s' x = is_displayed s1 x) /\ forall x, x <> n -> pars s' x = pars s1 x) s3).
      { intros dir' s3 ks V3 K3. apply fwp_bind.
        assert (Dn3 : is_displayed s3 n = true) by (rewrite (lo_disp _ _ _ _ _ K3); auto).
        eapply fwp_mono with (Q := fun _ s5 => like s3 s5 /\ gview root true two (fun _ => True) ks s5).
        { destruct added; [apply fwp_ret; split; auto; constructor; auto|].
          eapply fwp_mono; [apply (step_modified root true two (fun _ => True) ks s3 n); auto; apply Fn|]. intros ? s5 [Lk V5]. auto. }
        intros ? s5 [Lk5 V5].
        assert (K5 : looks s1 s5 (is_displayed s1) (put_at n [root] (pars s1)) ks) by (eapply looks_like; eauto).
        apply fwp_bind. destruct (disp_entry s5 n) as (e5 & Ee5 & _); [rewrite (lo_disp _ _ _ _ _ K5); auto|].
        apply (fwp_node n e5); auto. apply fwp_bind. unfold fwp at 1. unfold r_children. rewrite (gv_flat _ _ _ _ _ _ V5).
        assert (PP : loft s5 /\ filters s5 = filters s1 /\ (forall x, is_displayed s5 x = is_displayed s1 x) /\ forall x, x <> n -> pars s5 x = pars s1 x).
        { split; [|split; [|split]].
          - constructor.
            + eapply gview_base; [apply V5|]. intros p c. rewrite (lo_kids _ _ _ _ _ K5). auto.
            + intros x. rewrite (lo_disp _ _ _ _ _ K5), (lo_pars _ _ _ _ _ K5). intros Hx Nx. unfold put_at. deq x n; [auto|]. apply (o_pars _ L1); auto.
          - apply (lo_filters _ _ _ _ _ K5).
          - apply (lo_disp _ _ _ _ _ K5).
          - intros x Hx. rewrite (lo_pars _ _ _ _ _ K5). unfold put_at. rewrite (proj2 (eqb_neq x n)); auto. }
        destruct (goes_down dir'); cbn [ffor]; apply fwp_ret; auto. }
      destruct (o_pars _ L1 n Dn1 Nn) as [P1|P1]; rewrite P1.
      - (* from nowhere *)
        rewrite SD1, SD2, SD3. set (dir' := if _ && _ then Both else dir).
        apply fwp_bind. unfold iterate_set at 1. unfold fwp at 1. rewrite (ord_none ord HO). cbn [ffor fret].
        apply gview_bump in V2. set (s3 := bump s2) in *.
        assert (K3 : looks s1 s3 (is_displayed s1) (put_at n [root] (pars s1)) (kids s1)) by (eapply looks_like; [apply K2|constructor; auto]).
        apply fwp_bind. unfold iterate_set at 1. unfold fwp at 1. rewrite (ord_one ord HO).
        match goal with |- context [ffor [root] ?body (bump s3)] => assert (W : fwp (ffor [root] body) (fun _ s' =>
          gview root true two (fun x => x <> n) (put_at root (kids s1 root ++ [n]) (kids s1)) s' /\
          looks s1 s' (is_displayed s1) (put_at n [root] (pars s1)) (put_at root (kids s1 root ++ [n]) (kids s1))) (bump s3)) end.
        { apply gview_bump in V2. set (s4 := bump s3) in *.
          assert (K4 : looks s1 s4 (is_displayed s1) (put_at n [root] (pars s1)) (kids s1)) by (eapply looks_like; [apply K3|constructor; auto]).
          cbn [ffor]. apply fwp_bind. apply fwp_bind. apply fwp_get. rewrite (lo_disp _ _ _ _ _ K4), (gb_disp _ _ _ _ _ G1).
          apply fwp_assoc. apply fwp_bind.
          apply (step_link root true two (fun x => x <> n) (fun x => x <> n) (kids s1) s4 n root); auto.
          - intros x Hx ->. unfold two in Hx. rewrite two_root, two_other in Hx by auto. lia.
          - rewrite (lo_disp _ _ _ _ _ K4). apply G1.
          - rewrite (lo_disp _ _ _ _ _ K4). auto.
          - unfold two. rewrite two_root, two_other; auto.
          - intros x _ [->|Hx]; auto. unfold two in Hx. pose proof (two_le root x). rewrite (two_other root n) in Hx by auto. lia.
          - intros x c _. rewrite (lo_kids _ _ _ _ _ K4). auto.
          - rewrite (lo_kids _ _ _ _ _ K4). intros H. apply (gb_sym _ _ _ _ _ G1) in H; auto. rewrite P1 in H. destruct H.
          - intros _ q H. apply (gb_sym _ _ _ _ _ G1) in H; auto. rewrite P1 in H. destruct H.
          - intros s5 V5 K5. assert (K15 : looks s1 s5 (is_displayed s1) (put_at n [root] (pars s1)) (put_at root (kids s1 root ++ [n]) (kids s1))).
            { destruct K5 as [a1 a2 a3 a4 a5 a6]. destruct K4 as [b1 b2 b3 b4 b5 b6]. constructor; try congruence.
              intros x. rewrite a6. unfold put_at. rewrite !b6. destruct (String.eqb x root); auto. }
            apply x_up_root; [apply (gb_root _ _ _ _ _ (gv_g _ _ _ _ _ _ V5))|]. apply fwp_ret. auto. }
        apply fwp_elim in W. destruct W as (s5 & [] & E5 & V5 & K5). rewrite E5. clear E5.
        assert (V6 : gview root true two (fun _ => True) (put_at root (kids s1 root ++ [n]) (kids s1)) s5).
        { apply (gview_restore root true two (fun x => x <> n) (fun _ => True) n); auto.
            + intros x _. destruct (id_dec x n); auto.
            + intros p. rewrite (lo_pars _ _ _ _ _ K5). unfold put_at. rewrite eqb_refl. deq p root.
              * subst. rewrite in_app_iff. simpl. tauto.
              * split; [intros [H|[]]; exfalso; auto|]. intros H. apply (gb_sym _ _ _ _ _ G1) in H; auto. rewrite P1 in H. destruct H. }
        apply fwp_bind.
        eapply fwp_mono with (Q := fun _ s' => like s5 s' /\ gview root true two (fun _ => True) (put_at root (kids s1 root ++ [n]) (kids s1)) s').
        { destruct (goes_up dir'); [|apply fwp_ret; split; auto; constructor; auto]. unfold iterate_set, fwp. rewrite (ord_none ord HO). cbn. split; [constructor; auto|apply gview_bump; auto]. }
        intros ? s6 [Lk V7]. apply (FIN dir' s6 _ V7). eapply looks_like; eauto.
      - rewrite !SD3, SD2. cbn [mem existsb]. rewrite andb_false_r.
        assert (V3 : gview root true two (fun _ => True) (kids s1) s2).
        { apply (gview_restore root true two (fun x => x <> n) (fun _ => True) n); auto.
          - intros x _. destruct (id_dec x n); auto.
          - intros p. rewrite (lo_pars _ _ _ _ _ K2). unfold put_at. rewrite eqb_refl, <- P1. apply (gb_sym _ _ _ _ _ G1). auto. }
        apply fwp_bind. unfold iterate_set at 1. unfold fwp at 1. rewrite (ord_none ord HO). cbn [ffor fret].
        apply fwp_bind. unfold iterate_set at 1. unfold fwp at 1. rewrite (ord_none ord HO). cbn [ffor fret].
        apply gview_bump, gview_bump in V3. set (s3 := bump (bump s2)) in *.
        assert (K3 : looks s1 s3 (is_displayed s1) (put_at n [root] (pars s1)) (kids s1)) by (eapply looks_like; [apply K2|constructor; auto]).
        apply fwp_bind.
        eapply fwp_mono with (Q := fun _ s' => like s3 s' /\ gview root true two (fun _ => True) (kids s1) s').
        { destruct (goes_up dir); [|apply fwp_ret; split; auto; constructor; auto]. unfold iterate_set, fwp. rewrite (ord_one ord HO). cbn [ffor]. unfold fbind.
          rewrite Rroot by (apply (gb_root _ _ _ _ _ (gv_g _ _ _ _ _ _ V3))). cbn. split; [constructor; auto|apply gview_bump; auto]. }
        intros ? s4 [Lk4 V4]. apply (FIN dir s4 _ V4). eapply looks_like; eauto.
    Qed.

    Lemma x_shown : forall dir added s, loft s -> F n = Ok true -> is_displayed s n = true ->
      fwx (r_shown ord T F rec n dir added) (fun _ s' => gone_on n s s') (fun e s' => broken n s e s') s.
    Proof.
      intros dir added s L Dn Dsp. unfold r_shown. destruct (disp_entry s n Dsp) as (e & Ee & _).
      apply fwx_bind. unfold fwx at 1. unfold fnode_at. rewrite Ee. apply fwx_bind. unfold fwx at 1. rewrite (flat_parents n s L).
      apply fwx_bind. eapply fwx_mono with (Q := fun _ s' => loft s' /\ kept (pred (rk n)) s s' /\ is_displayed s' n = true).
      { destruct added; [|apply fwx_ret; split; auto; split; auto; apply kept_refl].
        pose proof (x_up_tests (fun p => negb (mem p [root]) && negb (mem p (fpar e))) (get_parents T n) s (fun _ H => H) L) as W.
        destruct (get_parents T n) as [|p l] eqn:E; [apply fwx_ret; split; auto; split; auto; apply kept_refl|].
        assert (Rn : 0 < rk n) by (specialize (HR n p); rewrite E in HR; specialize (HR (or_introl eq_refl)); lia).
        eapply fwx_mono; [apply W| |].
        - intros ? s1 (L1 & K1). split; auto. split; auto. rewrite (kp_disp _ _ _ K1); auto. lia.
        - intros e0 s1 H. exact H. }
      - intros ? s1 (L1 & K1 & D1). apply fwp_fwx. eapply fwp_mono; [apply x_place; auto|].
        intros ? s2 (L2 & F2 & D2 & P2). split; auto. split.
        + constructor.
          * rewrite F2. apply K1.
          * intros x Hx. rewrite D2. apply (kp_disp _ _ _ K1). lia.
          * intros x Hx. rewrite P2 by (intros ->; lia). apply (kp_pars _ _ _ K1). lia.
        + intros _. rewrite D2, D1. auto.
      - intros e0 s1 (L1 & K1 & B1). split; auto. split; auto. eapply kept_less; [|apply K1]. lia.
    Qed.

    Lemma x_hidden : forall s, loft s -> F n = Ok false -> is_displayed s n = true -> n <> root ->
      fwx (update_hidden T rec n) (fun _ s' => gone_on n s s') (fun e s' => broken n s e s') s.
    Proof.
      intros s L Dn Dsp Nn. pose proof (o_base _ L) as B. pose proof (b_g _ _ _ _ _ B) as G.
      unfold update_hidden. destruct (gpaths two root (fun _ => True) (kids s) s n G (fun _ _ => I) Dsp) as (P & EP & ND & IP).
      apply fwx_bind. unfold paths_of. unfold fwx at 1. rewrite EP.
      destruct (disp_entry s n Dsp) as (e & Ee & Ep & Ek). apply fwx_bind. unfold fwx at 1. unfold fnode_at at 1. rewrite Ee.
      rewrite Ek, (loft_kids s n L Nn). cbn [rev ffor]. apply fwx_bind. apply fwx_ret.
      apply fwx_bind. unfold fwx at 1. unfold fnode_at at 1. rewrite Ee. rewrite Ep.
      assert (AS : forall (m1 m2 m3 m4 : FM unit) (R : unit -> ft -> Prop) R' z, fwx ((m1 ;; m2 ;; m3) ;; m4) R R' z -> fwx (m1 ;; m2 ;; m3 ;; m4) R R' z).
      { intros m1 m2 m3 m4 R R' z. unfold fwx, fbind. destruct (m1 z) as [z1 [[]| |]]; auto. destruct (m2 z1) as [z2 [[]| |]]; auto. }
      apply AS. apply fwx_bind. apply fwp_fwx.
      apply (step_drop root true HG two (fun _ => True) (kids s) s n P (fun p => rec p Up)); auto.
      - apply base_gview. auto.
      - intros c. rewrite (loft_kids s n L Nn). intros [].
      - intros x Hx. apply (gb_sym _ _ _ _ _ G); auto.
      - destruct (o_pars _ L n Dsp Nn) as [E|E]; auto. right. exists root. split; auto. apply (gb_sym _ _ _ _ _ G); auto. rewrite E. left. auto.
      - intros x _ Hx. apply (loft_pars_root s x n L) in Hx. tauto.
      - intros s1 V1 K1.
        apply fwp_mono with (Q := fun _ s2 => s2 = s1).
        { destruct (o_pars _ L n Dsp Nn) as [E|E]; rewrite E; cbn [ffor]; [apply fwp_ret; auto|]. apply fwp_bind. apply x_root; [apply (gb_root _ _ _ _ _ (gv_g _ _ _ _ _ _ V1))|]. apply fwp_ret. auto. }
        intros ? ? ->.
        assert (L1 : loft s1).
        { constructor.
          - eapply gview_base; [apply V1|]. intros p c. rewrite (lo_kids _ _ _ _ _ K1). deq p n; auto.
            destruct (mem_spec p (pars s n)) as [I|I].
            + apply (loft_pars_root s n p L) in I. destruct I as [-> _]. rewrite wo_In, remove1_iff; auto. apply B.
            + intros Hc. apply wo_In. split; auto. intros ->. apply I. apply (gb_sym _ _ _ _ _ G); auto.
          - intros x. rewrite (lo_disp _ _ _ _ _ K1), (lo_pars _ _ _ _ _ K1). unfold put_at. deq x n; [discriminate|]. simpl. apply (o_pars _ L). }
        assert (Keep : kept (rk n) s s1).
        { constructor; [apply (lo_filters _ _ _ _ _ K1)| |]; intros x Hx.
          - rewrite (lo_disp _ _ _ _ _ K1). deq x n; [subst; lia|auto].
          - rewrite (lo_pars _ _ _ _ _ K1). unfold put_at. deq x n; [subst; lia|auto]. }
        assert (Dn1 : is_displayed s1 n = false) by (rewrite (lo_disp _ _ _ _ _ K1), eqb_refl; auto).
        destruct (has_node T n); [|apply fwx_ret; split; auto; split; auto; intros _; congruence].
        pose proof (x_up_all (fun p s => negb (is_displayed s p)) (get_parents T n) s1 (fun _ H => H) L1) as W.
        assert (EQ : forall l z, ffor l (fun p => s <- fget ;; if negb (is_displayed s p) then rec p Up else fret tt) z = ffor l (fun p => s <- fget ;; if is_displayed s p then fret tt else rec p Up) z).
        { induction l as [|p l IHl]; intros z; [auto|].
          change ((let '(z1, o) := (if negb (is_displayed z p) then rec p Up else fret tt) z in match o with Ok _ => ffor l (fun p => s <- fget ;; if negb (is_displayed s p) then rec p Up else fret tt) z1 | Err e => (z1, Err e) | Diverge => (z1, Diverge) end) =
                  (let '(z1, o) := (if is_displayed z p then fret tt else rec p Up) z in match o with Ok _ => ffor l (fun p => s <- fget ;; if is_displayed s p then fret tt else rec p Up) z1 | Err e => (z1, Err e) | Diverge => (z1, Diverge) end)).
          destruct (is_displayed z p); cbn [negb fret]; [apply IHl|]. destruct (rec p Up z) as [z1 [[]| |]]; auto. }
        unfold fwx in W |- *. rewrite EQ in W.
        assert (RN : get_parents T n = [] \/ 0 < rk n).
        { destruct (get_parents T n) as [|p l] eqn:E; auto. right. specialize (HR n p). rewrite E in HR. specialize (HR (or_introl eq_refl)). lia. }
        destruct RN as [RN|RN]; [rewrite RN; cbn [ffor fret]; split; auto; split; auto; intros _; congruence|].
        destruct (ffor (get_parents T n) _ s1) as [s2 [[]|e2|]]; auto.
        + destruct W as (L2 & K2). split; auto. split; [eapply kept_trans; [apply Keep|eapply kept_less; [|apply K2]; lia]|].
          intros _. rewrite (kp_disp _ _ _ K2) by lia. congruence.
        + destruct W as (L2 & K2 & B2). split; auto. split; auto. eapply kept_trans; [apply Keep|eapply kept_less; [|apply K2]; lia].
    Qed.
  End Body.

  Lemma x_body_root : forall rec n dir s, froot s = n -> r_body ord T F rec n dir s = (s, Ok tt).
  Proof. intros rec n dir s <-. unfold r_body, fbind, fget. rewrite eqb_refl. auto. Qed.

  Lemma x_update : forall fuel n dir s, rk n + 1 < fuel -> loft s ->
    fwx (r_update ord T F fuel n dir) (fun _ s' => gone_on n s s') (fun e s' => broken n s e s') s.
  Proof.
    induction fuel as [|fuel IHf]; intros n dir s Hf L; [lia|]. cbn [r_update].
    pose proof (gb_root _ _ _ _ _ (b_g _ _ _ _ _ (o_base _ L))) as Ro.
    destruct (id_dec n root) as [->|Nn].
    { unfold fwx. rewrite x_body_root by auto. split; auto. split; [apply kept_refl|]. intros H. contradiction. }
    set (rec := r_update ord T F fuel).
    assert (IH : forall p s, rk p < rk n -> loft s -> fwx (rec p Up) (fun _ s' => gone_on p s s') (fun e s' => broken p s e s') s).
    { intros p s' Hp L'. apply IHf; auto. lia. }
    assert (Rroot : forall s, froot s = root -> rec root Up s = (s, Ok tt)).
    { intros z Hz. unfold rec. destruct fuel as [|f]; [lia|]. cbn [r_update]. apply x_body_root. auto. }
    unfold r_body. apply fwx_bind. cbn [fget fwx]. rewrite Ro, (proj2 (eqb_neq n root) Nn).
    apply fwx_bind. unfold fwx at 1. unfold evaluate. destruct (F n) as [v|e|] eqn:Dn; [|split; auto; split; [apply kept_refl|apply (HB n); auto]|apply (HN n); auto].
    destruct (is_displayed s n) eqn:Dsp; destruct v.
    - apply (x_shown rec n IH Rroot); auto.
    - apply (x_hidden rec n IH Rroot); auto.
    - apply fwx_bind. unfold fwx at 1. cbn [fmodify].
      destruct (step_new root true two (fun _ => True) (kids s) s n (base_gview _ _ _ _ _ (o_base _ L)) Dsp) as [V1 K1].
      cbn zeta in V1, K1. set (s1 := set_fnodes (dset n (mkF [] []) (fnodes s)) s) in *.
      assert (L1 : loft s1).
      { constructor.
        - eapply gview_base; [apply V1|]. intros p c. rewrite (lo_kids _ _ _ _ _ K1). auto.
        - intros x. rewrite (lo_disp _ _ _ _ _ K1), (lo_pars _ _ _ _ _ K1). simpl. deq x n.
          + subst. intros _ _. left. apply (not_disp _ _ Dsp).
          + simpl. apply (o_pars _ L). }
      assert (Keep : kept (rk n) s s1).
      { constructor; [apply (lo_filters _ _ _ _ _ K1)| |]; intros x Hx.
        - rewrite (lo_disp _ _ _ _ _ K1). deq x n; [subst; lia|auto].
        - rewrite (lo_pars _ _ _ _ _ K1). auto. }
      assert (D1 : is_displayed s1 n = true) by (rewrite (lo_disp _ _ _ _ _ K1), eqb_refl; auto).
      eapply fwx_mono; [apply (x_shown rec n IH Rroot dir true s1); auto| |].
      + intros ? s2 (L2 & K2 & D2). split; auto. split; auto. eapply kept_trans; eauto.
      + intros e s2 (L2 & K2 & B2). split; auto. split; auto. eapply kept_trans; eauto.
    - assert (RN : get_parents T n = [] \/ 0 < rk n).
      { destruct (get_parents T n) as [|p l] eqn:E; auto. right. specialize (HR n p). rewrite E in HR. specialize (HR (or_introl eq_refl)). lia. }
      assert (Same : gone_on n s s) by (split; auto; split; [apply kept_refl|intros _; congruence]).
      destruct (has_node T n); [|apply fwx_ret; auto].
      destruct RN as [RN|RN]; [rewrite RN; cbn [ffor fret]; apply fwx_ret; auto|].
      pose proof (x_up_tests rec n IH (fun _ => true) (get_parents T n) s (fun _ H => H) L) as W. cbn beta iota in W.
      eapply fwx_mono; [apply W| |].
      + intros ? s1 (L1 & K1). split; auto. split; [eapply kept_less; [|apply K1]; lia|]. intros _. rewrite (kp_disp _ _ _ K1) by lia. congruence.
      + intros e s1 (L1 & K1 & B1). split; auto. split; auto. eapply kept_less; [|apply K1]. lia.
  Qed.
End Flat.
