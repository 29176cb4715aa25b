(** Views with clients that raise: flat views. *)
From Coq Require Import Permutation.
From Verif Require Import Base BaseFacts MainTree MainFacts Filters FTree FRaise FEmit SpecView FtBase FtWalk FtEdge FtUp FtFront FtNoop FtDel FtStep FtFlat FrFlat FrSame.
Open Scope f_scope.

Lemma fwx_elim : forall A (m : FM A) Q R s, fwx m Q R s -> exists s' r, m s = (s', r) /\ match r with Ok a => Q a s' | Err e => R e s' | Diverge => False end.
Proof. unfold fwx. intros A m Q R s H. destruct (m s) as [s' [a|e|]]; eauto. Qed.
Lemma loop_stop : forall S R (f : S -> ctl S R) x r k, f x = Stop r -> loop k f x = Stop r.
Proof. intros S R f x r k H. induction k as [|k IH]; cbn [loop]; auto. rewrite IH. auto. Qed.
Lemma loop_second : forall S R (f : S -> ctl S R) x y r k, f x = Go y -> f y = Stop r -> loop (Datatypes.S k) f x = Stop r.
Proof.
  intros S R f x y r k H1 H2. induction k as [|k IH].
  - cbn [loop]. rewrite H1. auto.
  - change (match loop (Datatypes.S k) f x with Stop r0 => Stop r0 | Go s' => loop (Datatypes.S k) f s' end = Stop r). rewrite IH. auto.
Qed.

Section Flat.
  Context {EAR : Ear}.
  Variable bad : upset.
  Variable ord : nat -> list id -> list id.
  Variable T : mtree.
  Variable D : id -> bool.
  Variable root : id.
  Variable rk : id -> nat.
  Hypothesis HG : forall q, ear_gone q.
  Hypothesis HO : forall k l, Permutation (ord k l) l.
  Hypothesis HD : forall x, D x = true -> x <> root /\ fine x.
  Hypothesis HR : forall x p, In p (get_parents T x) -> rk p < rk x.
  (** Clients raise when nodes are added or modified. *)
  Hypothesis quiet_deleted : forall k n q, bad k (SDeleted n q) = None.
  Hypothesis quiet_run : forall k n a, bad k (SRun n a) = None.

  Let F (x : id) : res bool := Ok (D x).
  Let two := two root.
  Definition upsets (e : exn) : Prop := exists k x, bad k x = Some e.

  (** *** Raising after the fact *)
  Definition late (m m' : FM unit) (s : ft) : Prop :=
    forall s', m' s = (s', Ok tt) -> exists r, m s = (s', r) /\ (r = Ok tt \/ exists e, r = Err e /\ upsets e).
  Lemma late_send : forall x s, late (e_send bad x) (fmodify (send x)) s.
  Proof.
    intros x s s' H. unfold e_send. inv H. destruct (bad (length (sent s)) x) eqn:E; eexists; (split; [reflexivity|]); [right|left; auto]. eexists. split; [reflexivity|]. exists (length (sent s)), x. auto.
  Qed.
  Lemma runs_quiet : forall n acts s, ffor acts (fun a => e_send bad (SRun n a)) s = (fold_left (fun s a => send (SRun n a) s) acts s, Ok tt).
  Proof. intros n acts. induction acts as [|a acts IH]; intros s; cbn [ffor fold_left]; auto. unfold fbind, e_send at 1. rewrite quiet_run. apply IH. Qed.
  Lemma fold_runonce : forall n acts s, runonce (fold_left (fun s a => send (SRun n a) s) acts s) = runonce s.
  Proof. intros n acts. induction acts as [|a acts IH]; intros s; cbn [fold_left]; auto. rewrite IH. auto. Qed.
  Lemma fold_set_runonce : forall n acts d s, fold_left (fun s a => send (SRun n a) s) acts (set_runonce d s) = set_runonce d (fold_left (fun s a => send (SRun n a) s) acts s).
  Proof. intros n acts d. induction acts as [|a acts IH]; intros s; cbn [fold_left]; auto. rewrite <- IH. auto. Qed.
  Lemma late_added : forall n q s, late (e_added bad n q) (callback_added n q) s.
  Proof.
    intros n q s s' H. unfold e_added. unfold callback_added in H. destruct (mem n reserved); [discriminate|].
    destruct (dget n (runonce s)) as [[|a acts]|]; try (apply (late_send (SAdded n q) s s'); exact H).
    destruct (is_displayed s n); [|discriminate]. cbv zeta in H.
    unfold fbind at 1. cbn [e_actions]. unfold fbind at 1. unfold e_send at 1. rewrite quiet_run. unfold fbind at 1. unfold fmodify at 1. rewrite runs_quiet.
    rewrite fold_set_runonce. cbn [fold_left] in H. rewrite fold_runonce in H. apply late_send. exact H.
  Qed.

  Lemma fold_fnodes : forall n acts s, fnodes (fold_left (fun s a => send (SRun n a) s) acts s) = fnodes s.
  Proof. intros n acts. induction acts as [|a acts IH]; intros s; cbn [fold_left]; auto. rewrite IH. auto. Qed.
  Lemma added_fnodes : forall n q s s' r, callback_added n q s = (s', r) -> fnodes s' = fnodes s.
  Proof.
    intros n q s s' r. unfold callback_added. destruct (mem n reserved); [intros E; inv E; auto|].
    destruct (dget n (runonce s)) as [[|a acts]|]; try (intros E; inv E; auto; fail).
    destruct (is_displayed s n); intros E; inv E; auto. cbn [fold_left]. cbn. rewrite fold_fnodes. auto.
  Qed.

  Lemma root_paths : forall s, froot s = root -> view_paths s root = Ok [[]].
  Proof. intros s H. unfold view_paths. cbn [fpaths]. rewrite H, eqb_refl. auto. Qed.
  Lemma late_add_tree : forall n s, froot s = root -> kids s n = [] -> is_displayed s n = true -> late (e_add_tree bad n root) (send_add_tree n root) s.
  Proof.
    intros n s Ro K Dn s' H. unfold e_add_tree. unfold send_add_tree in H.
    unfold fbind, paths_of in *. rewrite (root_paths s Ro) in *.
    assert (B : exists k, walk_budget (length (fnodes s)) = S k) by (unfold walk_budget; eexists; rewrite Nat.add_comm; reflexivity).
    destruct B as [k Bk]. rewrite Bk in *.
    assert (Fo : forall cb : id -> list id -> FM unit, ffor [[]] (fun start => cb n (start ++ [n])) s = match cb n [n] s with (s1, Ok _) => (s1, Ok tt) | (s1, Err e) => (s1, Err e) | (s1, Diverge) => (s1, Diverge) end).
    { intros cb. cbn [ffor app]. unfold fbind. destruct (cb n [n] s) as [s1 [[]|e|]]; auto. }
    destruct (disp_entry s n Dn) as (en & En & _ & Ek). rewrite K in Ek.
    assert (Go1 : forall s1, fnodes s1 = fnodes s -> forall r : ctl (list (id * list id) * ft) (ft * res unit), r = match dget n (fnodes s1) with
        | None => Stop (s1, Err KeyError)
        | Some e => Go ([] ++ map (fun c => (c, [n] ++ [c])) (fchi e), s1) end -> r = Go ([], s1)).
    { intros s1 Ef r ->. rewrite Ef, En, Ek. auto. }
    destruct (callback_added n [n] s) as [s1 r1] eqn:E. pose proof (added_fnodes _ _ _ _ _ E) as Ef.
    destruct r1 as [[]|e|].
    - rewrite (loop_second _ _ (add_step [[]]) ([(n, [n])], s) ([], s1) (s1, Ok tt)) in H; [inv H| |auto].
      2:{ unfold add_step. rewrite (Fo callback_added), E. apply (Go1 s1); auto. }
      destruct (late_added n [n] s s' E) as (r & Er & Hr). exists r. split; auto. destruct Hr as [-> |(e & -> & He)].
      + rewrite (loop_second _ _ (e_add_step bad [[]]) ([(n, [n])], s) ([], s') (s', Ok tt)); [auto| |auto].
        unfold e_add_step. rewrite (Fo (e_added bad)), Er. apply (Go1 s'); auto.
      + rewrite (loop_stop _ _ (e_add_step bad [[]]) ([(n, [n])], s) (s', Err e)); [auto|]. unfold e_add_step. rewrite (Fo (e_added bad)), Er. auto.
    - exfalso. rewrite (loop_stop _ _ (add_step [[]]) ([(n, [n])], s) (s1, Err e)) in H; [discriminate|]. unfold add_step. rewrite (Fo callback_added), E. auto.
    - exfalso. rewrite (loop_stop _ _ (add_step [[]]) ([(n, [n])], s) (s1, Diverge)) in H; [discriminate|]. unfold add_step. rewrite (Fo callback_added), E. auto.
  Qed.

  Lemma late_modified : forall n s, froot s = root -> n <> root -> pars s n = [root] -> In n (kids s root) ->
    late (paths <- paths_of n ;; ffor paths (fun p => e_modified bad n p)) (paths <- paths_of n ;; ffor paths (fun p => callback_modified n p)) s.
  Proof.
    intros n s Ro Nn P K s' H. unfold fbind at 1. unfold fbind at 1 in H. unfold paths_of in *.
    assert (V : view_paths s n = Ok [[n]]).
    { unfold view_paths. unfold pars in P. unfold kids in K. destruct (dget n (fnodes s)) as [e|] eqn:En; [|discriminate]. destruct (dget root (fnodes s)) as [re|] eqn:Er; [|destruct K].
      cbn [fpaths]. rewrite Ro, (proj2 (eqb_neq n root) Nn), En, P, Er, (proj2 (mem_In n (fchi re)) K), eqb_refl. auto. }
    rewrite V in *. cbn [ffor] in *. unfold fbind in *. unfold callback_modified, fmodify in H. unfold e_modified.
    destruct (late_send (SModified n [n]) s (send (SModified n [n]) s) eq_refl) as (r & -> & Hr). inv H. destruct Hr as [-> |(e & -> & He)].
    - exists (Ok tt). auto.
    - exists (Err e). split; auto. right. exists e. auto.
  Qed.

  (** *** Clients say nothing when nodes are deleted *)
  Lemma deleted_same : forall n q s, e_deleted bad n q s = callback_deleted n q s.
  Proof. intros. unfold e_deleted, e_send, callback_deleted, fmodify. rewrite quiet_deleted. auto. Qed.
  Lemma remove_step_same : forall paths x, e_remove_step bad paths x = remove_step paths x.
  Proof.
    intros paths [[|[[n rel] []] rest] s]; auto. unfold e_remove_step, remove_step.
    rewrite (for_ext _ paths (fun start => e_deleted bad n (start ++ rel)) (fun start => callback_deleted n (start ++ rel))); auto. intros. apply deleted_same.
  Qed.
  Lemma remove_tree_same : forall n p s, e_remove_tree bad n p s = send_remove_tree n p s.
  Proof.
    intros n p s. unfold e_remove_tree, send_remove_tree. apply bind_ext; auto. intros ps z. rewrite (loop_ext _ _ _ _ (remove_step_same ps)). auto.
  Qed.
  Lemma hidden_quiet : forall rec n s, e_hidden bad T rec n s = update_hidden T rec n s.
  Proof.
    intros rec n s. unfold e_hidden, update_hidden. apply bind_ext; auto. intros ps z. apply bind_ext; auto. intros e z1. apply bind_ext.
    { apply for_ext. intros c z2. apply bind_ext; auto. apply remove_tree_same. }
    intros ? z2. apply bind_ext; auto. intros e' z3. apply bind_ext; auto. intros ? z4. apply bind_ext; auto. apply for_ext. intros. apply deleted_same.
  Qed.

  Lemma flat_parents_of : forall n s, loft root s -> node_parents_of T D n s = [root].
  Proof.
    intros n s L. unfold node_parents_of. rewrite (b_flat _ _ _ _ _ (o_base _ _ L)). rewrite (gb_root _ _ _ _ _ (b_g _ _ _ _ _ (o_base _ _ L))). auto.
  Qed.

  Section Body.
    Variable rec : id -> direction -> FM unit.
    Variable n : id.
    Hypothesis IH : forall p s, rk p < rk n -> loft root s -> fwx (rec p Up) (fun _ s' => gone_on F root rk p s s') (fun e s' => broken root rk upsets p s e s') s.
    Hypothesis Rroot : forall s, froot s = root -> rec root Up s = (s, Ok tt).

    Definition lodged (s1 s' : ft) : Prop := loft root s' /\ filters s' = filters s1 /\
      (forall x, is_displayed s' x = is_displayed s1 x) /\ forall x, x <> n -> pars s' x = pars s1 x.

    Lemma e_placed : forall dir added s, loft root s -> D n = true -> is_displayed s n = true ->
      fwx (e_place bad ord T D rec n dir added) (fun _ s' => lodged s s') (fun e s' => lodged s s' /\ upsets e) s.
    Proof.
      intros dir added s1 L1 Dn Dn1. destruct (HD n Dn) as [Nn Fn].
      pose proof (o_base _ _ L1) as B1. pose proof (b_g _ _ _ _ _ B1) as G1.
      unfold e_place. destruct (disp_entry s1 n Dn1) as (e & Ee & Ep & Ek).
      apply fwx_bind. unfold fwx at 1. unfold fnode_at at 1. rewrite Ee. apply fwx_bind. unfold fwx at 1. unfold fget at 1. cbv zeta. rewrite (flat_parents_of n s1 L1).
      rewrite Ep.
      assert (FR : filter (is_displayed s1) [root] = [root]) by (simpl; rewrite (gb_disp _ _ _ _ _ G1); auto). rewrite FR.
      apply fwx_bind. apply fwp_fwx.
      apply (step_pars root true two (fun _ => True) (fun x => x <> n) (kids s1) s1 n [root]); auto.
      { apply base_gview. auto. }
      { apply NoDup_cons; [intros []|constructor]. }
      { intros p [<-|[]]. unfold two. rewrite two_root, two_other; auto. }
      intros s2 V2 K2.
      assert (SD3 : set_diff [root] [root] = []) by (unfold set_diff; simpl; rewrite eqb_refl; auto).
      assert (SD2 : set_diff [root] [] = [root]) by reflexivity.
      assert (SD1 : set_diff [] [root] = []) by reflexivity.
      assert (HOME : forall s3 ks, gview root true two (fun _ => True) ks s3 -> looks s1 s3 (is_displayed s1) (put_at n [root] (pars s1)) ks -> lodged s1 s3).
      { intros s5 ks V5 K5. split; [|split; [|split]].
        - constructor.
          + eapply gview_base; [apply V5|]. intros p c. rewrite (lo_kids _ _ _ _ _ K5). auto.
          + intros x. rewrite (lo_disp _ _ _ _ _ K5), (lo_pars _ _ _ _ _ K5). intros Hx Nx. unfold put_at. deq x n; [auto|]. apply (o_pars _ _ L1); auto.
        - apply (lo_filters _ _ _ _ _ K5).
        - apply (lo_disp _ _ _ _ _ K5).
        - intros x Hx. rewrite (lo_pars _ _ _ _ _ K5). unfold put_at. rewrite (proj2 (eqb_neq x n)); auto. }
      (* The rest, once the node is below the root. *)
      assert (FIN : forall dir' s3 ks, gview root true two (fun _ => True) ks s3 -> looks s1 s3 (is_displayed s1) (put_at n [root] (pars s1)) ks -> In n (ks root) ->
        fwx ((if added then fret tt else paths <- paths_of n ;; ffor paths (fun p => e_modified bad n p)) ;;
             e3 <- fnode_at n ;; s3 <- fget ;;
             (if goes_down dir' then ffor (node_children_of T D n s3) (fun c => e4 <- fnode_at n ;; if mem c (fchi e4) then fret tt else rec c Down) else fret tt))
          (fun _ s' => lodged s1 s') (fun e s' => lodged s1 s' /\ upsets e) s3).
      { intros dir' s3 ks V3 K3 I3. apply fwx_bind.
        assert (Dn3 : is_displayed s3 n = true) by (rewrite (lo_disp _ _ _ _ _ K3); auto).
        assert (W : fwx (if added then fret tt else paths <- paths_of n ;; ffor paths (fun p => e_modified bad n p))
          (fun _ s5 => like s3 s5 /\ gview root true two (fun _ => True) ks s5) (fun e s5 => (like s3 s5 /\ gview root true two (fun _ => True) ks s5) /\ upsets e) s3).
        { destruct added; [apply fwx_ret; split; auto; constructor; auto|].
          pose proof (step_modified root true two (fun _ => True) ks s3 n V3 (fun _ _ => I) Dn3 Nn (proj2 Fn)) as W. apply fwp_elim in W. destruct W as (s5 & [] & E5 & P5).
          assert (Ro3 : froot s3 = root) by apply (gb_root _ _ _ _ _ (gv_g _ _ _ _ _ _ V3)).
          assert (P3 : pars s3 n = [root]) by (rewrite (lo_pars _ _ _ _ _ K3); unfold put_at; rewrite eqb_refl; auto).
          assert (I3' : In n (kids s3 root)) by (rewrite (lo_kids _ _ _ _ _ K3); auto).
          destruct (late_modified n s3 Ro3 Nn P3 I3' s5 E5) as (r & Er & Hr).
          unfold fwx. rewrite Er. destruct Hr as [-> |(x & -> & Hx)]; auto. }
        eapply fwx_mono; [apply W| |].
        2:{ intros x s5 ((Lk & V5) & U). split; auto. eapply HOME; eauto. eapply looks_like; eauto. }
        intros ? s5 [Lk5 V5].
        assert (K5 : looks s1 s5 (is_displayed s1) (put_at n [root] (pars s1)) ks) by (eapply looks_like; eauto).
        apply fwx_bind. destruct (disp_entry s5 n) as (e5 & Ee5 & _); [rewrite (lo_disp _ _ _ _ _ K5); auto|].
        unfold fwx at 1. unfold fnode_at at 1. rewrite Ee5. apply fwx_bind. unfold fwx at 1. unfold fget at 1. unfold node_children_of. rewrite (gv_flat _ _ _ _ _ _ V5).
        destruct (goes_down dir'); cbn [ffor]; apply fwx_ret; eapply HOME; eauto. }
      destruct (o_pars _ _ L1 n Dn1 Nn) as [P1|P1]; rewrite P1.
      - (* from nowhere *)
        rewrite SD1, SD2, SD3. set (dir' := if _ && _ then Both else dir).
        apply fwx_bind. unfold iterate_set at 1. unfold fwx at 1. rewrite (ord_none ord HO). cbn [ffor fret].
        apply gview_bump in V2. set (s3 := bump s2) in *.
        assert (K3 : looks s1 s3 (is_displayed s1) (put_at n [root] (pars s1)) (kids s1)) by (eapply looks_like; [apply K2|constructor; auto]).
        apply fwx_bind. unfold iterate_set at 1. unfold fwx at 1. rewrite (ord_one ord HO).
        set (ks := put_at root (kids s1 root ++ [n]) (kids s1)).
        assert (Inn : In n (ks root)) by (unfold ks, put_at; rewrite eqb_refl; apply in_or_app; right; left; auto).
        match goal with |- context [ffor [root] ?body (bump s3)] => assert (W : fwx (ffor [root] body) (fun _ s' =>
          gview root true two (fun _ => True) ks s' /\ looks s1 s' (is_displayed s1) (put_at n [root] (pars s1)) ks)
          (fun e s' => (gview root true two (fun _ => True) ks s' /\ looks s1 s' (is_displayed s1) (put_at n [root] (pars s1)) ks) /\ upsets e) (bump s3)) end.
        { apply gview_bump in V2. set (s4 := bump s3) in *.
          assert (K4 : looks s1 s4 (is_displayed s1) (put_at n [root] (pars s1)) (kids s1)) by (eapply looks_like; [apply K3|constructor; auto]).
          assert (W : fwp (upd_f root (fun e => mkF (fpar e) (fchi e ++ [n])) ;; send_add_tree n root)
            (fun _ s5 => gview root true two (fun _ => True) ks s5 /\ looks s1 s5 (is_displayed s1) (put_at n [root] (pars s1)) ks) s4).
          { apply (step_link root true two (fun x => x <> n) (fun x => x <> n) (kids s1) s4 n root); auto.
            - intros x Hx ->. unfold two in Hx. rewrite two_root, two_other in Hx by auto. lia.
            - rewrite (lo_disp _ _ _ _ _ K4). apply G1.
            - rewrite (lo_disp _ _ _ _ _ K4). auto.
            - unfold two. rewrite two_root, two_other; auto.
            - intros x _ [->|Hx]; auto. unfold two in Hx. pose proof (two_le root x). rewrite (two_other root n) in Hx by auto. lia.
            - intros x c _. rewrite (lo_kids _ _ _ _ _ K4). auto.
            - rewrite (lo_kids _ _ _ _ _ K4). intros H. apply (gb_sym _ _ _ _ _ G1) in H; auto. rewrite P1 in H. destruct H.
            - intros _ q H. apply (gb_sym _ _ _ _ _ G1) in H; auto. rewrite P1 in H. destruct H.
            - intros s5 V5 K5. assert (K15 : looks s1 s5 (is_displayed s1) (put_at n [root] (pars s1)) ks).
              { destruct K5 as [a1 a2 a3 a4 a5 a6]. destruct K4 as [b1 b2 b3 b4 b5 b6]. constructor; try congruence.
                intros x. rewrite a6. unfold ks, put_at. rewrite !b6. destruct (String.eqb x root); auto. }
              split; auto.
              apply (gview_restore root true two (fun x => x <> n) (fun _ => True) n); auto.
              + intros x _. destruct (id_dec x n); auto.
              + intros p. rewrite (lo_pars _ _ _ _ _ K15). unfold ks, put_at. rewrite eqb_refl. deq p root.
                * subst. rewrite in_app_iff. simpl. tauto.
                * split; [intros [H|[]]; exfalso; auto|]. intros H. apply (gb_sym _ _ _ _ _ G1) in H; auto. rewrite P1 in H. destruct H. }
          apply fwp_elim in W. destruct W as (s6 & [] & E6 & V6 & K6).
          unfold fbind at 1 in E6.
          destruct (upd_f root (fun e => mkF (fpar e) (fchi e ++ [n])) s4) as [s5 [[]|x|]] eqn:E5; try discriminate.
          assert (Ro4 : froot s4 = root) by apply (gb_root _ _ _ _ _ (gv_g _ _ _ _ _ _ V2)).
          assert (Upd : froot s5 = root /\ kids s5 n = [] /\ is_displayed s5 n = true).
          { unfold upd_f in E5. destruct (dget root (fnodes s4)) as [re|] eqn:Er; [|discriminate]. inversion E5; subst s5. split; [auto|].
            pose proof (lo_disp _ _ _ _ _ K4 n) as A. rewrite Dn1 in A. pose proof (lo_kids _ _ _ _ _ K4 n) as B. rewrite (loft_kids root s1 n L1 Nn) in B.
            unfold kids, is_displayed, dmem in *. cbn [fnodes set_fnodes]. rewrite dget_dset_other by auto. auto. }
          destruct Upd as (U1 & U2 & U3).
          destruct (late_add_tree n s5 U1 U2 U3 s6 E6) as (r & Er & Hr).
          cbn [ffor]. apply fwx_bind. apply fwx_bind. unfold fwx at 1. unfold fget at 1. rewrite (lo_disp _ _ _ _ _ K4), (gb_disp _ _ _ _ _ G1).
          apply fwx_bind. unfold fwx at 1. rewrite E5. apply fwx_bind. unfold fwx at 1. rewrite Er. destruct Hr as [-> |(x & -> & Hx)]; [|auto].
          apply fwp_fwx. apply (x_up_root root rec Rroot); [apply (gb_root _ _ _ _ _ (gv_g _ _ _ _ _ _ V6))|]. apply fwx_ret. auto. }
        apply fwx_elim in W. destruct W as (s5 & r & E5 & H5). rewrite E5. clear E5. destruct r as [[]|x|]; [| |contradiction].
        2:{ destruct H5 as [(V5 & K5) U]. split; auto. eapply HOME; eauto. }
        destruct H5 as (V6 & K5).
        apply fwx_bind.
        eapply fwx_mono with (Q := fun _ s' => like s5 s' /\ gview root true two (fun _ => True) ks s') (R := fun _ _ => False); [| |intros ? ? []].
        { destruct (goes_up dir'); [|apply fwx_ret; split; auto; constructor; auto]. unfold iterate_set, fwx. rewrite (ord_none ord HO). cbn. split; [constructor; auto|apply gview_bump; auto]. }
        intros ? s6 [Lk V7]. apply (FIN dir' s6 _ V7); auto. eapply looks_like; eauto.
      - rewrite !SD3, SD2. cbn [mem existsb]. rewrite andb_false_r.
        assert (V3 : gview root true two (fun _ => True) (kids s1) s2).
        { apply (gview_restore root true two (fun x => x <> n) (fun _ => True) n); auto.
          - intros x _. destruct (id_dec x n); auto.
          - intros p. rewrite (lo_pars _ _ _ _ _ K2). unfold put_at. rewrite eqb_refl, <- P1. apply (gb_sym _ _ _ _ _ G1). auto. }
        apply fwx_bind. unfold iterate_set at 1. unfold fwx at 1. rewrite (ord_none ord HO). cbn [ffor fret].
        apply fwx_bind. unfold iterate_set at 1. unfold fwx at 1. rewrite (ord_none ord HO). cbn [ffor fret].
        apply gview_bump, gview_bump in V3. set (s3 := bump (bump s2)) in *.
        assert (K3 : looks s1 s3 (is_displayed s1) (put_at n [root] (pars s1)) (kids s1)) by (eapply looks_like; [apply K2|constructor; auto]).
        apply fwx_bind.
        eapply fwx_mono with (Q := fun _ s' => like s3 s' /\ gview root true two (fun _ => True) (kids s1) s') (R := fun _ _ => False); [| |intros ? ? []].
        { destruct (goes_up dir); [|apply fwx_ret; split; auto; constructor; auto]. unfold iterate_set, fwx. rewrite (ord_one ord HO). cbn [ffor]. unfold fbind.
          rewrite Rroot by (apply (gb_root _ _ _ _ _ (gv_g _ _ _ _ _ _ V3))). cbn. split; [constructor; auto|apply gview_bump; auto]. }
        intros ? s4 [Lk4 V4]. apply (FIN dir s4 _ V4); [eapply looks_like; eauto|]. apply (gb_sym _ _ _ _ _ G1); auto. rewrite P1. left. auto.
    Qed.

    Lemma e_showing : forall dir added s, loft root s -> D n = true -> is_displayed s n = true ->
      fwx (e_shown bad ord T D rec n dir added) (fun _ s' => gone_on F root rk n s s') (fun e s' => broken root rk upsets n s e s') s.
    Proof.
      intros dir added s L Dn Dsp. unfold e_shown. destruct (disp_entry s n Dsp) as (e & Ee & _).
      apply fwx_bind. unfold fwx at 1. unfold fnode_at. rewrite Ee. apply fwx_bind. unfold fwx at 1. unfold fget at 1. cbv zeta. rewrite (flat_parents_of n s L).
      apply fwx_bind. eapply fwx_mono with (Q := fun _ s' => loft root s' /\ kept rk (pred (rk n)) s s' /\ is_displayed s' n = true).
      { destruct added; [|apply fwx_ret; split; auto; split; auto; apply kept_refl].
        pose proof (x_up_tests T F root rk HR upsets rec n IH (fun p => negb (mem p [root]) && negb (mem p (fpar e))) (get_parents T n) s (fun _ H => H) L) as W.
        destruct (get_parents T n) as [|p l] eqn:E; [apply fwx_ret; split; auto; split; auto; apply kept_refl|].
        assert (Rn : 0 < rk n) by (specialize (HR n p); rewrite E in HR; specialize (HR (or_introl eq_refl)); lia).
        eapply fwx_mono; [apply W| |].
        - intros ? s1 (L1 & K1). split; auto. split; auto. rewrite (kp_disp _ _ _ _ K1); auto. lia.
        - intros e0 s1 H. exact H. }
      - intros ? s1 (L1 & K1 & D1).
        assert (Keep : forall s2, lodged s1 s2 -> kept rk (rk n) s s2).
        { intros s2 (L2 & F2 & D2 & P2). constructor.
          * rewrite F2. apply K1.
          * intros x Hx. rewrite D2. apply (kp_disp _ _ _ _ K1). lia.
          * intros x Hx. rewrite P2 by (intros ->; lia). apply (kp_pars _ _ _ _ K1). lia. }
        eapply fwx_mono; [apply e_placed; auto| |].
        + intros ? s2 H2. split; [apply H2|]. split; [auto|]. intros _. unfold F. destruct H2 as (_ & _ & D2 & _). rewrite D2, D1. congruence.
        + intros x s2 [H2 U]. split; [apply H2|]. split; auto.
      - intros e0 s1 (L1 & K1 & B1). split; auto. split; auto. eapply kept_less; [|apply K1]. lia.
    Qed.
  End Body.

  Lemma e_body_root : forall rec n dir s, froot s = n -> e_body bad ord T D rec n dir s = (s, Ok tt).
  Proof. intros rec n dir s <-. unfold e_body, fbind, fget. rewrite eqb_refl. auto. Qed.

  Lemma e_updated : forall fuel n dir s, rk n + 1 < fuel -> loft root s ->
    fwx (e_update bad ord T D fuel n dir) (fun _ s' => gone_on F root rk n s s') (fun e s' => broken root rk upsets n s e s') s.
  Proof.
    induction fuel as [|fuel IHf]; intros n dir s Hf L; [lia|]. cbn [e_update].
    pose proof (gb_root _ _ _ _ _ (b_g _ _ _ _ _ (o_base _ _ L))) as Ro.
    destruct (id_dec n root) as [->|Nn].
    { unfold fwx. rewrite e_body_root by auto. split; auto. split; [apply kept_refl|]. intros H. contradiction. }
    set (rec := e_update bad ord T D fuel).
    assert (IH : forall p s, rk p < rk n -> loft root s -> fwx (rec p Up) (fun _ s' => gone_on F root rk p s s') (fun e s' => broken root rk upsets p s e s') s).
    { intros p s' Hp L'. apply IHf; auto. lia. }
    assert (Rroot : forall s, froot s = root -> rec root Up s = (s, Ok tt)).
    { intros z Hz. unfold rec. destruct fuel as [|f]; [lia|]. cbn [e_update]. apply e_body_root. auto. }
    unfold e_body. apply fwx_bind. cbn [fget fwx]. rewrite Ro, (proj2 (eqb_neq n root) Nn).
    destruct (is_displayed s n) eqn:Dsp; destruct (D n) eqn:Dn.
    - apply (e_showing rec n IH Rroot); auto.
    - unfold fwx. rewrite hidden_quiet. apply (x_hidden T F root rk HG HR upsets rec n IH Rroot); auto. unfold F. congruence.
    - apply fwx_bind. unfold fwx at 1. cbn [fmodify].
      destruct (step_new root true two (fun _ => True) (kids s) s n (base_gview _ _ _ _ _ (o_base _ _ L)) Dsp) as [V1 K1].
      cbn zeta in V1, K1. set (s1 := set_fnodes (dset n (mkF [] []) (fnodes s)) s) in *.
      assert (L1 : loft root s1).
      { constructor.
        - eapply gview_base; [apply V1|]. intros p c. rewrite (lo_kids _ _ _ _ _ K1). auto.
        - intros x. rewrite (lo_disp _ _ _ _ _ K1), (lo_pars _ _ _ _ _ K1). simpl. deq x n.
          + subst. intros _ _. left. apply (not_disp _ _ Dsp).
          + simpl. apply (o_pars _ _ L). }
      assert (Keep : kept rk (rk n) s s1).
      { constructor; [apply (lo_filters _ _ _ _ _ K1)| |]; intros x Hx.
        - rewrite (lo_disp _ _ _ _ _ K1). deq x n; [subst; lia|auto].
        - rewrite (lo_pars _ _ _ _ _ K1). auto. }
      assert (D1 : is_displayed s1 n = true) by (rewrite (lo_disp _ _ _ _ _ K1), eqb_refl; auto).
      eapply fwx_mono; [apply (e_showing rec n IH Rroot dir true s1); auto| |].
      + intros ? s2 (L2 & K2 & D2). split; auto. split; auto. eapply kept_trans; eauto.
      + intros e s2 (L2 & K2 & B2). split; auto. split; auto. eapply kept_trans; eauto.
    - assert (RN : get_parents T n = [] \/ 0 < rk n).
      { destruct (get_parents T n) as [|p l] eqn:E; auto. right. specialize (HR n p). rewrite E in HR. specialize (HR (or_introl eq_refl)). lia. }
      assert (Same : gone_on F root rk n s s) by (split; auto; split; [apply kept_refl|intros _; unfold F; congruence]).
      destruct (has_node T n); [|apply fwx_ret; auto].
      destruct RN as [RN|RN]; [rewrite RN; cbn [ffor fret]; apply fwx_ret; auto|].
      pose proof (x_up_tests T F root rk HR upsets rec n IH (fun _ => true) (get_parents T n) s (fun _ H => H) L) as W. cbn beta iota in W.
      eapply fwx_mono; [apply W| |].
      + intros ? s1 (L1 & K1). split; auto. split; [eapply kept_less; [|apply K1]; lia|]. intros _. rewrite (kp_disp _ _ _ _ K1) by lia. unfold F. congruence.
      + intros e s1 (L1 & K1 & B1). split; auto. split; auto. eapply kept_less; [|apply K1]. lia.
  Qed.
End Flat.
