(** Views: trees in which nodes have at most one parent, whatever the filters say. *)
From Coq Require Import Permutation.
From Verif Require Import Base BaseFacts MainTree MainFacts Filters FTree SpecView FtBase FtWalk FtEdge FtUp FtFront FtNoop FtDel FtStep FtFlat.
Open Scope f_scope.

Section Forest.
  Context {EAR : Ear}.
  Variable ord : nat -> list id -> list id.
  Variable T : mtree.
  Variable D : id -> bool.
  Variable root : id.
  (** The only id, apart from the root, that can be a parent in the tree or in the view. *)
  Variable pa : id -> option id.
  Variable r0 : id -> nat.
  Variable B : nat.
  Hypothesis HGo : forall q, ear_gone q.
  (** Nodes that can still have a parent that the tree no longer gives them. *)
  Variable St : id -> Prop.

  Definition parank (r : id -> nat) : Prop := (forall x p, pa x = Some p -> r p < r x) /\ (forall x, x <> root -> r root < r x).

  Hypothesis HO : forall k l, Permutation (ord k l) l.
  Hypothesis HD : forall x, D x = true -> x <> root /\ fine x.
  Hypothesis HG : forall x, get_parents T x = [] \/ exists p, get_parents T x = [p] /\ pa x = Some p.
  Hypothesis HC : forall x c, D x = true -> D c = true -> In c (get_children T x) -> get_parents T c = [x].
  Hypothesis HP : forall x, pa x <> Some root.
  Hypothesis HP0 : pa root = None.
  Hypothesis HR : parank r0.
  Hypothesis HB : forall x, r0 x <= B.

  (** [below y x]: [x] is [y] or comes below it. *)
  Inductive below (y : id) : id -> Prop :=
  | below_refl : below y y
  | below_step : forall x p, pa x = Some p -> below y p -> below y x.

  Lemma below_rank : forall r y x, parank r -> below y x -> y = x \/ r y < r x.
  Proof.
    intros r y x [H _] W. induction W as [|x p E W IH]; auto. right. pose proof (H x p E). destruct IH as [->|IH]; lia.
  Qed.
  Lemma below_trans : forall y x z, below y x -> below x z -> below y z.
  Proof. intros y x z A W. induction W as [|z p E W IH]; auto. eapply below_step; eauto. Qed.
  Lemma below_pa : forall y x p, below y x -> pa x = Some p -> x <> y -> below y p.
  Proof. intros y x p W E N. destruct W as [|x p' E' W]; [contradiction|]. congruence. Qed.
  Lemma below_root : forall y, below y root -> y = root.
  Proof. intros y W. inversion W as [|x p E W']; auto. subst. congruence. Qed.
  (** Of two ids above the same one, one is above the other. *)
  Lemma below_line : forall y x z, below y z -> below x z -> below y x \/ below x y.
  Proof.
    intros y x z W. induction W as [|z p E W IH]; intros W2; auto.
    inversion W2 as [|z' p' E' W2']; subst.
    - left. eapply below_step; eauto.
    - apply IH. congruence.
  Qed.
  Lemma below_child : forall y c q, pa c = Some q -> below y c -> y = c \/ below y q.
  Proof. intros y c q E W. inversion W as [|x p E' W']; auto. subst. right. congruence. Qed.
  Lemma below_up : forall y q, pa y = Some q -> ~ below y q.
  Proof. intros y q E W. pose proof (proj1 HR y q E). destruct (below_rank r0 y q HR W) as [->|?]; lia. Qed.
  Lemma below_siblings : forall x y z q, pa x = Some q -> pa y = Some q -> below x z -> below y z -> x = y.
  Proof.
    intros x y z q Ex Ey W1 W2. destruct (below_line _ _ _ W1 W2) as [W|W].
    - destruct (below_child _ _ _ Ey W) as [|W']; auto. exfalso. apply (below_up x q); auto.
    - destruct (below_child _ _ _ Ex W) as [|W']; auto. exfalso. apply (below_up y q); auto.
  Qed.

  Fixpoint belowb (k : nat) (y x : id) : bool :=
    String.eqb x y || match k with 0 => false | S k => match pa x with Some p => belowb k y p | None => false end end.
  Lemma belowb_spec : forall k y x, r0 x <= k -> (belowb k y x = true <-> below y x).
  Proof.
    induction k as [|k IH]; intros y x Hk; simpl; rewrite orb_true_iff, eqb_eq.
    - split; [intros [->|?]; [constructor|discriminate]|]. intros W. inversion W as [|x' p E W']; auto. subst. pose proof (proj1 HR x p E). lia.
    - destruct (pa x) as [p|] eqn:E.
      + pose proof (proj1 HR x p E). rewrite IH by lia. split.
        * intros [->|W]; [constructor|eapply below_step; eauto].
        * intros W. inversion W as [|x' p' E' W']; auto. subst. right. congruence.
      + split; [intros [->|?]; [constructor|discriminate]|]. intros W. inversion W as [|x' p' E' W']; auto. congruence.
  Qed.
  Lemma below_dec : forall y x, below y x \/ ~ below y x.
  Proof. intros y x. destruct (belowb B y x) eqn:E; [left; apply (belowb_spec B); auto|right]. intros W. apply (belowb_spec B) in W; auto. congruence. Qed.

  (** A rank that puts everything below [y] above the rest. *)
  Lemma shift : forall y, y <> root -> exists r, parank r /\ forall o x, below y o -> ~ below y x -> r x < r o.
  Proof.
    intros y Ny. exists (fun x => r0 x + if belowb B y x then S B else 0). assert (Bs : forall x, belowb B y x = true <-> below y x) by (intros; apply belowb_spec; auto).
    split; [split|].
    - intros x p E. pose proof (proj1 HR x p E). destruct (belowb B y p) eqn:Ep; [|lia].
      assert (W : belowb B y x = true) by (apply Bs; apply Bs in Ep; eapply below_step; eauto). rewrite W. lia.
    - intros x Nx. pose proof (proj2 HR x Nx). destruct (belowb B y root) eqn:Ep; [|lia]. apply Bs, below_root in Ep. contradiction.
    - intros o x Ho Hx. apply Bs in Ho. rewrite Ho. destruct (belowb B y x) eqn:Ex; [apply Bs in Ex; contradiction|]. specialize (HB x). lia.
  Qed.

  (** The view while updates are going on. The nodes of [U] have no parents yet,
      those of [O] have parents that do not list them yet, those of [H] are going away and
      still list children that left them. *)
  Record fv (U O H : list id) (ch : id -> list id) (s : ft) : Prop := {
    fv_g : forall r, parank r -> gview root false r (fun x => ~ In x O) ch s;
    fv_eq : forall x c, ~ In x H -> In c (kids s x) -> In c (ch x);
    fv_kid : forall x c, In c (kids s x) -> c <> root /\ (x = root \/ pa c = Some x);
    fv_par : forall x p, In p (pars s x) -> p = root \/ pa x = Some p;
    fv_one : forall x, is_displayed s x = true -> x <> root -> ~ In x U -> exists p, pars s x = [p];
    fv_U : forall x, In x U -> is_displayed s x = true /\ x <> root /\ pars s x = [];
    fv_O : forall x, In x O -> is_displayed s x = true /\ x <> root /\ forall p, ~ In x (ch p);
    fv_fine : forall x, is_displayed s x = true -> x <> root -> fine x;
    fv_st : forall x p, In p (pars s x) -> St x \/ p = root \/ In p (get_parents T x)
  }.

  Lemma par_rank : forall r x p, parank r -> x <> root -> (p = root \/ pa x = Some p) -> r p < r x.
  Proof. intros r x p [H1 H2] Nx [->|E]; auto. Qed.

  Lemma fv_base : forall U O H ch s, fv U O H ch s -> gview root false r0 (fun x => ~ In x O) ch s.
  Proof. intros U O H ch s F. apply (fv_g _ _ _ _ _ F). auto. Qed.
  Lemma fv_gb : forall U O H ch s, fv U O H ch s -> gbase r0 root (fun x => ~ In x O) ch s.
  Proof. intros U O H ch s F. apply (fv_base _ _ _ _ _ F). Qed.
  Lemma fv_root : forall U O H ch s, fv U O H ch s -> froot s = root.
  Proof. intros U O H ch s F. apply (fv_gb _ _ _ _ _ F). Qed.

  Lemma pars_top : forall r A ch s x p, gbase r root A ch s -> In p (pars s x) -> x <> root.
  Proof. intros r A ch s x p G Hp ->. rewrite (gb_top _ _ _ _ _ G) in Hp. destruct Hp. Qed.

  (** One rank is enough. *)
  Lemma any_rank : forall r r' A ch s, parank r' -> gview root false r A ch s -> (forall x c, In c (kids s x) -> c <> root /\ (x = root \/ pa c = Some x)) ->
    (forall x p, In p (pars s x) -> p = root \/ pa x = Some p) -> gview root false r' A ch s.
  Proof.
    intros r r' A ch s R V H1 H2. apply (gview_rank root false r); auto.
    - intros x p Hp. apply par_rank; auto. eapply pars_top; [apply V|eauto].
    - intros x c Hc. destruct (H1 _ _ Hc). apply par_rank; auto.
  Qed.

  Lemma fv_sub : forall U O H ch s x c, fv U O H ch s -> In c (ch x) -> In c (kids s x).
  Proof. intros U O H ch s x c F. apply (gb_sub _ _ _ _ _ (fv_gb _ _ _ _ _ F)). Qed.
  Lemma fv_sym : forall U O H ch s x p, fv U O H ch s -> ~ In x O -> (In p (pars s x) <-> In x (ch p)).
  Proof. intros U O H ch s x p F. apply (gb_sym _ _ _ _ _ (fv_gb _ _ _ _ _ F)). Qed.
  Lemma fv_chO : forall U O H ch s x p, fv U O H ch s -> In x (ch p) -> ~ In x O /\ pars s x = [p] /\ ~ In x U /\ is_displayed s x = true /\ x <> root /\ is_displayed s p = true.
  Proof.
    intros U O H ch s x p F Hx. assert (NO : ~ In x O) by (intros Ho; apply (fv_O _ _ _ _ _ F) in Ho; apply Ho in Hx; auto).
    pose proof (proj2 (fv_sym _ _ _ _ _ x p F NO) Hx) as Hp. assert (Dx : is_displayed s x = true) by (eapply pars_disp; eauto).
    assert (Nx : x <> root) by (eapply pars_top; [eapply fv_gb; eauto|eauto]).
    assert (NU : ~ In x U) by (intros Hu; apply (fv_U _ _ _ _ _ F) in Hu; destruct Hu as (_ & _ & E); rewrite E in Hp; destruct Hp).
    assert (Dp : is_displayed s p = true) by (eapply kids_disp, fv_sub; eauto).
    destruct (fv_one _ _ _ _ _ F x Dx Nx NU) as (p' & E). rewrite E in Hp. destruct Hp as [->|[]]. auto 10.
  Qed.

  Lemma fv_bump : forall U O H ch s, fv U O H ch s -> fv U O H ch (bump s).
  Proof. intros U O H ch s []. constructor; auto. intros r R. apply gview_bump. auto. Qed.

  Lemma fv_like : forall U O H ch s s', fv U O H ch s -> like s s' -> knows s' (paths ch root) -> fv U O H ch s'.
  Proof.
    intros U O H ch s s' F L K. pose proof (fun x => like_disp _ _ x L) as L1. pose proof (fun x => like_pars _ _ x L) as L2. pose proof (fun x => like_kids _ _ x L) as L3. destruct F as [F1 F2 F3 F4 F5 F6 F7 F8 F9]. constructor.
    - intros r R. apply (gview_like root false r _ ch ch s); auto. tauto.
    - intros x c. rewrite L3. auto.
    - intros x c. rewrite L3. auto.
    - intros x p. rewrite L2. auto.
    - intros x. rewrite L1, L2. auto.
    - intros x. rewrite L1, L2. auto.
    - intros x. rewrite L1. auto.
    - intros x. rewrite L1. auto.
    - intros x p. rewrite L2. auto.
  Qed.

  (** [tall O n]: some rank puts [O] above [n]. *)
  Definition tall (O : list id) (n : id) : Prop := exists r, parank r /\ forall o, In o O -> r n < r o.
  (** [over H n]: [H] are above [n]. *)
  Definition over (H : list id) (n : id) : Prop := forall h, In h H -> below h n /\ h <> n.

  Lemma tall_nil : forall n, tall [] n.
  Proof. intros n. exists r0. split; auto. intros o []. Qed.

  Lemma over_agree : forall U O H ch s r n x c, fv U O H ch s -> parank r -> over H n -> r n <= r x -> In c (kids s x) -> In c (ch x).
  Proof.
    intros U O H ch s r n x c F R V Hr Hc. apply (fv_eq _ _ _ _ _ F); auto. intros Hx. destruct (V x Hx) as [W N].
    destruct (below_rank r x n R W); [contradiction|lia].
  Qed.

  (** A new node. *)
  Lemma fv_new : forall U O H ch s n, fv U O H ch s -> is_displayed s n = false -> n <> root -> fine n ->
    let s' := set_fnodes (dset n (mkF [] []) (fnodes s)) s in
    fv (n :: U) O H ch s' /\ looks s s' (fun x => String.eqb x n || is_displayed s x) (pars s) (kids s) /\ ~ In n U /\ ~ In n O.
  Proof.
    intros U O H ch s n F Dn Nn Fn s'. destruct (step_new root false r0 _ ch s n (fv_base _ _ _ _ _ F) Dn) as [V L]. fold s' in V, L.
    destruct (not_disp _ _ Dn) as [Kn Pn]. destruct L as [L1 L2 L3 L4 L5 L6]. destruct F as [F1 F2 F3 F4 F5 F6 F7 F8 F9].
    assert (NU : ~ In n U) by (intros X; apply F6 in X; rewrite Dn in X; destruct X; discriminate).
    assert (NO : ~ In n O) by (intros X; apply F7 in X; rewrite Dn in X; destruct X; discriminate).
    split; [|split; [constructor; auto|auto]]. constructor.
    - intros r R. apply (any_rank r0); auto.
      + intros x c. rewrite L6. auto.
      + intros x p. rewrite L5. auto.
    - intros x c. rewrite L6. auto.
    - intros x c. rewrite L6. auto.
    - intros x p. rewrite L5. auto.
    - intros x. rewrite L4, L5. simpl. intros Hx Nx Hn. deq x n; [exfalso; auto|]. simpl in Hx. apply F5; auto.
    - intros x. rewrite L4, L5. intros [<-|Hx]; [rewrite eqb_refl; auto|]. destruct (F6 x Hx) as (-> & ? & ?). rewrite orb_true_r. auto.
    - intros x. rewrite L4. intros Hx. destruct (F7 x Hx) as (-> & ? & ?). rewrite orb_true_r. auto.
    - intros x. rewrite L4. deq x n; [subst; auto|]. simpl. auto.
    - intros x p. rewrite L5. auto.
  Qed.

  (** A child leaves a node that is going away. *)
  Lemma fv_cut : forall U O H ch s n c, fv U O H ch s -> In n H -> In c (ch n) -> tall O n -> (forall h, In h H -> below h n) ->
    fwp (send_remove_tree c n ;; parents_remove c n) (fun _ s' => fv (c :: U) O H (put_at n (wo c (ch n)) ch) s' /\
      looks s s' (is_displayed s) (put_at c [] (pars s)) (kids s) /\ ~ In c U) s.
  Proof.
    intros U O H ch s n c F Hn Hc (r & R & HT) HH. destruct (fv_chO _ _ _ _ _ _ _ F Hc) as (NO & Pc & NU & Dc & Nc & Dn).
    assert (Rc : r n < r c) by (apply par_rank; auto; apply (fv_par _ _ _ _ _ F); rewrite Pc; left; auto).
    apply (step_cut root false HGo r (fun x => ~ In x O) ch s c n); auto.
    - apply (fv_g _ _ _ _ _ F). auto.
    - intros x Hx Ho. apply HT in Ho. lia.
    - intros x d Hx Hd. apply (fv_eq _ _ _ _ _ F); auto. intros Hh. destruct (below_rank r x n R (HH x Hh)); subst; lia.
    - intros s' V L. split; [|auto]. destruct L as [L1 L2 L3 L4 L5 L6].
      assert (CI : forall x d, In d (put_at n (wo c (ch n)) ch x) <-> In d (ch x) /\ ~ (x = n /\ d = c)).
      { intros x d. unfold put_at. deq x n; [subst; rewrite wo_In|]; tauto. }
      destruct F as [F1 F2 F3 F4 F5 F6 F7 F8 F9].
      assert (Fp : forall x p, In p (pars s' x) -> p = root \/ pa x = Some p).
      { intros x p. rewrite L5. unfold put_at. destruct (String.eqb x c); [intros []|auto]. }
      constructor; auto.
      + intros r' R'. apply (any_rank r); auto. intros x d. rewrite L6. auto.
      + intros x d Nx. rewrite L6. intros Hd. apply CI. split; auto. intros [-> _]. auto.
      + intros x d. rewrite L6. auto.
      + intros x. rewrite L4, L5. intros Hx Nx Hu. unfold put_at. deq x c; [exfalso; apply Hu; left; auto|]. apply F5; auto.
      + intros x. rewrite L4, L5. intros [<-|Hx].
        * unfold put_at. rewrite eqb_refl. auto.
        * destruct (F6 x Hx) as (? & ? & E). unfold put_at. destruct (String.eqb x c); auto.
      + intros x. rewrite L4. intros Hx. destruct (F7 x Hx) as (? & ? & E). split; auto. split; auto. intros p Hp. apply CI in Hp. apply (E p). tauto.
      + intros x. rewrite L4. auto.
      + intros x p. rewrite L5. unfold put_at. destruct (String.eqb x c); [intros []|auto].
  Qed.

  (** The node goes. *)
  Lemma fv_drop : forall U U1 O H ch s n P K (Q : unit -> ft -> Prop), fv U1 O (n :: H) ch s -> ~ In n U -> (U1 = n :: U \/ U1 = U) -> ~ In n O -> n <> root -> is_displayed s n = true ->
    (forall c, ~ In c (ch n)) -> (forall q, In q P <-> chain ch root n q) -> NoDup P ->
    (forall ch' s', fv U O H ch' s' -> (forall x c, In c (ch' x) <-> In c (ch x) /\ c <> n) ->
       looks s s' (fun x => negb (String.eqb x n) && is_displayed s x) (put_at n [] (pars s))
         (fun x => if String.eqb x n then [] else if mem x (pars s n) then remove1 n (kids s x) else kids s x) ->
       fwp (ffor (pars s n) K) Q s') ->
    fwp (fmodify (fun s => set_fnodes (ddel n (fnodes s)) s) ;; ffor P (fun p => callback_deleted n p) ;;
         ffor (pars s n) (fun p => children_remove p n ;; K p)) Q s.
  Proof.
    intros U U1 O H ch s n P K Q F NU EU NO Nn Dn Cn HP' ND HQ.
    assert (Pn : pars s n = [] \/ exists p, pars s n = [p] /\ In n (kids s p)).
    { destruct EU as [->| ->].
      - left. apply (fv_U _ _ _ _ _ F n). left. auto.
      - right. destruct (fv_one _ _ _ _ _ F n Dn Nn NU) as (p & E). exists p. split; auto. eapply fv_sub; eauto. apply (fv_sym _ _ _ _ _ n p F NO). rewrite E. left. auto. }
    apply (step_drop root false HGo r0 (fun x => ~ In x O) ch s n P K Q); auto.
    - apply (fv_base _ _ _ _ _ F).
    - intros x Hx. apply (fv_sym _ _ _ _ _ n x F NO). auto.
    - intros x Hx Hp. apply (fv_sym _ _ _ _ _ x n F Hx) in Hp. apply (Cn x). auto.
    - intros s' V L. apply (HQ (fun x => if String.eqb x n then [] else wo n (ch x))); auto.
      + destruct L as [L1 L2 L3 L4 L5 L6]. pose proof (fun x => fv_sym _ _ _ _ _ n x F NO) as Sn. destruct F as [F1 F2 F3 F4 F5 F6 F7 F8 F9].
        assert (Kd : forall x c, In c (kids s' x) -> In c (kids s x)).
        { intros x c. rewrite L6. deq x n; [intros []|]. destruct (mem x (pars s n)); auto. apply remove1_In. }
        assert (Fp : forall x p, In p (pars s' x) -> p = root \/ pa x = Some p).
        { intros x p. rewrite L5. unfold put_at. destruct (String.eqb x n); [intros []|auto]. }
        constructor; auto.
        * intros r' R'. apply (any_rank r0); auto.
        * intros x c Nx Hc. pose proof (Kd _ _ Hc) as Hc'. rewrite L6 in Hc. deq x n; [destruct Hc|]. rewrite wo_In. split.
          -- apply F2; auto. intros [Hx|Hx]; auto.
          -- destruct (mem_spec x (pars s n)) as [I|I].
             ++ apply remove1_iff in Hc; [|apply (F1 r0 HR)]. apply Hc.
             ++ intros ->. apply I. apply Sn. apply F2; auto. intros [Hx|Hx]; auto.
        * intros x. rewrite L4, L5. unfold put_at. deq x n; [discriminate|]. simpl. intros Hx Nx Hu. apply F5; auto. destruct EU as [->| ->]; auto. intros [X|X]; auto.
        * intros x Hx. rewrite L4, L5. assert (H1 : In x U1) by (destruct EU as [->| ->]; simpl; auto). destruct (F6 x H1) as (-> & ? & E).
          unfold put_at. deq x n; [subst; contradiction|]. auto.
        * intros x Hx. rewrite L4. destruct (F7 x Hx) as (-> & ? & E). deq x n; [subst; contradiction|]. split; auto. split; auto.
          intros p. deq p n; auto. rewrite wo_In. intros [Hp _]. apply (E p). auto.
        * intros x. rewrite L4. rewrite andb_true_iff. intros [_ Hx]. auto.
        * intros x p. rewrite L5. unfold put_at. destruct (String.eqb x n); [intros []|auto].
      + intros x c. deq x n; [|apply wo_In]. subst. simpl. split; [tauto|]. intros [Hc _]. eapply Cn; eauto.
  Qed.

  (** Writing the same parent again. *)
  Lemma fv_same : forall U O H ch s n p f, fv U O H ch s -> ~ In n O -> pars s n = [p] -> (forall e, fpar (f e) = [p] /\ fchi (f e) = fchi e) ->
    fwp (upd_f n f) (fun _ s' => fv U O H ch s' /\ looks s s' (is_displayed s) (pars s) (kids s)) s.
  Proof.
    intros U O H ch s n p f F NO Pn Hf. assert (Ip : In p (pars s n)) by (rewrite Pn; left; auto).
    assert (Nn : n <> root) by (eapply pars_top; [eapply fv_gb; eauto|eauto]). assert (Dn : is_displayed s n = true) by (eapply pars_disp; eauto).
    apply (step_pars root false r0 (fun x => ~ In x O) (fun x => ~ In x O /\ x <> n) ch s n [p] f); auto.
    - apply (fv_base _ _ _ _ _ F).
    - apply NoDup_cons; [intros []|constructor].
    - intros q [<-|[]]. apply par_rank; auto. apply (fv_par _ _ _ _ _ F). auto.
    - intros s' V L. assert (L' : looks s s' (is_displayed s) (pars s) (kids s)).
      { destruct L as [L1 L2 L3 L4 L5 L6]. constructor; auto. intros x. rewrite L5. unfold put_at. deq x n; auto. subst. auto. }
      split; auto. pose proof (fun x => fv_sym _ _ _ _ _ n x F NO) as Sn. destruct L' as [L1 L2 L3 L4 L5 L6]. destruct F as [F1 F2 F3 F4 F5 F6 F7 F8 F9].
      assert (Fk : forall x c, In c (kids s' x) -> c <> root /\ (x = root \/ pa c = Some x)) by (intros x c; rewrite L6; auto).
      assert (Fp : forall x p, In p (pars s' x) -> p = root \/ pa x = Some p) by (intros x q; rewrite L5; auto).
      constructor; auto.
      + intros r R. apply (any_rank r0); auto. apply (gview_restore root false r0 (fun x => ~ In x O /\ x <> n) (fun x => ~ In x O) n); auto.
        * intros x Hx. destruct (id_dec x n); auto.
        * intros q. rewrite L5. auto.
      + intros x c. rewrite L6. auto.
      + intros x. rewrite L4, L5. auto.
      + intros x. rewrite L4, L5. auto.
      + intros x. rewrite L4. auto.
      + intros x. rewrite L4. auto.
      + intros x q. rewrite L5. auto.
  Qed.

  Lemma up_pa : forall x p, p = root \/ get_parents T x = [p] -> p = root \/ pa x = Some p.
  Proof. intros x p [->|G]; auto. right. destruct (HG x) as [E|(q & E & P)]; congruence. Qed.

  (** A first parent for a node that has none. *)
  Lemma fv_float : forall U O H ch s n p f, fv (n :: U) O H ch s -> ~ In n U -> ~ In n O -> (p = root \/ get_parents T n = [p]) -> (forall e, fpar (f e) = [p] /\ fchi (f e) = fchi e) ->
    fwp (upd_f n f) (fun _ s' => fv U (n :: O) H ch s' /\ looks s s' (is_displayed s) (put_at n [p] (pars s)) (kids s)) s.
  Proof.
    intros U O H ch s n p f F NU NO Hp' Hf. pose proof (up_pa _ _ Hp') as Hp. destruct (fv_U _ _ _ _ _ F n (or_introl eq_refl)) as (Dn & Nn & Pn).
    apply (step_pars root false r0 (fun x => ~ In x O) (fun x => ~ In x (n :: O)) ch s n [p] f); auto.
    - apply (fv_base _ _ _ _ _ F).
    - apply NoDup_cons; [intros []|constructor].
    - intros q [<-|[]]. apply par_rank; auto.
    - intros x Hx. split; intros X; apply Hx; [right|left]; auto.
    - intros s' V L. split; auto. pose proof (fun x => fv_sym _ _ _ _ _ n x F NO) as Sn. destruct L as [L1 L2 L3 L4 L5 L6]. destruct F as [F1 F2 F3 F4 F5 F6 F7 F8 F9].
      assert (Fk : forall x c, In c (kids s' x) -> c <> root /\ (x = root \/ pa c = Some x)) by (intros x c; rewrite L6; auto).
      assert (Fp : forall x p, In p (pars s' x) -> p = root \/ pa x = Some p).
      { intros x q. rewrite L5. unfold put_at. deq x n; auto. subst. intros [<-|[]]. auto. }
      constructor; auto.
      + intros r R. apply (any_rank r0); auto.
      + intros x c. rewrite L6. auto.
      + intros x. rewrite L4, L5. unfold put_at. deq x n; [eauto|]. intros Hx Nx Hu. apply F5; auto. intros [X|X]; auto.
      + intros x Hx. rewrite L4, L5. destruct (F6 x (or_intror Hx)) as (? & ? & ?). unfold put_at. deq x n; [subst; contradiction|auto].
      + intros x. rewrite L4. intros [<-|Hx]; auto. split; auto. split; auto. intros q Hq. apply Sn in Hq. rewrite Pn in Hq. destruct Hq.
      + intros x. rewrite L4. auto.
      + intros x q. rewrite L5. unfold put_at. deq x n; auto. subst. intros [<-|[]]. destruct Hp' as [->|G]; auto. rewrite G. right. right. left. auto.
  Qed.

  (** Another parent for a node, which leaves the first one. *)
  Lemma fv_move : forall U O H ch s n p0 p f, fv U O H ch s -> ~ In n O -> pars s n = [p0] -> (p = root \/ get_parents T n = [p]) -> (forall e, fpar (f e) = [p] /\ fchi (f e) = fchi e) ->
    tall O n -> over H n -> 
    fwp (upd_f n f) (fun _ s1 => like s1 (bump s1) -> forall (Q : unit -> ft -> Prop),
      (forall s2, fv U (n :: O) H (put_at p0 (wo n (ch p0)) ch) s2 -> looks s s2 (is_displayed s) (put_at n [p] (pars s)) (put_at p0 (remove1 n (kids s p0)) (kids s)) -> Q tt s2) ->
      fwp (send_remove_tree n p0 ;; children_remove p0 n) Q (bump s1)) s.
  Proof.
    intros U O H ch s n p0 p f F NO Pn Hp' Hf (r & R & HT) HH. pose proof (up_pa _ _ Hp') as Hp. assert (Ip : In p0 (pars s n)) by (rewrite Pn; left; auto).
    assert (Nn : n <> root) by (eapply pars_top; [eapply fv_gb; eauto|eauto]). assert (Dn : is_displayed s n = true) by (eapply pars_disp; eauto).
    assert (Rn : r p0 < r n) by (apply par_rank; auto; apply (fv_par _ _ _ _ _ F); auto).
    apply (step_pars root false r (fun x => ~ In x O) (fun x => ~ In x (n :: O)) ch s n [p] f); auto.
    - apply (fv_g _ _ _ _ _ F). auto.
    - apply NoDup_cons; [intros []|constructor].
    - intros q [<-|[]]. apply par_rank; auto.
    - intros x Hx. split; intros X; apply Hx; [right|left]; auto.
    - intros s1 V L Lb Q HQ. apply gview_bump in V. apply (looks_like _ _ _ _ _ _ L) in Lb. set (s2 := bump s1) in *. clearbody s2. clear L. rename Lb into L.
      pose proof (fun x => fv_sym _ _ _ _ _ n x F NO) as Sn.
      assert (Hc : In n (ch p0)) by (apply Sn; auto).
      apply (step_unlink root false HGo r (fun x => ~ In x (n :: O)) (fun x => ~ In x (n :: O)) ch s2 n p0); auto.
      + intros x Hx [<-|Ho]; [lia|]. apply HT in Ho. lia.
      + intros x c Hx. rewrite (lo_kids _ _ _ _ _ L). apply (over_agree U O H ch s r n); auto.
      + intros x Hx. split; auto. intros ->. apply Hx. left. auto.
      + intros s3 V3 L3. assert (L' : looks s s3 (is_displayed s) (put_at n [p] (pars s)) (put_at p0 (remove1 n (kids s p0)) (kids s))).
        { destruct L as [a1 a2 a3 a4 a5 a6]. destruct L3 as [b1 b2 b3 b4 b5 b6]. constructor; try congruence. intros x. rewrite b6. unfold put_at. rewrite !a6. auto. }
        apply HQ; auto. clear L L3. destruct L' as [L1 L2 L3 L4 L5 L6]. destruct F as [F1 F2 F3 F4 F5 F6 F7 F8 F9].
        assert (Kd : forall x c, In c (kids s3 x) -> In c (kids s x)).
        { intros x c. rewrite L6. unfold put_at. deq x p0; auto. subst. apply remove1_In. }
        assert (Fp : forall x p, In p (pars s3 x) -> p = root \/ pa x = Some p).
        { intros x q. rewrite L5. unfold put_at. deq x n; auto. subst. intros [<-|[]]. auto. }
        assert (CI : forall x d, In d (put_at p0 (wo n (ch p0)) ch x) <-> In d (ch x) /\ ~ (x = p0 /\ d = n)).
        { intros x d. unfold put_at. deq x p0; [subst; rewrite wo_In|]; tauto. }
        constructor; auto.
        * intros r' R'. apply (any_rank r); auto.
        * intros x c Nx Hc'. apply CI. split; [apply F2; auto|]. intros [-> ->]. rewrite L6 in Hc'. unfold put_at in Hc'. rewrite eqb_refl in Hc'.
          apply remove1_iff in Hc'; [|apply (F1 r0 HR)]. destruct Hc'. auto.
        * intros x. rewrite L4, L5. unfold put_at. deq x n; [eauto|]. auto.
        * intros x Hx. rewrite L4, L5. destruct (F6 x Hx) as (? & ? & E). unfold put_at. deq x n; [subst; congruence|auto].
        * intros x. rewrite L4. intros [<-|Hx].
          -- split; auto. split; auto. intros q Hq. apply CI in Hq. destruct Hq as [Hq Hn]. apply Sn in Hq. rewrite Pn in Hq. destruct Hq as [<-|[]]. auto.
          -- destruct (F7 x Hx) as (? & ? & E). split; auto. split; auto. intros q Hq. apply CI in Hq. apply (E q). tauto.
        * intros x. rewrite L4. auto.
        * intros x q. rewrite L5. unfold put_at. deq x n; auto. subst. intros [<-|[]]. destruct Hp' as [->|G]; auto. rewrite G. right. right. left. auto.
  Qed.

  (** The parent lists the node. *)
  Lemma fv_link : forall U O H ch s n p (Q : unit -> ft -> Prop), fv U (n :: O) H ch s -> ~ In n U -> ~ In n O -> pars s n = [p] -> is_displayed s p = true -> ~ In p H -> tall O n -> over H n ->
    (forall s', fv U O H (put_at p (ch p ++ [n]) ch) s' -> looks s s' (is_displayed s) (pars s) (put_at p (kids s p ++ [n]) (kids s)) -> Q tt s') ->
    fwp (upd_f p (fun e => mkF (fpar e) (fchi e ++ [n])) ;; send_add_tree n p) Q s.
  Proof.
    intros U O H ch s n p Q F NU NO Pn Dp NH (r & R & HT) HH HQ.
    destruct (fv_O _ _ _ _ _ F n (or_introl eq_refl)) as (Dn & Nn & Cn).
    assert (Ip : In p (pars s n)) by (rewrite Pn; left; auto).
    assert (Rn : r p < r n) by (apply par_rank; auto; apply (fv_par _ _ _ _ _ F); auto).
    apply (step_link root false r (fun x => ~ In x (n :: O)) (fun x => ~ In x (n :: O)) ch s n p); auto.
    - apply (fv_g _ _ _ _ _ F). auto.
    - intros x Hx [<-|Ho]; [lia|]. apply HT in Ho. lia.
    - intros x Dx Hx. apply (fv_fine _ _ _ _ _ F); auto. intros ->. destruct Hx as [Hx|Hx]; [auto|]. pose proof (proj2 R n Nn). lia.
    - intros x c Hx. apply (over_agree U (n :: O) H ch s r n); auto.
    - intros Hk. apply (Cn p). apply (fv_eq _ _ _ _ _ F); auto.
    - intros x Hx. split; auto. intros ->. apply Hx. left. auto.
    - intros s' V L. apply HQ; auto. pose proof (fv_par _ _ _ _ _ F n p Ip) as Hp. destruct L as [L1 L2 L3 L4 L5 L6]. destruct F as [F1 F2 F3 F4 F5 F6 F7 F8 F9].
      assert (CI : forall x d, In d (put_at p (ch p ++ [n]) ch x) <-> In d (ch x) \/ (x = p /\ d = n)).
      { intros x d. unfold put_at. deq x p; [subst; rewrite in_app_iff; simpl; intuition congruence|intuition congruence]. }
      assert (KI : forall x d, In d (kids s' x) <-> In d (kids s x) \/ (x = p /\ d = n)).
      { intros x d. rewrite L6. unfold put_at. deq x p; [subst; rewrite in_app_iff; simpl; intuition congruence|intuition congruence]. }
      assert (Fk : forall x c, In c (kids s' x) -> c <> root /\ (x = root \/ pa c = Some x)).
      { intros x c Hc. apply KI in Hc. destruct Hc as [Hc|[-> ->]]; auto. }
      assert (Fp : forall x p, In p (pars s' x) -> p = root \/ pa x = Some p) by (intros x q; rewrite L5; auto).
      constructor; auto.
      + intros r' R'. apply (any_rank r); auto. apply (gview_restore root false r (fun x => ~ In x (n :: O)) (fun x => ~ In x O) n); auto.
        * intros x Hx. destruct (id_dec x n); auto. left. intros [X|X]; auto.
        * intros q. rewrite L5, Pn, CI. simpl. split; [intros [<-|[]]; auto|]. intros [Hq|[-> _]]; auto. exfalso. apply (Cn q). auto.
      + intros x c Nx Hc. apply CI. apply KI in Hc. destruct Hc as [Hc|Hc]; auto.
      + intros x. rewrite L4, L5. auto.
      + intros x. rewrite L4, L5. auto.
      + intros x Hx. rewrite L4. destruct (F7 x (or_intror Hx)) as (? & ? & E). split; auto. split; auto. intros q Hq. apply CI in Hq.
        destruct Hq as [Hq|[_ ->]]; [apply (E q); auto|contradiction].
      + intros x. rewrite L4. auto.
      + intros x q. rewrite L5. auto.
  Qed.

  Lemma fv_modified : forall U O H ch s n, fv U O H ch s -> is_displayed s n = true -> n <> root -> ~ In n O -> tall O n ->
    fwp (ps <- paths_of n ;; ffor ps (fun p => callback_modified n p)) (fun _ s' => like s s' /\ fv U O H ch s') s.
  Proof.
    intros U O H ch s n F Dn Nn NO (r & R & HT).
    eapply fwp_mono; [apply (step_modified root false r (fun x => ~ In x O) ch s n); auto|].
    - apply (fv_g _ _ _ _ _ F). auto.
    - intros x Hx Ho. apply HT in Ho. lia.
    - apply (fv_fine _ _ _ _ _ F n Dn Nn).
    - intros ? s' [L V]. split; auto. eapply fv_like; eauto. apply (gb_knows _ _ _ _ _ (gv_g _ _ _ _ _ _ V)).
  Qed.

  (** What a call leaves alone. *)
  Definition keeps (K : id -> Prop) (s s' : ft) : Prop :=
    filters s' = filters s /\ forall x, K x -> is_displayed s' x = is_displayed s x /\ pars s' x = pars s x.
  Lemma keeps_refl : forall K s, keeps K s s.
  Proof. intros K s. split; auto. Qed.
  Lemma keeps_trans : forall (K : id -> Prop) a b c, keeps K a b -> keeps K b c -> keeps K a c.
  Proof. intros K a b c [E1 H1] [E2 H2]. split; [congruence|]. intros x Kx. destruct (H1 x Kx), (H2 x Kx). split; congruence. Qed.
  Lemma keeps_weak : forall (K K' : id -> Prop) a b, (forall x, K' x -> K x) -> keeps K a b -> keeps K' a b.
  Proof. intros K K' a b H [E1 H1]. split; auto. Qed.
  Lemma keeps_looks : forall (K : id -> Prop) a b fd fp fk, looks a b fd fp fk -> (forall x, K x -> fd x = is_displayed a x /\ fp x = pars a x) -> keeps K a b.
  Proof. intros K a b fd fp fk [L1 L2 L3 L4 L5 L6] H. split; auto. intros x Kx. rewrite L4, L5. auto. Qed.
  Lemma keeps_like : forall K a b, like a b -> keeps K a b.
  Proof. intros K a b L. split; [apply L|]. intros x _. rewrite (like_disp _ _ _ L), (like_pars _ _ _ L). auto. Qed.
  Lemma like_bump : forall s, like s (bump s).
  Proof. intros. constructor; auto. Qed.

  Lemma below_top : forall x, below root x -> x = root.
  Proof. intros x W. induction W as [|x p E W IH]; auto. subst. exfalso. apply (HP x). auto. Qed.

  Lemma fv_ch_frame : forall U O H ch s U' H' ch' s' e, fv U O H ch s -> fv U' O H' ch' s' -> pars s' e = pars s e -> forall x, In e (ch' x) <-> In e (ch x).
  Proof.
    intros U O H ch s U' H' ch' s' e F F' E x. destruct (in_dec id_dec e O) as [Ho|Ho].
    - split; intros X; exfalso; [apply (fv_O _ _ _ _ _ F' e Ho) in X|apply (fv_O _ _ _ _ _ F e Ho) in X]; auto.
    - rewrite <- (fv_sym _ _ _ _ _ e x F Ho), <- (fv_sym _ _ _ _ _ e x F' Ho), E. tauto.
  Qed.

  Lemma downward_snoc : forall ch q x n, downward ch x (q ++ [n]) <-> downward ch x q /\ In n (ch (last q x)).
  Proof. intros. rewrite downward_app. simpl. tauto. Qed.

  Lemma chain_frame : forall (ch ch' : id -> list id), (forall x e, In e (ch x) -> e <> root /\ (x = root \/ pa e = Some x)) ->
    forall q n, (forall e x, below e n -> In e (ch x) -> In e (ch' x)) -> chain ch root n q -> chain ch' root n q.
  Proof.
    intros ch ch' H1 q. induction q as [|x q IH] using rev_ind; intros n H2 [W E].
    - split; auto.
    - rewrite last_last in E. subst x. apply downward_snoc in W. destruct W as [W Hn]. destruct (H1 _ _ Hn) as [Nn Hp].
      assert (C : chain ch' root (last q root) q).
      { apply IH; [|split; auto]. intros e x We He. apply H2; auto. destruct Hp as [Ep|Ep].
        - rewrite Ep in We. apply below_root in We. subst. destruct (H1 _ _ He). contradiction.
        - eapply below_step; eauto. }
      split; [|apply last_last]. apply downward_snoc. split; [apply C|]. apply H2; auto. constructor.
  Qed.

  (** Nothing unfinished is below [c]. *)
  Definition side (U O H : list id) (c : id) : Prop :=
    (forall z, In z U \/ In z O -> ~ below c z) /\ (exists r, parank r /\ forall o x, In o O -> below c x -> r x < r o) /\
    (forall h, In h H -> below h c /\ h <> c /\ D h = false).

  Lemma side_tall : forall U O H c, side U O H c -> tall O c.
  Proof. intros U O H c (_ & (r & R & X) & _). exists r. split; auto. intros o Ho. apply X; auto. constructor. Qed.
  Lemma side_over : forall U O H c, side U O H c -> over H c.
  Proof. intros U O H c (_ & _ & X) h Hh. apply X in Hh. tauto. Qed.
  Lemma side_child : forall U O H c d, side U O H c -> pa d = Some c -> side U O H d.
  Proof.
    intros U O H c d (S1 & (r & R & S2) & S3) E. assert (W : below c d) by (eapply below_step; [eauto|constructor]).
    assert (Nd : c <> d) by (intros <-; pose proof (proj1 HR c c E); lia). split; [|split].
    - intros z Hz W2. apply (S1 z Hz). eapply below_trans; eauto.
    - exists r. split; auto. intros o x Ho Wx. apply S2; auto. eapply below_trans; eauto.
    - intros h Hh. destruct (S3 h Hh) as (A1 & A2 & A3). split; [eapply below_trans; eauto|]. split; auto. intros ->.
      destruct (below_rank r0 d c HR A1) as [X|X]; auto. pose proof (proj1 HR d c E). lia.
  Qed.
  Lemma side_hide : forall U O H c d, side U O H c -> pa d = Some c -> D c = false -> side (c :: U) O (c :: H) d.
  Proof.
    intros U O H c d S E Dc. destruct (side_child _ _ _ _ _ S E) as (S1 & S2 & S3).
    assert (W : below c d) by (eapply below_step; [eauto|constructor]). split; [|split]; auto.
    - intros z [[<-|Hz]|Hz]; auto. intros X. apply (below_up d c); auto.
    - intros h [<-|Hh]; auto. split; auto. split; auto. intros <-. pose proof (proj1 HR c c E). lia.
  Qed.

  (** [update_shown] in two parts. *)
  Definition finish (rec : id -> direction -> FM unit) (n : id) (added : bool) (dir : direction) : FM unit :=
    (if added then fret tt
     else paths <- paths_of n ;; ffor paths (fun p => callback_modified n p)) ;;
    e3 <- fnode_at n ;;
    s3 <- fget ;;
    (if goes_down dir then
       ffor (node_children_of T D n s3) (fun c =>
         e4 <- fnode_at n ;;
         if mem c (fchi e4) then fret tt else rec c Down)
     else fret tt).
  Definition settle (rec : id -> direction -> FM unit) (n : id) (dir : direction) (cur new : list id) (disp : id -> bool) (rt : id) (k : direction -> FM unit) : FM unit :=
    upd_f n (fun e => mkF (filter disp new) (fchi e)) ;;
    let remove_from := set_diff cur new in
    let add_to := set_diff new cur in
    let stay := set_diff new add_to in
    let dir := if (match dir with Down => true | _ => false end) && mem rt add_to then Both else dir in
    iterate_set ord remove_from (fun p =>
      send_remove_tree n p ;;
      children_remove p n ;;
      if goes_up dir then rec p Up else fret tt) ;;
    iterate_set ord add_to (fun p =>
      s2 <- fget ;;
      if is_displayed s2 p then
        upd_f p (fun e => mkF (fpar e) (fchi e ++ [n])) ;;
        send_add_tree n p ;;
        if goes_up dir then rec p Up else fret tt
      else fraise PyException) ;;
    (if goes_up dir then iterate_set ord stay (fun p => rec p Up) else fret tt) ;;
    k dir.
  Definition early (rec : id -> direction -> FM unit) (n : id) (new cur : list id) : FM unit :=
    ffor (get_parents T n) (fun p => if negb (mem p new) && negb (mem p cur) then rec p Up else fret tt).
  Lemma shown_eq : forall rec n dir added, update_shown ord T D rec n dir added =
    (e <- fnode_at n ;; s <- fget ;; (if added then early rec n (node_parents_of T D n s) (fpar e) else fret tt) ;;
     e1 <- fnode_at n ;; s1 <- fget ;; settle rec n dir (fpar e1) (node_parents_of T D n s1) (is_displayed s1) (froot s1) (finish rec n added)).
  Proof. reflexivity. Qed.

  Section Body.
    Variable rec : id -> direction -> FM unit.
    Hypothesis Rroot : forall s, froot s = root -> rec root Up s = (s, Ok tt).

    Lemma rec_root' : forall (Q : unit -> ft -> Prop) s, froot s = root -> Q tt s -> fwp (rec root Up) Q s.
    Proof. intros Q s E HQ. unfold fwp. rewrite Rroot; auto. Qed.

    Lemma set_diff_one : forall a b : id, a <> b -> set_diff [a] [b] = [a].
    Proof. intros a b N. unfold set_diff. simpl. rewrite (proj2 (eqb_neq a b)); auto. Qed.
    Lemma set_diff_eq : forall a : id, set_diff [a] [a] = [].
    Proof. intros a. unfold set_diff. simpl. rewrite eqb_refl. auto. Qed.

    Lemma iter_none : forall body (Q : unit -> ft -> Prop) s, Q tt (bump s) -> fwp (iterate_set ord [] body) Q s.
    Proof. intros body Q s HQ. unfold fwp, iterate_set. rewrite (ord_none ord HO). exact HQ. Qed.
    Lemma iter_one : forall x body (Q : unit -> ft -> Prop) s, fwp (body x) Q (bump s) -> fwp (iterate_set ord [x] body) Q s.
    Proof.
      intros x body Q s HQ. unfold iterate_set. unfold fwp. rewrite (ord_one ord HO). cbn [ffor].
      change (fwp (body x ;; fret tt) Q (bump s)). apply fwp_bind. eapply fwp_mono; [apply HQ|]. intros [] s' X. apply fwp_ret. auto.
    Qed.

    Lemma settle_ok : forall n U U1 O H (K : id -> Prop) ch s dir cur p1 (k : direction -> FM unit) (Q : unit -> ft -> Prop),
      fv U1 O H ch s -> (cur = [] /\ U1 = n :: U \/ exists p0, cur = [p0] /\ U1 = U) -> ~ In n U -> ~ In n O -> pars s n = cur -> is_displayed s n = true ->
      n <> root -> (p1 = root \/ get_parents T n = [p1]) -> is_displayed s p1 = true -> ~ In p1 H -> tall O n -> over H n -> K n ->
      let dir' := if (match dir with Down => true | _ => false end) && mem root (set_diff [p1] cur) then Both else dir in
      (goes_up dir' = true -> forall p O' ch' s', p <> root -> (p = p1 \/ In p cur) -> (O' = O \/ O' = n :: O) -> fv U O' H ch' s' -> is_displayed s' n = true -> pars s' n = [p1] ->
        (In n (kids s' p) -> p = p1) -> fwp (rec p Up) (fun _ s2 => exists ch2, fv U O' H ch2 s2 /\ keeps K s' s2) s') ->
      (forall ch' s', fv U O H ch' s' -> keeps (fun x => K x /\ x <> n) s s' -> is_displayed s' n = true -> pars s' n = [p1] -> fwp (k dir') Q s') ->
      fwp (settle rec n dir cur [p1] (is_displayed s) root k) Q s.
    Proof.
      intros n U U1 O H K ch s dir cur p1 k Q F HC1 NU NO Pn Dn Nn Hp1 Dp1 NH TO OV Kn dir' HUp HQ.
      (* calls on the parents *)
      assert (UpP : forall p O' ch' s' (R : unit -> ft -> Prop), (p = p1 \/ In p cur) -> (O' = O \/ O' = n :: O) -> fv U O' H ch' s' -> is_displayed s' n = true -> pars s' n = [p1] ->
        (In n (kids s' p) -> p = p1) -> (forall ch2 s2, fv U O' H ch2 s2 -> keeps K s' s2 -> (p = root -> s2 = s') -> R tt s2) -> fwp (if goes_up dir' then rec p Up else fret tt) R s').
      { intros p O' ch' s' R Hp HO' F' D' P' Hk HR'. destruct (goes_up dir') eqn:Eu; [|apply fwp_ret; apply (HR' ch'); auto; apply keeps_refl].
        destruct (id_dec p root) as [->|Np].
        - apply rec_root'; [apply (fv_root _ _ _ _ _ F')|]. apply (HR' ch'); auto. apply keeps_refl.
        - eapply fwp_mono; [apply (HUp eq_refl p O' ch' s'); auto|]. intros [] s2 (ch2 & F2 & K2). apply (HR' ch2); auto. intros E. contradiction. }
      unfold settle. cbv zeta. assert (FR : filter (is_displayed s) [p1] = [p1]) by (simpl; rewrite Dp1; auto). rewrite FR. fold dir'.
      apply fwp_bind.
      (* linking, then going up *)
      assert (Link : forall ch' s' (R : unit -> ft -> Prop), fv U (n :: O) H ch' s' -> pars s' n = [p1] -> is_displayed s' p1 = true ->
        (forall ch2 s2, fv U O H ch2 s2 -> keeps K s' s2 -> R tt s2) ->
        fwp (iterate_set ord [p1] (fun p => s2 <- fget ;; if is_displayed s2 p then upd_f p (fun e => mkF (fpar e) (fchi e ++ [n])) ;; send_add_tree n p ;; (if goes_up dir' then rec p Up else fret tt) else fraise PyException)) R s').
      { intros ch' s' R F' P' D' HR'. apply iter_one. apply fwp_bind. apply fwp_get.
        assert (Db : is_displayed (bump s') p1 = true) by (rewrite (like_disp _ _ _ (like_bump s')); auto). rewrite Db.
        apply fwp_assoc. apply fwp_bind. apply (fv_link U O H ch' (bump s') n p1); auto.
        - apply fv_bump. auto.
        - intros s2 F2 L2. apply (UpP p1 O (put_at p1 (ch' p1 ++ [n]) ch') s2); auto.
          + rewrite (lo_disp _ _ _ _ _ L2), (like_disp _ _ _ (like_bump s')). apply (fv_O _ _ _ _ _ F'). left. auto.
          + rewrite (lo_pars _ _ _ _ _ L2), (like_pars _ _ _ (like_bump s')). auto.
          + intros ch3 s3 F3 K3 _. apply (HR' ch3); auto. eapply keeps_trans; [apply (keeps_like K _ _ (like_bump s'))|]. eapply keeps_trans; [|apply K3].
            eapply keeps_looks; [apply L2|]. auto. }
      assert (Kput : forall a b fk, looks a b (is_displayed a) (put_at n [p1] (pars a)) fk -> keeps (fun x => K x /\ x <> n) a b).
      { intros a b fk L. eapply keeps_looks; [apply L|]. intros x [_ Nx]. unfold put_at. rewrite (proj2 (eqb_neq x n)) by auto. auto. }
      assert (Kw : forall a b, keeps K a b -> keeps (fun x => K x /\ x <> n) a b) by (intros a b; apply keeps_weak; tauto).
      assert (Kn' : forall a b, keeps K a b -> is_displayed b n = is_displayed a n /\ pars b n = pars a n) by (intros a b [_ X]; apply X; auto).
      destruct HC1 as [[-> ->]|(p0 & -> & ->)].
      - (* no parent before *)
        eapply fwp_mono; [apply (fv_float U O H ch s n p1); auto|]. intros [] s1 [F1 L1].
        change (set_diff [] [p1]) with (@nil id). change (set_diff [p1] []) with [p1]. rewrite set_diff_eq.
        apply fwp_bind, iter_none. apply fwp_bind.
        apply (Link ch (bump s1)); [apply fv_bump; auto| | |].
        { rewrite (like_pars _ _ _ (like_bump s1)), (lo_pars _ _ _ _ _ L1). unfold put_at. rewrite eqb_refl. auto. }
        { rewrite (like_disp _ _ _ (like_bump s1)), (lo_disp _ _ _ _ _ L1). auto. }
        intros ch2 s2 F2 K2. apply fwp_bind. apply (keeps_trans _ s1) in K2; [|apply keeps_like, like_bump].
        assert (W : forall s3, like s2 s3 -> fv U O H ch2 s3 -> fwp (k dir') Q s3).
        { intros s3 L3 F3. destruct (Kn' _ _ K2) as [E1 E2]. apply (HQ ch2); auto.
          - eapply keeps_trans; [apply (Kput _ _ _ L1)|]. eapply keeps_trans; [apply Kw, K2|apply keeps_like; auto].
          - rewrite (like_disp _ _ _ L3), E1, (lo_disp _ _ _ _ _ L1). auto.
          - rewrite (like_pars _ _ _ L3), E2, (lo_pars _ _ _ _ _ L1). unfold put_at. rewrite eqb_refl. auto. }
        destruct (goes_up dir'); [apply iter_none; apply W; [apply like_bump|apply fv_bump; auto]|apply fwp_ret; auto].
      - destruct (id_dec p0 p1) as [->|Np].
        + (* the same parent *)
          eapply fwp_mono; [apply (fv_same U O H ch s n p1); auto|]. intros [] s1 [F1 L1].
          rewrite !set_diff_eq. change (set_diff [p1] []) with [p1].
          apply fwp_bind, iter_none. apply fwp_bind, iter_none. apply fv_bump, fv_bump in F1.
          assert (L2 : looks s (bump (bump s1)) (is_displayed s) (pars s) (kids s)).
          { eapply looks_like; [apply L1|]. eapply like_trans; apply like_bump. }
          set (s2 := bump (bump s1)) in *. clearbody s2. clear L1.
          assert (E1 : is_displayed s2 n = true) by (rewrite (lo_disp _ _ _ _ _ L2); auto).
          assert (E2 : pars s2 n = [p1]) by (rewrite (lo_pars _ _ _ _ _ L2); auto).
          apply fwp_bind.
          assert (G : forall s3 (R : unit -> ft -> Prop), like s2 s3 -> fv U O H ch s3 -> (forall ch4 s4, fv U O H ch4 s4 -> keeps K s3 s4 -> R tt s4) -> fwp (if goes_up dir' then rec p1 Up else fret tt) R s3).
          { intros s3 R L3 F3 HR'. apply (UpP p1 O ch s3); auto.
            - rewrite (like_disp _ _ _ L3). auto.
            - rewrite (like_pars _ _ _ L3). auto.
            - intros. eapply HR'; eauto. }
          assert (W : forall ch3 s3, keeps K s2 s3 -> fv U O H ch3 s3 -> fwp (k dir') Q s3).
          { intros ch3 s3 K3 F3. destruct (Kn' _ _ K3) as [E3 E4]. apply (HQ ch3); auto; try congruence.
            apply Kw. eapply keeps_trans; [|apply K3]. eapply keeps_looks; [apply L2|]. auto. }
          destruct (goes_up dir') eqn:Eu.
          * apply iter_one. apply (G (bump s2)); [apply like_bump|apply fv_bump; auto|].
            intros ch4 s4 F4 K4. apply (W ch4); auto.
          * apply fwp_ret. apply (W ch); auto. apply keeps_refl.
        + (* another parent *)
          eapply fwp_mono; [apply (fv_move U O H ch s n p0 p1); auto|]. intros [] s1 HM.
          rewrite !set_diff_one by auto. rewrite set_diff_eq.
          apply fwp_bind. apply iter_one. apply fwp_assoc. apply fwp_bind. apply (HM (like_bump s1)). clear HM s1. intros s2 F2 L2.
          assert (E2 : pars s2 n = [p1]) by (rewrite (lo_pars _ _ _ _ _ L2); unfold put_at; rewrite eqb_refl; auto).
          assert (D2 : is_displayed s2 n = true) by (rewrite (lo_disp _ _ _ _ _ L2); auto).
          apply (UpP p0 (n :: O) (put_at p0 (wo n (ch p0)) ch) s2); auto.
          { intros Hk. exfalso. rewrite (lo_kids _ _ _ _ _ L2) in Hk. unfold put_at in Hk. rewrite eqb_refl in Hk.
            apply remove1_iff in Hk; [destruct Hk; auto|]. apply (gv_ndk _ _ _ _ _ _ (fv_base _ _ _ _ _ F)). }
          intros ch3 s3 F3 K3 R3. destruct (Kn' _ _ K3) as [E3 E4].
          assert (D3 : is_displayed s3 p1 = true).
          { destruct (fv_par _ _ _ _ _ F n p0) as [->|E0]; [rewrite Pn; left; auto|rewrite R3, (lo_disp _ _ _ _ _ L2) by auto; auto|].
            destruct (up_pa _ _ Hp1) as [->|E1]; [apply (gb_disp _ _ _ _ _ (fv_gb _ _ _ _ _ F3))|]. congruence. }
          apply fwp_bind. apply (Link ch3 s3); auto; [congruence|]. intros ch4 s4 F4 K4. destruct (Kn' _ _ K4) as [E5 E6].
          assert (W : forall s5, like s4 s5 -> fv U O H ch4 s5 -> fwp (k dir') Q s5).
          { intros s5 L5 F5. apply (HQ ch4); auto.
            - eapply keeps_trans; [apply (Kput _ _ _ L2)|]. apply Kw. eapply keeps_trans; [apply K3|]. eapply keeps_trans; [apply K4|apply keeps_like; auto].
            - rewrite (like_disp _ _ _ L5). congruence.
            - rewrite (like_pars _ _ _ L5). congruence. }
          apply fwp_bind. destruct (goes_up dir'); [apply iter_none; apply W; [apply like_bump|apply fv_bump; auto]|apply fwp_ret; auto].
    Qed.

    Lemma np_one : forall s n p, fv [] [] [] (kids s) s \/ (froot s = root /\ flat s = false) -> get_parents T n = [p] -> is_displayed s p = true -> D p = true -> node_parents_of T D n s = [p].
    Proof.
      intros s n p W G Dp DDp. assert (E : flat s = false) by (destruct W as [F|[_ E]]; auto; apply (gv_flat _ _ _ _ _ _ (fv_base _ _ _ _ _ F))).
      unfold node_parents_of. rewrite E, G. simpl. rewrite Dp, DDp. auto.
    Qed.
    Lemma np_top : forall s n, froot s = root -> flat s = false -> (forall p, In p (get_parents T n) -> is_displayed s p && D p = false) -> node_parents_of T D n s = [root].
    Proof.
      intros s n E1 E2 Hp. unfold node_parents_of. rewrite E1, E2. destruct (filter (fun p => is_displayed s p && D p) (get_parents T n)) as [|p l] eqn:E; auto. exfalso.
      assert (I : In p (filter (fun p => is_displayed s p && D p) (get_parents T n))) by (rewrite E; left; auto). apply filter_In in I. destruct I as [I1 I2]. rewrite Hp in I2; auto. discriminate.
    Qed.
    Lemma np_cases : forall s n, froot s = root -> flat s = false -> node_parents_of T D n s = [root] \/
      exists p, get_parents T n = [p] /\ pa n = Some p /\ is_displayed s p = true /\ D p = true /\ node_parents_of T D n s = [p].
    Proof.
      intros s n E1 E2. destruct (HG n) as [G|(p & G & P)].
      - left. apply np_top; auto. rewrite G. intros p [].
      - destruct (is_displayed s p && D p) eqn:E.
        + right. exists p. apply andb_true_iff in E. destruct E. repeat split; auto using np_one.
        + left. apply np_top; auto. rewrite G. intros q [<-|[]]. auto.
    Qed.
    Lemma fv_flat : forall U O H ch s, fv U O H ch s -> flat s = false.
    Proof. intros U O H ch s F. apply (gv_flat _ _ _ _ _ _ (fv_base _ _ _ _ _ F)). Qed.
    Lemma fv_moreH : forall U O H ch s n, fv U O H ch s -> fv U O (n :: H) ch s.
    Proof. intros U O H ch s n []. constructor; auto with datatypes. Qed.

    (** Updates that go down. *)
    Definition dpost (c : id) (U O H : list id) (s s' : ft) : Prop :=
      exists ch', fv U O H ch' s' /\ keeps (fun x => ~ below c x) s s' /\ is_displayed s' c = D c.
    Definition downA (run : id -> direction -> FM unit) (c : id) : Prop := forall U O H ch s n, fv (c :: U) O H ch s -> ~ In c U -> pa c = Some n -> is_displayed s n = true -> D n = false ->
      side U O H c -> fwp (run c Down) (fun _ s' => dpost c U O H s s' /\ ~ In n (pars s' c)) s.
    Definition downB (run : id -> direction -> FM unit) (c : id) : Prop := forall U O H ch s p, fv U O H ch s -> get_parents T c = [p] -> D c = true -> is_displayed s p = true -> D p = true ->
      side U O H c -> fwp (run c Down) (fun _ s' => dpost c U O H s s') s.

    Definition under (n x : id) : Prop := x <> n /\ below n x.

    Lemma finish_ok : forall n U O H ch s added dir, fv U O H ch s -> is_displayed s n = true -> n <> root -> D n = true -> ~ In n O -> tall O n ->
      (goes_down dir = true -> forall d, pa d = Some n -> side U O H d /\ downB rec d) ->
      fwp (finish rec n added dir) (fun _ s' => exists ch', fv U O H ch' s' /\ keeps (fun x => goes_down dir = true -> ~ under n x) s s') s.
    Proof.
      intros n U O H ch s added dir F Dn Nn DDn NO TO Hd. unfold finish. apply fwp_bind.
      eapply fwp_mono with (Q := fun _ s' => like s s' /\ fv U O H ch s').
      { destruct added; [apply fwp_ret; auto|]. apply (fv_modified U O H ch s n); auto. }
      intros _ s1 [L1 F1]. assert (D1 : is_displayed s1 n = true) by (rewrite (like_disp _ _ _ L1); auto).
      destruct (disp_entry s1 n D1) as (e & Ee & _). apply fwp_bind. apply (fwp_node n e); auto. apply fwp_bind. apply fwp_get.
      destruct (goes_down dir) eqn:Ed; [|apply fwp_ret; exists ch; split; auto; apply keeps_like; auto].
      unfold node_children_of. rewrite (fv_flat _ _ _ _ _ F1).
      eapply fwp_mono; [apply (fwp_for _ (fun _ s' => exists ch', fv U O H ch' s' /\ keeps (fun x => true = true -> ~ under n x) s s'))|intros ? ? X; apply X].
      - exists ch. split; auto. apply keeps_like; auto.
      - intros done c rest s2 El (ch2 & F2 & K2).
        assert (Ic : In c (filter D (get_children T n))) by (rewrite El; apply in_app_iff; right; left; auto). apply filter_In in Ic. destruct Ic as [Ic DDc].
        assert (Gc : get_parents T c = [n]) by (apply HC; auto).
        assert (Pc : pa c = Some n) by (destruct (HG c) as [X|(p & X & Y)]; congruence).
        destruct (Hd eq_refl c Pc) as [Sc Bc].
        assert (D2 : is_displayed s2 n = true) by (rewrite (proj1 (proj2 K2 n (fun _ X => proj1 X eq_refl))); auto).
        destruct (disp_entry s2 n D2) as (e2 & Ee2 & _). apply fwp_bind. apply (fwp_node n e2); auto.
        destruct (mem c (fchi e2)); [apply fwp_ret; eauto|].
        eapply fwp_mono; [apply (Bc U O H ch2 s2 n); auto|]. intros [] s3 (ch3 & F3 & K3 & _). exists ch3. split; auto.
        eapply keeps_trans; [apply K2|]. eapply keeps_weak; [|apply K3]. intros x Hx W. apply Hx; auto. split.
        + intros ->. apply (below_up c n); auto.
        + eapply below_trans; [|apply W]. eapply below_step; [eauto|constructor].
    Qed.

    Lemma hide_ok : forall n U U1 O H ch s (Q : unit -> ft -> Prop), fv U1 O H ch s -> (U1 = n :: U \/ U1 = U) -> ~ In n U -> ~ In n O -> ~ In n H -> n <> root -> is_displayed s n = true -> D n = false ->
      tall O n -> (forall d, In d (kids s n) -> side U1 O (n :: H) d /\ downA rec d) ->
      (forall ch' s', fv U O H ch' s' -> keeps (fun x => x <> n /\ forall d, In d (kids s n) -> ~ below d x) s s' -> is_displayed s' n = false ->
         fwp (ffor (pars s n) (fun p => rec p Up) ;; (if has_node T n then ffor (get_parents T n) (fun p => s <- fget ;; if is_displayed s p then fret tt else rec p Up) else fret tt)) Q s') ->
      fwp (update_hidden T rec n) Q s.
    Proof.
      intros n U U1 O H ch s Q F EU NU NO NH Nn Dn DDn TO Hd HQ. unfold update_hidden.
      pose proof (fv_kid _ _ _ _ _ F) as FK.
      assert (PK : forall d, In d (kids s n) -> pa d = Some n) by (intros d Hd'; destruct (FK _ _ Hd') as [_ [X|X]]; [contradiction|auto]).
      destruct TO as (r & R & HT).
      destruct (gpaths r root (fun x => ~ In x O) ch s n (gv_g _ _ _ _ _ _ (fv_g _ _ _ _ _ F r R))) as (P & EP & ND & IP); auto.
      { intros x Hx Ho. apply HT in Ho. lia. }
      apply fwp_bind. unfold paths_of. unfold fwp at 1. rewrite EP.
      destruct (disp_entry s n Dn) as (e & Ee & Ep & Ek). apply fwp_bind. apply (fwp_node n e); auto. rewrite Ek.
      set (K := fun x => forall d, In d (kids s n) -> ~ below d x).
      assert (Kn : forall x, below x n -> K x).
      { intros x Wx d Hd' W. apply (below_up d n); [apply PK; auto|]. eapply below_trans; eauto. }
      apply fwp_bind. eapply fwp_mono.
      { apply (fwp_for _ (fun done s' => exists ch', fv U1 O (n :: H) ch' s' /\ (forall x, In x (ch' n) <-> In x (kids s n) /\ ~ In x done) /\ keeps K s s')).
        - exists ch. split; [apply fv_moreH; auto|]. split; [|apply keeps_refl]. intros x. simpl. split.
          + intros Hx. split; auto. eapply fv_sub; eauto.
          + intros [Hx _]. apply (fv_eq _ _ _ _ _ F); auto.
        - intros done d rest s1 El (ch1 & F1 & C1 & K1).
          assert (Id : In d (rev (kids s n))) by (rewrite El; apply in_app_iff; right; left; auto). apply in_rev in Id.
          assert (Nd : ~ In d done).
          { intros X. assert (N : NoDup (rev (kids s n))) by (apply NoDup_rev, (gv_ndk _ _ _ _ _ _ (fv_base _ _ _ _ _ F))).
            rewrite El in N. apply NoDup_remove_2 in N. apply N. apply in_app_iff. auto. }
          destruct (Hd d Id) as [Sd Ad]. pose proof (PK d Id) as Pd.
          apply fwp_assoc. apply fwp_bind. eapply fwp_mono.
          { apply (fv_cut U1 O (n :: H) ch1 s1 n d F1); [left; auto|apply C1; auto|exists r; auto|].
            intros h [<-|Hh]; [constructor|]. destruct Sd as (_ & _ & S3). destruct (S3 h (or_intror Hh)) as (W & N & _).
            destruct (below_child _ _ _ Pd W); [contradiction|auto]. }
          intros [] s2 (F2 & L2 & NdU). 
          assert (K2 : keeps K s1 s2).
          { eapply keeps_looks; [apply L2|]. intros x Kx. unfold put_at. deq x d; auto. subst. exfalso. apply (Kx d Id). constructor. }
          eapply fwp_mono; [apply (Ad U1 O (n :: H) _ s2 n F2); auto|].
          + rewrite (lo_disp _ _ _ _ _ L2), (proj1 (proj2 K1 n (Kn n (below_refl n)))). auto.
          + intros [] s3 ((ch3 & F3 & K3 & _) & P3). exists ch3. split; auto. split.
            * intros x. rewrite in_app_iff. simpl. destruct (id_dec x d) as [->|Nxd].
              -- split; [|tauto]. intros X. exfalso. apply (fv_chO _ _ _ _ _ _ _ F3) in X. apply P3. destruct X as (_ & -> & _). left. auto.
              -- assert (X : pa x = Some n -> (In x (ch3 n) <-> In x (ch1 n))).
                 { intros Px. rewrite (fv_ch_frame _ _ _ _ _ _ _ _ _ x F2 F3).
                   - unfold put_at. rewrite eqb_refl, wo_In. tauto.
                   - apply K3. intros W. apply Nxd. symmetry. apply (below_siblings d x x n); auto. constructor. }
                 split.
                 ++ intros Hx. assert (Px : pa x = Some n).
                    { destruct (fv_kid _ _ _ _ _ F3 n x) as [_ [Y|Y]]; auto; [eapply fv_sub; eauto|contradiction]. }
                    apply X in Hx; auto. apply C1 in Hx. intuition.
                 ++ intros [Hx Hn]. apply X; [apply PK; auto|]. apply C1. auto.
            * eapply keeps_trans; [apply K1|]. eapply keeps_trans; [apply K2|]. eapply keeps_weak; [|apply K3]. intros x Kx. apply Kx. auto. }
      intros [] s1 (ch1 & F1 & C1 & K1). destruct (proj2 K1 n (Kn n (below_refl n))) as [D1 P1].
      destruct (disp_entry s1 n) as (e1 & Ee1 & Ep1 & _); [congruence|]. apply fwp_bind. apply (fwp_node n e1); auto. rewrite Ep1.
      assert (AS : forall (m1 m2 m3 m4 : FM unit) (R : unit -> ft -> Prop) z, fwp ((m1 ;; m2 ;; m3) ;; m4) R z -> fwp (m1 ;; m2 ;; m3 ;; m4) R z).
      { intros m1 m2 m3 m4 R' z. unfold fwp, fbind. destruct (m1 z) as [z1 [[]| |]]; auto. destruct (m2 z1) as [z2 [[]| |]]; auto. }
      apply AS. apply fwp_bind. apply (fv_drop U U1 O H ch1 s1 n P (fun p => rec p Up)); auto.
      - congruence.
      - intros c Hc. apply C1 in Hc. destruct Hc as [X Y]. apply Y. apply in_rev in X. auto.
      - intros q. rewrite IP. assert (FR : forall e x, below e n -> (In e (ch1 x) <-> In e (ch x))).
        { intros e' x We. apply (fv_ch_frame U1 O H ch s U1 (n :: H) ch1 s1); auto. apply K1. auto. }
        split; apply chain_frame.
        + intros x e' He. apply FK. eapply fv_sub; eauto.
        + intros e' x We. apply FR. auto.
        + intros x e' He. apply (fv_kid _ _ _ _ _ F1). eapply fv_sub; eauto.
        + intros e' x We. apply FR. auto.
      - intros ch2 s2 F2 C2 L2. rewrite P1.
        assert (K2 : keeps (fun x => x <> n /\ K x) s s2).
        { eapply keeps_trans; [eapply keeps_weak; [|apply K1]; tauto|]. eapply keeps_looks; [apply L2|]. intros x [Nx _]. unfold put_at.
          rewrite (proj2 (eqb_neq x n)) by auto. auto. }
        specialize (HQ ch2 s2 F2 K2). unfold fwp in HQ. unfold fwp.
        assert (E2 : is_displayed s2 n = false) by (rewrite (lo_disp _ _ _ _ _ L2), eqb_refl; auto). specialize (HQ E2).
        unfold fbind in HQ. destruct (ffor (pars s n) (fun p => rec p Up) s2) as [s3 [[]| |]]; auto.
    Qed.

    Lemma down_body : forall c, (forall d, pa d = Some c -> downA rec d /\ downB rec d) ->
      downA (update_body ord T D rec) c /\ downB (update_body ord T D rec) c.
    Proof.
      intros c IH. split.
      - intros U O H ch s n F NU Pc Dn DDn S. destruct (fv_U _ _ _ _ _ F c (or_introl eq_refl)) as (Dc & Nc & Pr).
        assert (NO : ~ In c O) by (intros X; destruct S as [S _]; apply (S c); [right; auto|constructor]).
        assert (NH : ~ In c H) by (intros X; destruct S as (_ & _ & S); destruct (S c X) as (_ & Y & _); auto).
        assert (NHr : ~ In root H).
        { intros X. destruct S as (_ & _ & S). destruct (S root X) as (W & Y & _). apply below_top in W. auto. }
        unfold update_body. apply fwp_bind. apply fwp_get. rewrite (fv_root _ _ _ _ _ F), (proj2 (eqb_neq c root) Nc), Dc.
        destruct (D c) eqn:DDc.
        + rewrite shown_eq. destruct (disp_entry s c Dc) as (e & Ee & Ep & _). apply fwp_bind. apply (fwp_node c e); auto. apply fwp_bind. apply fwp_get.
          apply fwp_bind. apply fwp_ret. apply fwp_bind. apply (fwp_node c e); auto. apply fwp_bind. apply fwp_get. rewrite Ep, Pr, (fv_root _ _ _ _ _ F).
          rewrite np_top; [|apply (fv_root _ _ _ _ _ F)|apply (fv_flat _ _ _ _ _ F)|].
          2: { intros p Hp. destruct (HG c) as [G|(p' & G & P')]; rewrite G in Hp; [destruct Hp|]. destruct Hp as [<-|[]]. assert (p' = n) by congruence. subst. rewrite DDn. apply andb_false_r. }
          eapply (settle_ok c U (c :: U) O H (fun _ => True) ch s Down [] root); auto.
          * apply (gb_disp _ _ _ _ _ (fv_gb _ _ _ _ _ F)).
          * eapply side_tall; eauto.
          * eapply side_over; eauto.
          * intros _ p O' ch' s' Np [Ep'|[]]. contradiction.
          * intros ch1 s1 F1 K1 D1 P1. unfold set_diff. simpl mem. simpl filter. cbn [negb]. simpl mem. rewrite eqb_refl. cbn [orb andb].
            eapply fwp_mono; [apply (finish_ok c U O H ch1 s1 false Both); auto|].
            -- eapply side_tall; eauto.
            -- intros _ d Pd. split; [eapply side_child; eauto|apply IH; auto].
            -- intros [] s2 (ch2 & F2 & K2). destruct (proj2 K2 c (fun _ X => proj1 X eq_refl)) as [E1 E2]. split.
               ++ exists ch2. split; auto. split; [|congruence]. eapply keeps_trans.
                  ** eapply keeps_weak; [|apply K1]. intros x Hx. split; auto. intros ->. apply Hx. constructor.
                  ** eapply keeps_weak; [|apply K2]. intros x Hx _ [_ W]. auto.
               ++ rewrite E2, P1. intros [X|[]]. subst. apply (HP c). auto.
        + apply (hide_ok c U (c :: U) O H ch s); auto.
          * eapply side_tall; eauto.
          * intros d Hd. destruct (fv_kid _ _ _ _ _ F c d Hd) as [_ [X|X]]; [contradiction|]. split; [eapply side_hide; eauto|apply IH; auto].
          * intros ch1 s1 F1 K1 D1. rewrite Pr. cbn [ffor].
            assert (Dn1 : is_displayed s1 n = true).
            { assert (X : n <> c /\ (forall d, In d (kids s c) -> ~ below d n)); [split|rewrite (proj1 (proj2 K1 n X)); auto].
              - intros ->. pose proof (proj1 HR c c Pc). lia.
              - intros d Hd W. destruct (fv_kid _ _ _ _ _ F c d Hd) as [_ [X|X]]; [contradiction|].
                apply (below_up c n); auto. eapply below_trans; [|apply W]. eapply below_step; [eauto|constructor]. }
            assert (W : dpost c U O H s s1 /\ ~ In n (pars s1 c)).
            { split.
              - exists ch1. split; auto. split; [|congruence]. eapply keeps_weak; [|apply K1]. intros x Hx. split; [intros ->; apply Hx; constructor|].
                intros d Hd W. apply Hx. eapply below_trans; [|apply W]. destruct (fv_kid _ _ _ _ _ F c d Hd) as [_ [X|X]]; [contradiction|]. eapply below_step; [eauto|constructor].
              - destruct (not_disp _ _ D1) as [_ ->]. auto. }
            apply fwp_bind. apply fwp_ret. destruct (has_node T c); [|apply fwp_ret; auto].
            destruct (HG c) as [G|(p & G & P)]; rewrite G; [apply fwp_ret; auto|]. assert (p = n) by congruence. subst p. cbn [ffor].
            apply fwp_bind. apply fwp_bind. apply fwp_get. rewrite Dn1. apply fwp_ret. apply fwp_ret. auto.
      - intros U O H ch s p F G DDc Dp DDp S.
        assert (Pc : pa c = Some p) by (destruct (HG c) as [X|(q & X & Y)]; congruence).
        assert (Nc : c <> root) by (intros ->; congruence). assert (Np : p <> root) by (intros ->; apply (HP c); auto).
        assert (NU : ~ In c U) by (intros X; destruct S as [S _]; apply (S c); [left; auto|constructor]).
        assert (NO : ~ In c O) by (intros X; destruct S as [S _]; apply (S c); [right; auto|constructor]).
        assert (NH : ~ In p H) by (intros X; destruct S as (_ & _ & S); destruct (S p X) as (_ & _ & Y); congruence).
        pose proof (side_tall _ _ _ _ S) as TO. pose proof (side_over _ _ _ _ S) as OV.
        assert (Main : forall U1 ch s added cur, fv U1 O H ch s -> (cur = [] /\ U1 = c :: U \/ exists p0, cur = [p0] /\ U1 = U) -> pars s c = cur -> is_displayed s c = true -> is_displayed s p = true ->
          fwp (update_shown ord T D rec c Down added) (fun _ s' => dpost c U O H s s') s).
        { clear ch s F Dp. intros U1 ch s added cur F EU Pr Dc Dp. rewrite shown_eq. destruct (disp_entry s c Dc) as (e & Ee & Ep & _).
          apply fwp_bind. apply (fwp_node c e); auto. apply fwp_bind. apply fwp_get.
          assert (NPE : node_parents_of T D c s = [p]) by (apply np_one; auto; right; split; [apply (fv_root _ _ _ _ _ F)|apply (fv_flat _ _ _ _ _ F)]).
          rewrite NPE. apply fwp_bind.
          assert (E0 : (if added then early rec c [p] (fpar e) else fret tt) s = (s, Ok tt)).
          { destruct added; auto. unfold early. rewrite G. simpl. rewrite eqb_refl. auto. }
          unfold fwp at 1. rewrite E0.
          apply fwp_bind. apply (fwp_node c e); auto. apply fwp_bind. apply fwp_get. rewrite NPE, Ep, Pr, (fv_root _ _ _ _ _ F).
          assert (NM : mem root (set_diff [p] cur) = false) by (apply mem_false; intros X; apply set_diff_In in X; destruct X as [[X|[]] _]; auto).
          eapply (settle_ok c U U1 O H (fun _ => True) ch s Down cur p); auto.
          * rewrite NM. discriminate.
          * intros ch1 s1 F1 K1 D1 P1. rewrite NM. cbn [andb].
            eapply fwp_mono; [apply (finish_ok c U O H ch1 s1 added Down); auto|].
            -- intros _ d Pd. split; [eapply side_child; eauto|apply IH; auto].
            -- intros [] s2 (ch2 & F2 & K2). destruct (proj2 K2 c (fun _ X => proj1 X eq_refl)) as [E1 E2].
               exists ch2. split; auto. split; [|congruence]. eapply keeps_trans.
               ++ eapply keeps_weak; [|apply K1]. intros x Hx. split; auto. intros ->. apply Hx. constructor.
               ++ eapply keeps_weak; [|apply K2]. intros x Hx _ [_ W]. auto. }
        unfold update_body. apply fwp_bind. apply fwp_get. rewrite (fv_root _ _ _ _ _ F), (proj2 (eqb_neq c root) Nc), DDc.
        destruct (is_displayed s c) eqn:Dc.
        + destruct (fv_one _ _ _ _ _ F c Dc Nc NU) as (p0 & E0). apply (Main U ch s false [p0]); eauto.
        + apply fwp_bind. apply fwp_modify. destruct (fv_new U O H ch s c F Dc Nc) as (F1 & L1 & _); [apply HD; auto|].
          set (s1 := set_fnodes (dset c (mkF [] []) (fnodes s)) s) in *. clearbody s1.
          eapply fwp_mono; [apply (Main (c :: U) ch s1 true []); auto|].
          * rewrite (lo_pars _ _ _ _ _ L1). apply (not_disp _ _ Dc).
          * rewrite (lo_disp _ _ _ _ _ L1), eqb_refl. auto.
          * rewrite (lo_disp _ _ _ _ _ L1), Dp. apply orb_true_r.
          * intros [] s2 (ch2 & F2 & K2 & E2). exists ch2. split; auto. split; auto. eapply keeps_trans; [|apply K2].
            eapply keeps_looks; [apply L1|]. intros x Hx. split; auto. deq x c; auto. subst. exfalso. apply Hx. constructor.
    Qed.

    (** Updates that go up. Everything below [y] is left alone. *)
    Definition prot (Y : option id) (q : id) (U O : list id) (s : ft) : Prop :=
      match Y with
      | None => U = [] /\ O = []
      | Some y => pa y = Some q /\ (forall z, In z U \/ In z O -> below y z) /\ (In y (kids s q) -> D q = true)
      end.
    Definition kept (Y : option id) (x : id) : Prop := match Y with None => False | Some y => below y x end.
    Definition natural (s : ft) (x : id) : Prop := forall p, In p (pars s x) -> p = root \/ In p (get_parents T x).
    Definition upok (run : id -> direction -> FM unit) (q : id) : Prop := forall dir Y U O ch s, goes_up dir = true -> (goes_down dir = true -> Y = None) ->
      prot Y q U O s -> fv U O [] ch s ->
      fwp (run q dir) (fun _ s' => exists ch', fv U O [] ch' s' /\ keeps (kept Y) s s' /\ (q <> root -> is_displayed s' q = D q) /\ natural s' q) s.

    Lemma up_body : forall q, q <> root -> (forall p, pa q = Some p -> upok rec p) -> (forall d, pa d = Some q -> downA rec d /\ downB rec d) ->
      upok (update_body ord T D rec) q.
    Proof.
      intros q Nq IHu IHd dir Y U O ch s Gu Gd Pr F.
      assert (BU : forall z, In z U \/ In z O -> below q z /\ z <> q).
      { intros z Hz. destruct Y as [y|]; [|destruct Pr as [-> ->]; destruct Hz as [[]|[]]]. destruct Pr as (Py & Hy & _). specialize (Hy z Hz). split.
        - eapply below_trans; [|apply Hy]. eapply below_step; [eauto|constructor].
        - intros ->. apply (below_up y q); auto. }
      assert (NU : ~ In q U) by (intros X; destruct (BU q); auto). assert (NO : ~ In q O) by (intros X; destruct (BU q); auto).
      assert (TO : tall O q).
      { exists r0. split; auto. intros o Ho. destruct (BU o (or_intror Ho)) as [W N]. destruct (below_rank r0 q o HR W); auto. subst. contradiction. }
      assert (BK : forall x, kept Y x -> below q x /\ x <> q).
      { intros x Kx. destruct Y as [y|]; [|destruct Kx]. simpl in Kx. destruct Pr as (Py & _). split.
        - eapply below_trans; [|apply Kx]. eapply below_step; [eauto|constructor].
        - intros ->. apply (below_up y q); auto. }
      assert (OV : over [] q) by (intros h []).
      (* the parent *)
      assert (Up1 : forall p U' O' ch s, pa q = Some p -> (forall z, In z U' \/ In z O' -> below q z) -> (In q (kids s p) -> D p = true) -> fv U' O' [] ch s ->
        fwp (rec p Up) (fun _ s' => exists ch', fv U' O' [] ch' s' /\ keeps (below q) s s') s).
      { intros p U' O' ch1 s1 Pq Hz Hk F1. eapply fwp_mono; [apply (IHu p Pq Up (Some q) U' O' ch1 s1); simpl; auto; discriminate|].
        intros [] s2 (ch2 & F2 & K2 & _). exists ch2. auto. }
      assert (ND : forall s, is_displayed s q = false -> natural s q) by (intros z Hz p Hp; destruct (not_disp _ _ Hz) as [_ X]; rewrite X in Hp; destruct Hp).
      assert (KS : forall a b, keeps (below q) a b -> keeps (kept Y) a b) by (intros a b; apply keeps_weak; intros x Kx; apply BK; auto).
      assert (NG : goes_down dir = true -> Y = None /\ U = [] /\ O = []).
      { intros Hg. specialize (Gd Hg). subst Y. split; auto. }
      (* the node is shown *)
      assert (Main : forall U1 ch s added cur, fv U1 O [] ch s -> (cur = [] /\ U1 = q :: U \/ exists p0, cur = [p0] /\ U1 = U) -> pars s q = cur -> is_displayed s q = true -> D q = true ->
        (added = true -> cur = []) ->
        fwp (update_shown ord T D rec q dir added) (fun _ s' => exists ch', fv U O [] ch' s' /\ keeps (kept Y) s s' /\ (q <> root -> is_displayed s' q = D q) /\ natural s' q) s).
      { clear ch s F Pr. intros U1 ch s added cur F EU Pr Dq DDq Hadd. rewrite shown_eq. destruct (disp_entry s q Dq) as (e & Ee & Ep & _).
        apply fwp_bind. apply (fwp_node q e); auto. apply fwp_bind. apply fwp_get. rewrite Ep, Pr. apply fwp_bind.
        eapply fwp_mono with (Q := fun _ s1 => (exists ch1, fv U1 O [] ch1 s1) /\ keeps (below q) s s1).
        { destruct added; [|apply fwp_ret; split; [eauto|apply keeps_refl]]. unfold early. rewrite (Hadd eq_refl) in *.
          destruct EU as [[_ ->]|(p0 & X & _)]; [|discriminate].
          destruct (HG q) as [G|(p & G & P)]; rewrite G; cbn [ffor]; [apply fwp_ret; split; [eauto|apply keeps_refl]|].
          apply fwp_bind. destruct (negb _ && negb _); [|apply fwp_ret; apply fwp_ret; split; [eauto|apply keeps_refl]].
          eapply fwp_mono; [apply (Up1 p (q :: U) O ch s); auto|].
          - intros z [[<-|Hz]|Hz]; [constructor|apply BU; auto|apply BU; auto].
          - intros Hk. exfalso. apply (fv_eq _ _ _ _ _ F) in Hk; auto. apply (fv_chO _ _ _ _ _ _ _ F) in Hk. destruct Hk as (_ & X & _). congruence.
          - intros [] s1 (ch1 & F1 & K1). apply fwp_ret. split; eauto. }
        intros [] s1 [(ch1 & F1) K1]. destruct (proj2 K1 q (below_refl q)) as [D1 P1].
        destruct (disp_entry s1 q) as (e1 & Ee1 & Ep1 & _); [congruence|].
        apply fwp_bind. apply (fwp_node q e1); auto. apply fwp_bind. apply fwp_get. rewrite Ep1, P1, Pr, (fv_root _ _ _ _ _ F1).
        assert (ED : forall l, (if match dir with Down => true | _ => false end && mem root l then Both else dir) = dir) by (intros l; destruct dir; auto; discriminate).
        assert (Fin : forall p1, node_parents_of T D q s1 = [p1] -> (p1 = root \/ get_parents T q = [p1] /\ pa q = Some p1 /\ is_displayed s1 p1 = true /\ D p1 = true) ->
          fwp (settle rec q dir cur [p1] (is_displayed s1) root (finish rec q added)) (fun _ s' => exists ch', fv U O [] ch' s' /\ keeps (kept Y) s s' /\ (q <> root -> is_displayed s' q = D q) /\ natural s' q) s1).
        { intros p1 _ Hp1. eapply (settle_ok q U U1 O [] (below q) ch1 s1 dir cur p1); auto.
          - congruence.
          - congruence.
          - tauto.
          - destruct Hp1 as [->|(_ & _ & X & _)]; auto. apply (gb_disp _ _ _ _ _ (fv_gb _ _ _ _ _ F1)).
          - constructor.
          - intros _ p O' ch' s' Np Hp HO' F' D' P' Hk. apply (Up1 p U O' ch' s'); auto.
            + destruct Hp as [->|Hp]; [destruct Hp1 as [X|X]; [contradiction|tauto]|].
              rewrite <- Pr in Hp. destruct (fv_par _ _ _ _ _ F1 q p) as [X|X]; auto; [congruence|contradiction].
            + intros z [Hz|Hz]; [apply BU; auto|]. destruct HO' as [->| ->]; [apply BU; auto|]. destruct Hz as [<-|Hz]; [constructor|apply BU; auto].
            + intros X. apply Hk in X. subst p. destruct Hp1 as [X|X]; [contradiction|tauto].
          - intros ch2 s2 F2 K2 D2 P2. rewrite ED. eapply fwp_mono; [apply (finish_ok q U O [] ch2 s2 added dir); auto|].
            + intros Hg d Pd. split; [|apply IHd; auto]. destruct (NG Hg) as (_ & -> & ->). split; [|split].
              * intros z [[]|[]].
              * exists r0. split; auto. intros o x [].
              * intros h [].
            + intros [] s3 (ch3 & F3 & K3). exists ch3. split; auto. split.
              * eapply keeps_trans; [apply KS, K1|]. eapply keeps_trans.
                -- eapply keeps_weak; [|apply K2]. intros x Kx. apply BK. auto.
                -- eapply keeps_weak; [|apply K3]. intros x Kx Hg. destruct (NG Hg) as (E & _). rewrite E in Kx. destruct Kx.
              * destruct (proj2 K3 q (fun _ X => proj1 X eq_refl)) as [E1 E2]. split; [congruence|]. intros p. rewrite E2, P2. intros [<-|[]].
                destruct Hp1 as [X|(X & _)]; auto. rewrite X. right. left. auto. }
        destruct (np_cases s1 q (fv_root _ _ _ _ _ F1) (fv_flat _ _ _ _ _ F1)) as [E|(p & G & P & Dp & DDp & E)]; rewrite E; apply Fin; auto. }
      unfold update_body. apply fwp_bind. apply fwp_get. rewrite (fv_root _ _ _ _ _ F), (proj2 (eqb_neq q root) Nq).
      destruct (is_displayed s q) eqn:Dq; destruct (D q) eqn:DDq.
      - destruct (fv_one _ _ _ _ _ F q Dq Nq NU) as (p0 & E0). apply (Main U ch s false [p0]); eauto. discriminate.
      - assert (SD : forall d, In d (kids s q) -> pa d = Some q /\ forall x, kept Y x -> ~ below d x).
        { intros d Hd. destruct (fv_kid _ _ _ _ _ F q d Hd) as [_ [X|Pd]]; [contradiction|]. split; auto. intros x Kx W.
          destruct Y as [y|]; [|destruct Kx]. simpl in Kx. destruct Pr as (Py & _ & Hk). assert (d = y) by (apply (below_siblings d y x q); auto). subst d.
          rewrite Hk in DDq; auto. discriminate. }
        assert (KU : forall z, In z U \/ In z O -> kept Y z).
        { intros z Hz. destruct Y as [y|]; [|destruct Pr as [-> ->]; destruct Hz as [[]|[]]]. simpl. apply Pr. auto. }
        assert (RK : forall d, In d (kids s q) -> exists r, parank r /\ forall o x, In o O -> below d x -> r x < r o).
        { intros d Hd. destruct Y as [y|].
          - destruct (shift y) as (r & R & Hr); [destruct Pr as (X & _); intros ->; congruence|]. exists r. split; auto. intros o x Ho W. apply Hr.
            + apply (KU o). auto.
            + intros Wy. destruct (SD d Hd) as [_ X]. apply (X x); auto.
          - exists r0. split; auto. destruct Pr as [_ ->]. intros o x []. }
        assert (E0 : exists p0, pars s q = [p0]) by (apply (fv_one _ _ _ _ _ F); auto). destruct E0 as (p0 & E0).
        apply (hide_ok q U U O [] ch s); auto.
        + intros d Hd. destruct (SD d Hd) as [Pd Sd]. split; [|apply IHd; auto]. split; [|split]; auto.
          intros h [<-|[]]. split; [eapply below_step; [eauto|constructor]|]. split; auto. intros <-. pose proof (proj1 HR q q Pd). lia.
        + intros ch1 s1 F1 K1 D1. rewrite E0. cbn [ffor].
          assert (NKq : forall ch2 s2 p, fv U O [] ch2 s2 -> is_displayed s2 q = false -> ~ In q (kids s2 p)).
          { intros ch2 s2 p F2 D2 Hk. apply (fv_eq _ _ _ _ _ F2) in Hk; auto. apply (fv_chO _ _ _ _ _ _ _ F2) in Hk. destruct Hk as (_ & _ & _ & X & _). congruence. }
          assert (K1' : keeps (kept Y) s s1).
          { eapply keeps_weak; [|apply K1]. intros x Kx. split; [apply BK; auto|]. intros d Hd. apply SD; auto. }
          apply fwp_bind. apply fwp_bind.
          assert (W : forall p ch2 s2 (R : unit -> ft -> Prop), (p = root \/ pa q = Some p) -> fv U O [] ch2 s2 -> keeps (kept Y) s s2 -> is_displayed s2 q = false ->
            (forall ch3 s3, fv U O [] ch3 s3 -> keeps (kept Y) s s3 -> is_displayed s3 q = false -> R tt s3) -> fwp (rec p Up) R s2).
          { intros p ch2 s2 R Hp F2 K2 D2 HR'. destruct Hp as [->|Hp].
            - apply rec_root'; [apply (fv_root _ _ _ _ _ F2)|]. apply (HR' ch2); auto.
            - eapply fwp_mono; [apply (Up1 p U O ch2 s2); auto|].
              + intros z Hz. apply BU. auto.
              + intros Hk. exfalso. eapply NKq; eauto.
              + intros [] s3 (ch3 & F3 & K3). apply (HR' ch3); auto.
                * eapply keeps_trans; [apply K2|apply KS, K3].
                * rewrite (proj1 (proj2 K3 q (below_refl q))). auto. }
          apply (W p0 ch1 s1); auto; [apply (fv_par _ _ _ _ _ F); rewrite E0; left; auto|].
          intros ch2 s2 F2 K2 D2. apply fwp_ret.
          assert (X0 : exists ch', fv U O [] ch' s2 /\ keeps (kept Y) s s2 /\ (q <> root -> is_displayed s2 q = false) /\ natural s2 q) by eauto 10.
          destruct (has_node T q); [|apply fwp_ret; auto]. destruct (HG q) as [G|(p & G & P)]; rewrite G; cbn [ffor]; [apply fwp_ret; auto|].
          apply fwp_bind. apply fwp_bind. apply fwp_get. destruct (is_displayed s2 p); [apply fwp_ret; apply fwp_ret; auto|].
          apply (W p ch2 s2); auto. intros ch3 s3 F3 K3 D3. apply fwp_ret. eauto 10.
      - apply fwp_bind. apply fwp_modify. destruct (fv_new U O [] ch s q F Dq Nq) as (F1 & L1 & _); [apply HD; auto|].
        set (s1 := set_fnodes (dset q (mkF [] []) (fnodes s)) s) in *. clearbody s1.
        eapply fwp_mono; [apply (Main (q :: U) ch s1 true []); auto|].
        + rewrite (lo_pars _ _ _ _ _ L1). apply (not_disp _ _ Dq).
        + rewrite (lo_disp _ _ _ _ _ L1), eqb_refl. auto.
        + intros [] s2 (ch2 & F2 & K2 & E2). exists ch2. split; auto. split; auto. eapply keeps_trans; [|apply K2].
          eapply keeps_looks; [apply L1|]. intros x Kx. apply BK in Kx. destruct Kx as [_ N]. rewrite (proj2 (eqb_neq x q)) by auto. auto.
      - assert (NK : forall p, ~ In q (kids s p)).
        { intros p Hk. apply (fv_eq _ _ _ _ _ F) in Hk; auto. apply (fv_chO _ _ _ _ _ _ _ F) in Hk. destruct Hk as (_ & _ & _ & X & _). congruence. }
        assert (X0 : exists ch', fv U O [] ch' s /\ keeps (kept Y) s s /\ (q <> root -> is_displayed s q = false) /\ natural s q) by (exists ch; split; auto; split; auto; apply keeps_refl).
        destruct (has_node T q); [|apply fwp_ret; auto]. destruct (HG q) as [G|(p & G & P)]; rewrite G; cbn [ffor]; [apply fwp_ret; auto|].
        apply fwp_bind. eapply fwp_mono; [apply (Up1 p U O ch s); auto|].
        + intros z Hz. apply BU. auto.
        + intros Hk. exfalso. eapply NK; eauto.
        + intros [] s1 (ch1 & F1 & K1). apply fwp_ret. assert (E1 : is_displayed s1 q = false) by (rewrite (proj1 (proj2 K1 q (below_refl q))); auto). exists ch1. auto.
    Qed.
  End Body.

  Lemma down_all : forall fuel c, B + 2 <= fuel + r0 c -> downA (update_node ord T D fuel) c /\ downB (update_node ord T D fuel) c.
  Proof.
    induction fuel as [|fuel IH]; intros c Hf; [specialize (HB c); lia|].
    apply (down_body (update_node ord T D fuel)).
    - intros s Hs. destruct fuel as [|f]; [specialize (HB c); lia|]. cbn [update_node]. rewrite <- Hs. apply (update_body_root ord T D).
    - intros d Pd. apply IH. pose proof (proj1 HR d c Pd). lia.
  Qed.

  Lemma up_all : forall fuel q, r0 q + B + 3 <= fuel -> upok (update_node ord T D fuel) q.
  Proof.
    induction fuel as [|fuel IH]; intros q Hf; [lia|]. destruct (id_dec q root) as [->|Nq].
    - intros dir Y U O ch s _ _ _ F. cbn [update_node]. rewrite <- (fv_root _ _ _ _ _ F) at 1. unfold fwp. rewrite (update_body_root ord T D).
      exists ch. split; auto. split; [apply keeps_refl|]. split; [intros X; contradiction|].
      intros p Hp. exfalso. rewrite (gb_top _ _ _ _ _ (fv_gb _ _ _ _ _ F)) in Hp. destruct Hp.
    - apply (up_body (update_node ord T D fuel)); auto.
      + intros s Hs. destruct fuel as [|f]; [lia|]. cbn [update_node]. rewrite <- Hs. apply (update_body_root ord T D).
      + intros p Pq. apply IH. pose proof (proj1 HR q p Pq). lia.
      + intros d Pd. apply down_all. pose proof (proj1 HR d q Pd). lia.
  Qed.

  Lemma forest_update : forall fuel n ch s, r0 n + B + 3 <= fuel -> fv [] [] [] ch s ->
    fwp (update_node ord T D fuel n Both) (fun _ s' => exists ch', fv [] [] [] ch' s' /\ filters s' = filters s /\ (n <> root -> is_displayed s' n = D n) /\ natural s' n) s.
  Proof.
    intros fuel n ch s Hf F. eapply fwp_mono; [apply (up_all fuel n Hf Both None [] [] ch s); simpl; auto|].
    intros [] s' (ch' & F' & K' & E' & N'). exists ch'. split; auto. split; auto. apply K'.
  Qed.
End Forest.
