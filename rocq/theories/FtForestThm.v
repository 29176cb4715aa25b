(** Views: histories of views of forests with any filters. *)
From Coq Require Import Permutation.
From Verif Require Import Base BaseFacts MainTree Spec MainFacts MainInv MainOps MainDel MainRun MainAdd MainEff MainLaws MainEvents MainReg MainRegDel MainTight DataFacts
  Filters FTree SpecApi ApiFacts CountFacts SpecView SpecViewing SpecLoose
  FtBase FtWalk FtEdge FtUp FtFront FtDown FtNoop FtDel FtSync FtTree FtOps FtState FtView FtThm FtQuiet FtStep FtFlat FtFlatThm FtForest.
Open Scope f_scope.

Lemma kids_key : forall s p c, In c (kids s p) -> In p (dkeys (fnodes s)).
Proof. intros s p c H. apply kids_disp in H. apply dmem_In. auto. Qed.

(** The handler of an event, failing where the node it names is not shown as the filters say. *)
Definition ext_noted (ord : nat -> list id -> list id) (b : bank) (fs : list id) (root : id) (T : mtree) (n : id) : FM unit := fun s =>
  let '(s', r) := external_modify ord b T n s in
  if String.eqb n root || Bool.eqb (is_displayed s' n) (should_display b T fs n) then (s', r) else (s', Err TypeError).
Definition feed_noted (ord : nat -> list id -> list id) (b : bank) (fs : list id) (root : id) (es : list event) : FM unit :=
  ffor es (fun e => ext_noted ord b fs root (ev_tree e) (ev_id e)).

Lemma feed_noted_app : forall ord b fs root l1 l2 s Q,
  fwp (feed_noted ord b fs root l1) (fun _ s1 => fwp (feed_noted ord b fs root l2) Q s1) s -> fwp (feed_noted ord b fs root (l1 ++ l2)) Q s.
Proof. intros. apply ffor_app. auto. Qed.
Lemma feed_noted_cons : forall ord b fs root k n T es s Q, fwp (ext_noted ord b fs root T n) (fun _ s' => fwp (feed_noted ord b fs root es) Q s') s ->
  fwp (feed_noted ord b fs root (Ev k n T :: es)) Q s.
Proof. intros. unfold feed_noted in *. simpl. unfold fwp, fbind in *. destruct (ext_noted ord b fs root T n s) as [s1 [[]|e|]]; auto. Qed.
Lemma feed_noted_one : forall ord b fs root k n T s Q, fwp (ext_noted ord b fs root T n) (fun _ s' => Q tt s') s -> fwp (feed_noted ord b fs root [Ev k n T]) Q s.
Proof. intros. apply feed_noted_cons. eapply fwp_mono; [apply H|]. intros. exact H0. Qed.

Lemma feed_of_noted : forall ord b fs root es s Q, fwp (feed_noted ord b fs root es) Q s ->
  fwp (feed ord b es) (fun x s' => Q x s' /\ forall l e, es = l ++ [e] -> ev_id e <> root -> is_displayed s' (ev_id e) = should_display b (ev_tree e) fs (ev_id e)) s.
Proof.
  intros ord b fs root es. induction es as [|e es IH]; intros s Q H.
  { unfold feed. cbn [ffor]. split; auto. intros [|] ? X; discriminate. }
  unfold feed, feed_noted in *. cbn [ffor] in *. unfold fwp, fbind in *.
  unfold ext_noted in H at 1. destruct (external_modify ord b (ev_tree e) (ev_id e) s) as [s1 [[]|x|]];
    destruct (_ || _) eqn:Ck; try contradiction.
  specialize (IH s1 Q H). destruct (ffor es (fun e0 => external_modify ord b (ev_tree e0) (ev_id e0)) s1) as [s2 [[]|x|]] eqn:E; try contradiction.
  destruct IH as [IH1 IH2]. split; auto. intros [|e' l] e1 X Hn; simpl in X; inv X; eauto.
  simpl in E. inv E. rewrite (proj2 (eqb_neq (ev_id e1) root)) in Ck by auto. simpl in Ck. apply eqb_prop in Ck. auto.
Qed.

Section ForestOp.
  Variable ord : nat -> list id -> list id.
  Variable b : bank.
  Variable fs : list id.
  Variable root : id.
  Hypothesis HO : forall k l, Permutation (ord k l) l.

  Definition slim (T : mtree) : Prop := forall x, length (parents T x) <= 1.

  Lemma slim_forest : forall T, vreg T -> (slim T <-> forest T).
  Proof. intros T V. unfold slim, forest. split; intros H x; specialize (H x); rewrite vreg_parents in *; auto. Qed.
  Lemma slim_frame : forall T T', MainRegDel.frame T T' -> slim T -> slim T'.
  Proof.
    intros T T' F H x. destruct (has_node T' x) eqn:Hl.
    - pose proof (frame_parents _ _ _ F Hl) as Sb. specialize (H x).
      assert (length (parents T' x) <= length (parents T x)); [|lia]. clear -Sb. induction Sb; simpl; lia.
    - unfold parents. rewrite has_node_none by auto. simpl. lia.
  Qed.
  Lemma slim_same : forall T T', (forall x, parents T' x = parents T x) -> slim T -> slim T'.
  Proof. intros T T' E H x. rewrite E. auto. Qed.

  (** Each node of the view hangs under the root, or under its parent in the tree, or, while an
      event about it is still to come, under a parent it no longer has. *)
  Record wood (r : id -> nat) (U : id -> Prop) (T : mtree) (s : ft) : Prop := {
    w_base : base r root false (fun _ => True) s;
    w_one : forall x, is_displayed s x = true -> x <> root -> exists p, pars s x = [p];
    w_par : forall x p, In p (pars s x) -> p = root \/ In p (parents T x) \/ (U x /\ parents T x = []);
    w_fine : forall x, is_displayed s x = true -> x <> root -> fine x;
    w_fs : filters s = fs
  }.

  Lemma wood_move : forall r (U U' : id -> Prop) T T' s, wood r U T s ->
    (forall x p, In p (parents T x) \/ (U x /\ parents T x = []) -> In p (parents T' x) \/ (U' x /\ parents T' x = [])) -> wood r U' T' s.
  Proof. intros r U U' T T' s [] H. constructor; auto. intros x p Hp. destruct (w_par0 x p Hp) as [|Q]; auto. Qed.
  Lemma wood_mono : forall r (U U' : id -> Prop) T s, (forall x, U x -> U' x) -> wood r U T s -> wood r U' T s.
  Proof. intros r U U' T s H W. apply (wood_move r U U' T); auto. intros x p [|[]]; auto. Qed.
  Lemma wood_same : forall r U T T' s, (forall x, parents T' x = parents T x) -> wood r U T s -> wood r U T' s.
  Proof. intros r U T T' s H W. apply (wood_move r U U T); auto. intros x p. rewrite H. auto. Qed.
  Lemma wood_rank : forall r r' T s, wood r (fun _ => False) T s -> ranks T root r' -> wood r' (fun _ => False) T s.
  Proof.
    intros r r' T s [] [R1 R2]. constructor; auto. apply (base_rank r); auto. intros x p Hp.
    assert (Nx : x <> root) by (intros ->; rewrite (gb_top _ _ _ _ _ (b_g _ _ _ _ _ w_base0)) in Hp; destruct Hp).
    destruct (w_par0 x p Hp) as [->|[Q|[[] _]]]; auto.
  Qed.

  Lemma wood_event : forall r (U : id -> Prop) T n s, apt root T -> ranks T root r -> slim T -> wood r U T s ->
    fwp (ext_noted ord b fs root T n) (fun _ s' => wood r (fun x => U x /\ x <> n) T s') s.
  Proof.
    intros r U T n s A R F W. pose proof (a_reg _ _ A) as V. pose proof W as W0. destruct W as [Wb W1 W2 W3 W4]. pose proof (b_g _ _ _ _ _ Wb) as G.
    pose proof (gb_root _ _ _ _ _ G) as Ro.
    assert (Dm := fun x => vreg_parents T x V).
    set (pa := fun x => match get_parents T x with p :: _ => Some p | [] => match pars s x with [p] => if String.eqb p root then None else Some p | _ => None end end).
    assert (Lr : forall p x, In p (parents T x) -> p <> root) by (intros p x Hp ->; apply (vreg_live _ _ _ V) in Hp; rewrite (a_root _ _ A) in Hp; discriminate).
    assert (HG : forall x, get_parents T x = [] \/ exists p, get_parents T x = [p] /\ pa x = Some p).
    { intros x. unfold pa. rewrite Dm. specialize (F x). destruct (parents T x) as [|p [|q l]]; simpl in F; [auto|right; eauto|lia]. }
    assert (HPa : forall x p, pa x = Some p -> p <> root /\ (In p (parents T x) \/ (parents T x = [] /\ In p (pars s x)))).
    { intros x p. unfold pa. rewrite Dm. destruct (parents T x) as [|q l] eqn:E.
      - destruct (pars s x) as [|q [|]]; try discriminate. deq q root; [discriminate|]. intros X. inv X. simpl. auto 6.
      - intros X. inv X. split; [|left; left; auto]. apply (Lr p x). rewrite E. left. auto. }
    assert (Nt : forall x p, In p (pars s x) -> x <> root) by (intros x p Hp ->; rewrite (gb_top _ _ _ _ _ G) in Hp; destruct Hp).
    assert (Hpar : forall x p, In p (pars s x) -> p = root \/ pa x = Some p).
    { intros x p Hp. deq p root; auto. right. destruct (W2 x p Hp) as [|[Q|[_ Q]]]; [contradiction| |].
      - destruct (HG x) as [E1|(q & E1 & E1')]; rewrite Dm in E1; rewrite E1 in Q; [destruct Q|]. destruct Q as [<-|[]]. auto.
      - unfold pa. rewrite Dm, Q. destruct (W1 x) as (q & E1); [eapply pars_disp; eauto|eauto|]. rewrite E1 in *. destruct Hp as [->|[]].
        deq p root; [contradiction|auto]. }
    assert (Rp : forall x p, pa x = Some p -> r p < r x).
    { intros x p E. apply HPa in E. destruct E as (_ & [E|[_ E]]); [apply R; auto|]. apply (gb_pars _ _ _ _ _ G); auto. }
    assert (PR : parank root pa r) by (split; [auto|apply R]).
    set (L := dkeys (nodes T) ++ dkeys (fnodes s)).
    assert (Kp : forall x p, In p (pars s x) -> In p (dkeys (fnodes s))).
    { intros x p Hp. apply (gb_sym _ _ _ _ _ G) in Hp; auto. eapply kids_key; eauto. }
    assert (PR0 : parank root pa (squeeze r root L)).
    { split.
      - intros x p E. apply squeeze_lt; [apply R|auto|]. right. apply in_app_iff. apply HPa in E. destruct E as (_ & [E|[_ E]]).
        + left. apply has_node_In. eapply vreg_live; eauto.
        + right. eauto.
      - intros x Hx. unfold squeeze. rewrite eqb_refl, (proj2 (eqb_neq x root)); auto. lia. }
    assert (HD : forall x, should_display b T fs x = true -> x <> root /\ fine x).
    { intros x Hx. apply (D_alive b fs) in Hx. split; [intros ->; rewrite (a_root _ _ A) in Hx; discriminate|]. split; [|exact I].
      intros Q. apply (a_res _ _ A) in Q. congruence. }
    assert (HC : forall x c, should_display b T fs x = true -> should_display b T fs c = true -> In c (get_children T x) -> get_parents T c = [x]).
    { intros x c _ Dc Hc. apply (D_alive b fs) in Dc. apply (vreg_sym T x c V Dc) in Hc.
      destruct (HG c) as [E|(q & E & _)]; rewrite E in *; [destruct Hc|destruct Hc as [->|[]]; auto]. }
    assert (HP : forall x, pa x <> Some root) by (intros x E; apply HPa in E; tauto).
    assert (HP0 : pa root = None).
    { unfold pa. rewrite Dm. destruct (parents T root) as [|p l] eqn:E.
      - rewrite (gb_top _ _ _ _ _ G). auto.
      - exfalso. assert (Q : In p (parents T root)) by (rewrite E; left; auto). apply In_parents_live in Q. rewrite (a_root _ _ A) in Q. discriminate. }
    assert (FV : fv T root pa U [] [] [] (kids s) s).
    { assert (Hkid : forall x c, In c (kids s x) -> c <> root /\ (x = root \/ pa c = Some x)).
      { intros x c Hc. apply (gb_sym _ _ _ _ _ G) in Hc; auto. split; eauto. }
      constructor; auto.
      - intros r' R'. apply (any_rank root pa r); auto. apply (gview_weaken root false r (fun _ => True)); auto. apply base_gview. auto.
      - intros x [].
      - intros x p Hp. rewrite Dm. destruct (W2 x p Hp) as [|[|[]]]; auto. }
    pose proof (forest_update ord T (should_display b T fs) root pa (squeeze r root L) (S (length L)) (fun _ => I) U HO HD HG HC HP HP0 PR0 (squeeze_le r root L)
      (update_budget T s) n (kids s) s) as Z.
    assert (Bu : squeeze r root L n + S (length L) + 3 <= update_budget T s).
    { pose proof (squeeze_le r root L n) as Q. revert Q. unfold L, update_budget, dkeys. rewrite app_length, !map_length. lia. }
    specialize (Z Bu FV).
    unfold ext_noted, external_modify, update. unfold fwp in *. change (shown b T s) with (should_display b T (filters s)). rewrite W4.
    destruct (update_node ord T (should_display b T fs) (update_budget T s) n Both s) as [s' [[]| |]]; try contradiction.
    destruct Z as (ch' & F' & Fi & Di & Na).
    assert (Ck : String.eqb n root || Bool.eqb (is_displayed s' n) (should_display b T fs n) = true).
    { deq n root; auto. rewrite Di by auto. simpl. apply eqb_reflx. }
    rewrite Ck. constructor.
    - apply (gview_base root false r _ ch'); [|intros p c; apply (fv_eq _ _ _ _ _ _ _ _ _ F'); auto].
      apply (gview_weaken root false r (fun x => ~ In x [])); [apply (fv_g _ _ _ _ _ _ _ _ _ F'); auto|auto].
    - intros x Dx Nx. apply (fv_one _ _ _ _ _ _ _ _ _ F'); auto.
    - intros x p Hp. destruct (fv_st _ _ _ _ _ _ _ _ _ F' x p Hp) as [Ux|[|Q]]; auto; [|rewrite Dm in Q; auto].
      destruct (id_dec x n) as [->|Nx].
      + destruct (Na p Hp) as [|Q]; auto. rewrite Dm in Q. auto.
      + destruct (fv_par _ _ _ _ _ _ _ _ _ F' x p Hp) as [|Q]; auto. destruct (HG x) as [E|(q & E & E')]; rewrite Dm in E; rewrite E; auto.
        right. left. left. congruence.
    - apply (fv_fine _ _ _ _ _ _ _ _ _ F').
    - congruence.
  Qed.

  Definition woody (T : mtree) (s : ft) : Prop := exists r, ranks T root r /\ wood r (fun _ => False) T s.

  Lemma wood_quiet : forall r T n s, apt root T -> ranks T root r -> slim T -> wood r (fun _ => False) T s ->
    fwp (ext_noted ord b fs root T n) (fun _ s' => wood r (fun _ => False) T s') s.
  Proof. intros r T n s A R F W. eapply fwp_mono; [apply wood_event; eauto|]. intros ? s' H. eapply wood_mono; [|apply H]. simpl. tauto. Qed.

  Lemma slim_del_edge : forall p c T, slim T -> slim (del_edge p c T).
  Proof. intros p c T. apply slim_frame. apply frame_del_edge. Qed.

  Lemma remove1_slim : forall p (l : list id), length l <= 1 -> In p l -> remove1 p l = [].
  Proof. intros p [|x [|y l]] H; simpl in *; [tauto| |lia]. intros [->|[]]. rewrite eqb_refl. auto. Qed.

  (** A parent is taken from [c]. *)
  Lemma wood_cut : forall r (U : id -> Prop) T T' p c s, slim T -> wood r U T s -> (forall x, parents T' x = parents (del_edge p c T) x) ->
    wood r (fun x => U x \/ x = c) T' s.
  Proof.
    intros r U T T' p c s F W E. apply (wood_move r U _ T); auto. intros x q H. rewrite !E, !parents_del_edge. deq x c.
    - subst x. destruct (In_dec_id p (parents T c)) as [I|N].
      + rewrite (remove1_slim p) by auto. auto.
      + rewrite remove1_notin by auto. tauto.
    - tauto.
  Qed.

  Lemma wood_atom : forall T T' es s, reg T -> apt root T -> slim T -> atom T T' es -> Forall (fun e => forest (ev_tree e)) es -> woody T s ->
    apt root T' /\ slim T' /\ fwp (feed_noted ord b fs root es) (fun _ s' => woody T' s') s.
  Proof.
    intros T T' es s RG A F H Fe Sy. pose proof (reg_atom _ _ _ RG H) as RG'.
    assert (A' : apt root T').
    { apply (reg_apt root T); auto. destruct H as [t' En Er Hp|n Hn|n v t' Hn E|p c t' Hp Hc Ha En Er Hpd|p c t' Hp Hc Hpc En Er Hpd]; auto; intros x.
      - apply has_node_nodes; auto.
      - subst. apply has_node_upd.
      - rewrite (has_node_nodes (add_edge p c T)) by auto. apply has_node_add_edge.
      - rewrite (has_node_nodes (del_edge p c T)) by auto. apply has_node_del_edge. }
    split; auto.
    destruct H as [t' En Er Hp|n Hn|n v t' Hn E|p c t' Hp Hc Ha En Er Hpd|p c t' Hp Hc Hpc En Er Hpd].
    - assert (HP : forall x, parents t' x = parents T x) by (intros; apply parents_nodes; auto).
      split; [apply (slim_same T); auto|]. destruct Sy as (r & R & H). exists r. split; [apply (ranks_mono root T); auto; intros x p; rewrite HP; auto|].
      apply (wood_same r _ T); auto.
    - split; auto. destruct Sy as (r & R & H). apply feed_noted_one. eapply fwp_mono; [apply wood_quiet; eauto|]. intros ? s' H'. exists r. auto.
    - assert (HP : forall x, parents t' x = parents T x).
      { intros x. subst. unfold parents. rewrite dget_upd. deq x n; auto. subst. destruct (dget n (nodes T)); auto. }
      assert (F' : slim t') by (apply (slim_same T); auto). split; auto. destruct Sy as (r & R & H).
      assert (R' : ranks t' root r) by (apply (ranks_mono root T); auto; intros x p; rewrite HP; auto).
      apply feed_noted_one. eapply fwp_mono; [apply (wood_quiet r t'); auto|].
      + apply (wood_same r _ T); auto.
      + intros ? s' H'. exists r. auto.
    - assert (F' : slim t') by (apply slim_forest; [apply A'|inversion Fe; auto]). split; auto. destruct (apt_ranks root t' A') as [r R'].
      assert (HP : forall x, parents t' x = parents (add_edge p c T) x) by (intros; apply parents_nodes; auto).
      assert (HI : forall x q, In q (parents T x) -> In q (parents t' x)).
      { intros x q Hq. rewrite HP, parents_add_edge by auto. destruct (_ && _); auto. apply in_app_iff; auto. }
      assert (R : ranks T root r) by (apply (ranks_mono root t'); auto).
      destruct Sy as (r1 & R1 & H). apply (wood_rank r1 r) in H; auto.
      assert (H' : wood r (fun _ => False) t' s) by (apply (wood_move r (fun _ => False) _ T); auto; intros x q [|[[] _]]; auto).
      apply feed_noted_cons. eapply fwp_mono; [apply wood_quiet; eauto|]. intros ? s1 H1.
      apply feed_noted_one. eapply fwp_mono; [apply (wood_quiet r t' c s1); auto|]. intros ? s2 H2. exists r. auto.
    - assert (HP : forall x, parents t' x = parents (del_edge p c T) x) by (intros; apply parents_nodes; auto).
      assert (F' : slim t') by (apply (slim_same (del_edge p c T)); auto; apply slim_del_edge; auto). split; auto. destruct Sy as (r & R & H).
      assert (R' : ranks t' root r).
      { apply (ranks_mono root (del_edge p c T)); [intros x q; rewrite HP; auto|]. apply ranks_del_edge. auto. }
      assert (H' := wood_cut r _ T t' p c s F H HP).
      apply feed_noted_cons. eapply fwp_mono; [apply wood_event; eauto|]. intros ? s1 H1.
      apply feed_noted_one. eapply fwp_mono; [apply (wood_event r _ t' c s1 A' R' F' H1)|]. intros ? s2 H2.
      exists r. split; auto. eapply wood_mono; [|apply H2]. simpl. intros x (([[]| ->] & _) & E2). auto.
  Qed.

  Lemma wood_atoms : forall T T' es, atoms T T' es -> reg T -> apt root T -> slim T -> Forall (fun e => forest (ev_tree e)) es -> forall s, woody T s ->
    apt root T' /\ slim T' /\ fwp (feed_noted ord b fs root es) (fun _ s' => woody T' s') s.
  Proof.
    intros T T' es H. induction H as [|t1 e1 t2 e2 H1 IH H2]; intros RG A F Fe s Sy; [split; auto|].
    apply Forall_app in Fe. destruct Fe as [Fe1 Fe2].
    destruct (IH RG A F Fe1 s Sy) as (A1 & F1 & W1). assert (RG1 : reg t1) by (eapply reg_atoms; eauto).
    assert (X : forall s1, woody t1 s1 -> apt root t2 /\ slim t2 /\ fwp (feed_noted ord b fs root e2) (fun _ s' => woody t2 s') s1) by (intros s1 Sy1; apply (wood_atom t1 t2 e2 s1); auto).
    assert (Y : apt root t2 /\ slim t2).
    { unfold fwp in W1. destruct (feed_noted ord b fs root e1 s) as [s1 [[]|e|]]; try tauto. destruct (X s1 W1) as (Y1 & Y2 & _). auto. }
    destruct Y as [Y1 Y2]. split; auto. split; auto.
    apply feed_noted_app. eapply fwp_mono; [apply W1|]. intros ? s1 Sy1. apply X. auto.
  Qed.

  (** *** Additions *)
  Lemma wood_add : forall n nd po T T' es s, reg T -> apt root T -> slim T -> app_node n nd -> plain nd -> n <> "" -> n <> main_root ->
    n <> root -> ~ In n reserved -> unlisted_add T (AddNode n nd po) ->
    add_node n nd po T = (T', es, Ok tt) -> Forall (fun e => forest (ev_tree e)) es -> woody T s ->
    apt root T' /\ slim T' /\ fwp (feed_noted ord b fs root es) (fun _ s' => woody T' s') s.
  Proof.
    intros n nd po T T' es s RG A F An Pl N1 N2 N3 N4 Hu E Fe Sy.
    destruct (has_node T n) eqn:Hn.
    { unfold add_node in E. rewrite bind_get, Hn in E. inv E. split; auto. }
    assert (RG' : reg T').
    { pose proof (reg_add n nd po T RG An Pl N1 N2 Hu) as H. unfold after, outcome in H. cbn [run_op] in H. rewrite E in H. simpl in H. auto. }
    destruct (add_node_spec true n nd po T (r_good _ RG) Hn An (fun _ => Hu Hn)) as (t3 & es' & r' & tg & E' & G3 & Gg & Gr & En & _ & [K|K]);
      rewrite E' in E; inv E; destruct K as (K & Ees & _); [discriminate|]. subst es. clear K.
    assert (HP : forall x, has_node T' x = String.eqb x n || has_node T x).
    { intros x. rewrite (has_node_nodes tg T') by auto. rewrite (grown_has _ _ _ x Gr). unfold put, has_node, dmem. simpl.
      rewrite dget_dset. destruct (String.eqb x n); auto. }
    assert (A' : apt root T').
    { constructor; [apply reg_vreg; auto| |].
      - rewrite HP, (proj2 (eqb_neq root n)) by auto. apply A.
      - intros x Hx. rewrite HP. deq x n; [congruence|]. apply A. auto. }
    assert (F' : slim T') by (apply slim_forest; [apply A'|inversion Fe; auto]). split; auto. split; auto.
    assert (HI : forall x q, In q (parents T x) -> In q (parents T' x)).
    { intros x q Hq. destruct (id_dec x n) as [->|Nx]; [apply In_parents_live in Hq; congruence|].
      assert (Pput : parents (put n nd T) x = parents T x).
      { unfold parents, put. simpl. rewrite dget_dset, (proj2 (eqb_neq x n)) by auto. auto. }
      rewrite (parents_nodes tg T') by auto. destruct (grown_parents_other _ _ _ x Gr Nx) as [E|[_ E]]; rewrite E, Pput; auto. apply in_app_iff. auto. }
    destruct (apt_ranks root T' A') as [r R'].
    assert (R : ranks T root r) by (apply (ranks_mono root T'); auto).
    destruct Sy as (r1 & R1 & H). apply (wood_rank r1 r) in H; auto.
    apply feed_noted_one. eapply fwp_mono; [apply (wood_quiet r T'); auto|].
    - apply (wood_move r (fun _ => False) _ T); auto. intros x q [|[[] _]]; auto.
    - intros ? s' H'. exists r. auto.
  Qed.

  (** *** Deletions *)
  Lemma wood_unhook : forall r n T s (U : id -> Prop), apt root T -> ranks T root r -> slim T -> wood r U T s -> (forall x, U x -> In x (parents T n)) ->
    apt root (detached n T) /\ ranks (detached n T) root r /\ slim (detached n T) /\
    fwp (feed_noted ord b fs root (cut_events (evens (parents T n)) n (unmention n T))) (fun _ s' => wood r (eq n) (detached n T) s') s.
  Proof.
    intros r n T s U A R F H HU.
    assert (A1 : apt root (unmention n T)).
    { apply (apt_nodes root T); auto. intros p c I. apply (apt_pend root T A). unfold unmention in I. simpl in I. apply filter_In in I. tauto. }
    assert (R1 : ranks (unmention n T) root r) by (apply (ranks_mono root T); auto).
    assert (F1 : slim (unmention n T)) by (apply (slim_same T); auto).
    assert (H1 : wood r U (unmention n T) s) by (apply (wood_same r U T); auto).
    unfold detached. pose proof (F n) as Fn. destruct (parents T n) as [|p [|q l]] eqn:E; simpl in Fn; [| |lia]; cbn [evens cut cut_events].
    - split; auto. split; auto. split; auto. eapply wood_mono; [|apply H1]. intros x Ux. destruct (HU x Ux).
    - assert (A2 := apt_del_edge root p n _ A1). assert (R2 := ranks_del_edge root p n _ r R1). assert (F2 := slim_del_edge p n _ F1).
      split; auto. split; auto. split; auto. apply feed_noted_one.
      eapply fwp_mono; [apply (wood_event r (fun x => U x \/ x = n)); auto|].
      + apply (wood_cut r U (unmention n T) _ p n); auto.
      + intros ? s' H'. eapply wood_mono; [|apply H']. simpl. intros x [[Ux|E'] Np]; auto. destruct (HU x Ux) as [E'|[]]. congruence.
  Qed.

  Lemma wood_shed : forall r n l T s, apt root T -> ranks T root r -> slim T -> wood r (eq n) T s ->
    apt root (shed n l T) /\ ranks (shed n l T) root r /\ slim (shed n l T) /\
    fwp (feed_noted ord b fs root (shed_events n l T)) (fun _ s' => wood r (eq n) (shed n l T) s') s.
  Proof.
    intros r n l. induction l as [|c l IH]; intros T s A R F H; simpl; [auto|].
    assert (A1 := apt_del_edge root n c T A). assert (R1 := ranks_del_edge root n c T r R). assert (F1 := slim_del_edge n c T F).
    assert (H1 := wood_cut r (eq n) T (del_edge n c T) n c s F H (fun x => eq_refl)).
    pose proof (wood_event r _ _ c s A1 R1 F1 H1) as W.
    unfold fwp in W. destruct (ext_noted ord b fs root (del_edge n c T) c s) as [s1 [[]|e|]] eqn:E1; try tauto.
    assert (A2 : apt root (shed1 n c T)).
    { apply (apt_nodes root (del_edge n c T)); auto; [apply nodes_shed1|]. pose proof (apt_pend root _ A1) as P.
      unfold shed1, orphan_root. destruct (parents (del_edge n c T) c); auto. }
    assert (PE : forall x, parents (shed1 n c T) x = parents (del_edge n c T) x) by (intros; apply parents_nodes, nodes_shed1).
    assert (R2 : ranks (shed1 n c T) root r) by (apply (ranks_mono root (del_edge n c T)); auto; intros x p; rewrite PE; auto).
    assert (F2 : slim (shed1 n c T)) by (apply (slim_same (del_edge n c T)); auto).
    assert (H2 : wood r (eq n) (shed1 n c T) s1).
    { apply (wood_same r _ (del_edge n c T)); auto. eapply wood_mono; [|apply W]. simpl. intros x [[|] ?]; [auto|contradiction]. }
    destruct (IH (shed1 n c T) s1 A2 R2 F2 H2) as (A3 & R3 & F3 & W3). split; auto. split; auto. split; auto.
    apply feed_noted_cons. unfold fwp at 1. rewrite E1. auto.
  Qed.

  Lemma wood_pop : forall r n T s, apt root T -> ranks T root r -> slim T -> wood r (eq n) T s ->
    (forall x, has_node T x = true -> x <> n -> ~ In n (parents T x)) ->
    apt root (without n T) /\ ranks (without n T) root r /\ slim (without n T) /\
    fwp (ext_noted ord b fs root (without n T) n) (fun _ s' => wood r (fun _ => False) (without n T) s') s.
  Proof.
    intros r n T s A R F H HN. pose proof (vreg_ok _ (a_reg _ _ A)) as O. pose proof (ok_keys _ O) as ND.
    assert (Fr : MainRegDel.frame T (without n T)) by (apply (frame_pop n T (set_rootc (remove1 n (rootc T)) T)); auto).
    assert (A' : apt root (without n T)).
    { apply (apt_frame root T); auto.
      unfold without. apply (good_pop true n (set_rootc (remove1 n (rootc T)) T)).
      + apply goodx_set_rootc. apply (v_good _ (a_reg _ _ A)).
      + intros c. destruct (id_dec c n) as [|Nc]; auto. left. intros I. apply (HN c); auto. apply In_parents_live in I. auto. }
    assert (R' : ranks (without n T) root r).
    { apply (ranks_mono root T); auto. intros x p. rewrite parents_without by auto. deq x n; auto. simpl. tauto. }
    assert (F' : slim (without n T)) by (apply (slim_frame T); auto).
    split; auto. split; auto. split; auto.
    eapply fwp_mono; [apply (wood_event r (eq n)); auto|].
    - apply (wood_move r (eq n) _ T); auto. intros x p. rewrite parents_without by auto. deq x n; subst; tauto.
    - intros ? s' H'. eapply wood_mono; [|apply H']. simpl. intros x [E N]. auto.
  Qed.

  Lemma wood_del_one : forall n T T' es s, apt root T -> slim T -> del_node n false T = (T', es, Ok tt) -> woody T s ->
    apt root T' /\ slim T' /\ fwp (feed_noted ord b fs root es) (fun _ s' => woody T' s') s.
  Proof.
    intros n T T' es s A F E (r & R & H). destruct (has_node T n) eqn:Hn.
    2:{ rewrite del_dead in E by auto. inv E. split; auto. split; auto. exists r. auto. }
    pose proof (v_good _ (a_reg _ _ A)) as G.
    assert (LC : forall c, In c (childs T n) -> has_node T c = true).
    { intros c Hc. destruct (has_node T c) eqn:X; auto. exfalso.
      assert (K : snd (del_node n false T) = Err KeyError) by (apply (del_one_err true); auto; exists c; auto).
      rewrite E in K. discriminate. }
    rewrite (del_one true) in E by auto. inv E.
    destruct (wood_unhook r n T s _ A R F H) as (A2 & R2 & F2 & W2); [intros x []|].
    unfold fwp in W2. destruct (feed_noted ord b fs root (cut_events (evens (parents T n)) n (unmention n T)) s) as [s1 [[]|e|]] eqn:E1; try tauto.
    destruct (wood_shed r n (childs T n) (detached n T) s1 A2 R2 F2 W2) as (A3 & R3 & F3 & W3).
    fold (shedded n T) in A3, R3, F3, W3.
    unfold fwp in W3. destruct (feed_noted ord b fs root (shed_events n (childs T n) (detached n T)) s1) as [s2 [[]|e|]] eqn:E2; try tauto.
    destruct (wood_pop r n (shedded n T) s2 A3 R3 F3 W3) as (A4 & R4 & F4 & W4).
    { intros x Hx Nx. unfold shedded in Hx. rewrite has_node_shed, has_node_detached in Hx.
      rewrite (parents_shedded true) by auto. intros I. apply remove1_iff in I; [tauto|]. apply (ok_ndp _ (vreg_ok _ (a_reg _ _ A))). }
    split; auto. split; auto. apply feed_noted_app. unfold fwp at 1. rewrite E1. apply feed_noted_app. unfold fwp at 1. rewrite E2.
    apply feed_noted_one. eapply fwp_mono; [apply W4|]. intros ? s3 H3. exists r. auto.
  Qed.

  Definition rec_wood (f : nat) : Prop := forall n r T T' es s (U : id -> Prop), apt root T -> ranks T root r -> slim T ->
    remove_node f n true T = (T', es, Ok tt) -> wood r U T s -> (forall x, U x -> has_node T n = true /\ In x (parents T n)) ->
    apt root T' /\ ranks T' root r /\ slim T' /\ fwp (feed_noted ord b fs root es) (fun _ s' => wood r (fun _ => False) T' s') s.

  Lemma wood_children : forall f r n l T0 T T' es s, rec_wood f -> apt root T -> ranks T root r -> slim T ->
    good true T0 -> MainRegDel.frame T0 T -> same_parents T0 T -> has_node T n = true ->
    (forall c, In c l -> has_node T0 c = true -> In n (parents T0 c)) ->
    for_each l (fun c => remove_node f c true) T = (T', es, Ok tt) -> wood r (eq n) T s ->
    apt root T' /\ ranks T' root r /\ slim T' /\ has_node T' n = true /\ same_parents T0 T' /\ MainRegDel.frame T0 T' /\
    (forall c, In c l -> has_node T' c = false) /\
    fwp (feed_noted ord b fs root es) (fun _ s' => wood r (eq n) T' s') s.
  Proof.
    intros f r n l T0. induction l as [|c l IH]; intros T T' es s HC A R Fo G0 F SP Hn Hl E H.
    { simpl in E. inv E. repeat (split; auto). simpl. tauto. }
    cbn [for_each] in E. unfold bind in E.
    destruct (remove_node f c true T) as [[T1 e1] [[]|e|]] eqn:E1; try discriminate.
    destruct (for_each l (fun c => remove_node f c true) T1) as [[T2 e2] r2] eqn:E2. inv E.
    pose proof (v_good _ (a_reg _ _ A)) as G.
    assert (He : has_node T "" = false) by apply (v_empty _ (a_reg _ _ A)).
    pose proof (remove_node_rec_rm true f c T G) as RM. unfold wp in RM. rewrite E1 in RM. destruct RM as (G1 & _ & _ & RM).
    destruct (RM eq_refl) as [Dead SP1]. clear RM.
    pose proof (framed_remove_node f c true T (ok_keys _ (g_ok _ _ _ G))) as FR. unfold wp in FR. rewrite E1 in FR.
    pose proof (remove_lost f c T G He) as LO. unfold wp in LO. rewrite E1 in LO.
    assert (F1 : MainRegDel.frame T T1) by (apply FR).
    assert (Step : apt root T1 /\ ranks T1 root r /\ slim T1 /\ has_node T1 n = true /\ fwp (feed_noted ord b fs root e1) (fun _ s' => wood r (eq n) T1 s') s).
    { destruct (has_node T c) eqn:Hc.
      - assert (Pc : In n (parents T c)).
        { rewrite SP by auto. apply Hl; [left; auto|]. eapply frame_has; eauto. }
        assert (Anc : anc T n c) by (eapply anc_step; [apply Pc|apply anc_refl]).
        destruct (HC c r T T1 e1 s (eq n) A R Fo E1 H) as (A1 & R1 & Fo1 & W1).
        + intros x <-. auto.
        + split; auto. split; auto. split; auto. split.
          * destruct (has_node T1 n) eqn:X; auto. exfalso. pose proof (LO n Hn X) as Bad.
            assert (n = c) by (eapply (anc_antisym T); [apply (g_ok _ _ _ G)|apply Anc|apply Bad]). subst c.
            eapply ok_not_own_parent; [apply (g_ok _ _ _ G)|eauto].
          * eapply fwp_mono; [apply W1|]. intros ? s1 H1. eapply wood_mono; [|apply H1]. simpl. tauto.
      - assert (Nop : remove_node f c true T = (T, [], Ok tt)) by (destruct f; cbn [remove_node]; rewrite bind_get, Hc; reflexivity).
        rewrite Nop in E1. inv E1. auto 10. }
    destruct Step as (A1 & R1 & Fo1 & Hn1 & W1).
    unfold fwp in W1. destruct (feed_noted ord b fs root e1 s) as [s1 [[]|e|]] eqn:Ef; try tauto.
    assert (SP' : same_parents T0 T1).
    { intros x Hx. rewrite SP1 by auto. apply SP. eapply frame_has; eauto. }
    destruct (IH T1 T' e2 s1 HC A1 R1 Fo1 G0) as (A2 & R2 & Fo2 & Hn2 & SP2 & F2 & Dead2 & W2); auto.
    { eapply frame_trans; eauto. }
    split; auto. split; auto. split; auto. split; auto. split; auto. split; auto. split.
    - intros x [<-|Hx]; auto. destruct (has_node T' c) eqn:X; auto. exfalso.
      pose proof (framed_for_each _ l (fun c => remove_node f c true) (fun x => framed_remove_node f x true) T1) as FF.
      unfold wp in FF. rewrite E2 in FF. destruct (FF (ok_keys _ (g_ok _ _ _ G1))) as [_ [FF' _]].
      simpl in FF'. apply (frame_has _ _ _ FF') in X. simpl in Dead. rewrite Dead in X by (left; auto). discriminate.
    - apply feed_noted_app. unfold fwp at 1. rewrite Ef. auto.
  Qed.

  Lemma wood_remove : forall f, rec_wood f.
  Proof.
    induction f as [|f IH]; intros n r T T' es s U A R F E H HU.
    { destruct (has_node T n) eqn:Hn.
      - rewrite (remove_node_unfold true) in E by (auto; apply (v_good _ (a_reg _ _ A))). discriminate.
      - cbn [remove_node] in E. rewrite bind_get, Hn in E. inv E. split; auto. split; auto. split; auto.
        eapply wood_mono; [|apply H]. intros x Ux. destruct (HU x Ux). congruence. }
    destruct (has_node T n) eqn:Hn.
    2:{ cbn [remove_node] in E. rewrite bind_get, Hn in E. inv E. split; auto. split; auto. split; auto.
        eapply wood_mono; [|apply H]. intros x Ux. destruct (HU x Ux). congruence. }
    pose proof (v_good _ (a_reg _ _ A)) as G.
    rewrite (remove_node_unfold true) in E by auto.
    destruct (wood_unhook r n T s U A R F H) as (A2 & R2 & F2 & W2); [intros x Ux; apply (HU x Ux)|].
    unfold fwp in W2. destruct (feed_noted ord b fs root (cut_events (evens (parents T n)) n (unmention n T)) s) as [s1 [[]|e|]] eqn:E1; try tauto.
    unfold prefix, children_part in E. unfold bind in E.
    destruct (for_each (childs T n) (fun c => remove_node f c true) (detached n T)) as [[T1 e1] [[]|e|]] eqn:E2; try discriminate.
    assert (Gd : good true (detached n T)) by (apply good_detached; auto).
    destruct (wood_children f r n (childs T n) (detached n T) (detached n T) T1 e1 s1 IH A2 R2 F2 Gd) as (A3 & R3 & F3 & Hn3 & SP3 & Fr3 & Dead & W3); auto.
    { apply frame_refl. }
    { intros x Hx. auto. }
    { rewrite has_node_detached. auto. }
    { intros c Hc Hl. rewrite has_node_detached in Hl. assert (Pc : In n (parents T c)) by (apply listed_parent; auto; apply (v_empty _ (a_reg _ _ A))).
      rewrite parents_detached_other; auto. intros ->. eapply ok_not_own_parent; [apply (g_ok _ _ _ G)|eauto]. }
    rewrite tail_Ok in E by auto. fold (without n T1) in E. simpl in E. inv E.
    unfold fwp in W3. destruct (feed_noted ord b fs root e1 s1) as [s2 [[]|e|]] eqn:E3; try tauto.
    destruct (wood_pop r n T1 s2 A3 R3 F3 W3) as (A4 & R4 & F4 & W4).
    { intros x Hx Nx I. rewrite SP3 in I by auto. rewrite parents_detached_other in I by auto.
      assert (Hc : In x (childs T n)) by (apply (ok_sym _ (g_ok _ _ _ G)); auto). rewrite Dead in Hx by auto. discriminate. }
    fold (without n T1). split; auto. split; auto. split; auto. apply feed_noted_app. unfold fwp at 1. rewrite E1.
    apply feed_noted_app. unfold fwp at 1. rewrite E3.
    apply feed_noted_one. auto.
  Qed.

  Lemma wood_call : forall o T s, reg T -> apt root T -> slim T -> calm T o -> match o with AddNode n _ _ => n <> root /\ ~ In n reserved | _ => True end ->
    Forall (fun e => forest (ev_tree e)) (events o T) -> woody T s ->
    apt root (after o T) /\ slim (after o T) /\ fwp (feed_noted ord b fs root (events o T)) (fun _ s' => woody (after o T) s') s.
  Proof.
    intros o T s RG A Fo (P & F & Un & St) X Fe Sy. destruct (ordinary_cases o F) as [Ho|[(n & nd & p & ->)|(n & rc & ->)]].
    - pose proof (steps_run_op o Ho T RG) as W. unfold wp in W. unfold after, events in *. destruct (run_op o T) as [[T' es] q].
      simpl in *. apply (wood_atoms T T' es); auto.
    - destruct P as (An & P1 & P2 & N1 & N2). destruct X as [X1 X2]. simpl in St. unfold outcome in St. unfold after, events in *. cbn [run_op] in *.
      destruct (add_node n nd p T) as [[T' es] q] eqn:E. simpl in *. subst. apply (wood_add n nd p T T' es); auto. split; auto.
    - simpl in St. unfold outcome in St. unfold after, events in *. cbn [run_op] in *. destruct (del_node n rc T) as [[T' es] q] eqn:E.
      simpl in St. subst. destruct rc.
      + destruct Sy as (r & R & H). unfold del_node in E. rewrite bind_get in E. simpl fst in *. simpl snd in *.
        destruct (wood_remove (remove_budget T) n r T T' es s (fun _ => False) A R Fo E H) as (A' & R' & F' & W); [tauto|].
        split; auto. split; auto. eapply fwp_mono; [apply W|]. intros ? s' H'. exists r. auto.
      + apply (wood_del_one n T); auto.
  Qed.
End ForestOp.

Section ForestHist.
  Variable ord : nat -> list id -> list id.
  Hypothesis HO : forall k l, Permutation (ord k l) l.

  Definition forest_ok (x : viewed) : Prop := let '(t, b, s) := x in
    reach calm t /\ no_clash t s /\ forest t /\ woody (filters s) (froot s) t s.

  Lemma wood_root : forall fs root r U T s, wood fs root r U T s -> froot s = root.
  Proof. intros fs root r U T s W. apply (gb_root _ _ _ _ _ (b_g _ _ _ _ _ (w_base _ _ _ _ _ _ W))). Qed.

  Lemma calm_fresh : forall t o, calm t o -> any_fresh t o.
  Proof. intros t o [H _]. destruct o; simpl in *; tauto. Qed.
  Lemma calm_reachx : forall t, reach calm t -> reachx any_fresh t.
  Proof. intros t R. apply reach_reachx. eapply reach_mono; [|apply R]. intros. apply calm_fresh. auto. Qed.

  Lemma forest_tree : forall t b s o, forest_ok (t, b, s) -> calm t o -> no_clashing_add s o ->
    Forall (fun e => forest (ev_tree e)) (events o t) ->
    forest_ok (fst (view_call ord (VTree o) (t, b, s))) /\ snd (view_call ord (VTree o) (t, b, s)) = Ok tt /\
    froot (snd (fst (view_call ord (VTree o) (t, b, s)))) = froot s /\
    forall l e, events o t = l ++ [e] -> ev_id e <> froot s ->
      is_displayed (snd (fst (view_call ord (VTree o) (t, b, s)))) (ev_id e) = should_display b (ev_tree e) (filters s) (ev_id e).
  Proof.
    intros t b s o (R & N & Fo & W) C No Fe. pose proof (reach_reg _ R) as Rg.
    assert (R' : reach calm (after o t)) by (apply reach_call; auto).
    destruct (clash_step t o s (calm_reachx t R) (calm_fresh t o C) N No) as [N' Ne].
    assert (A : apt (froot s) t) by (apply no_clash_apt; auto).
    destruct (wood_call ord b (filters s) (froot s) HO o t s Rg A) as (A' & F' & Wf); auto.
    { apply slim_forest; auto. apply A. }
    apply feed_of_noted in Wf. cbn [view_call]. unfold fwp in Wf.
    destruct (feed ord b (events o t) s) as [s' [[]| |]]; try contradiction. destruct Wf as ((r & Rk & Wf) & D').
    pose proof (wood_root _ _ _ _ _ _ Wf) as Ro. pose proof (w_fs _ _ _ _ _ _ Wf) as Fi. cbn [fst snd].
    split; [|split; [|split]; auto]. split; auto. split; [apply (clash_same _ s); auto|]. split; [apply slim_forest; auto; apply A'|]. rewrite Ro, Fi. exists r. auto.
  Qed.

  Lemma not_flat : forall b l, ~ flattened b l -> any_flat b l = false.
  Proof. intros b l N. destruct (any_flat b l) eqn:E; auto. exfalso. apply N. apply flat_spec. auto. Qed.

  Lemma forest_refiltered : forall t b s r0 fl0, reach calm t -> forest t -> no_clash t s -> base r0 (froot s) fl0 (fun _ => True) s -> ~ flattened b (filters s) ->
    exists s', refilter ord b t s = (s', Ok tt) /\ forest_ok (t, b, s') /\ uptodate t b s' /\ filters s' = filters s /\ froot s' = froot s.
  Proof.
    intros t b s r0 fl0 R Fo N B F. pose proof (reach_reg _ R) as Rg.
    destruct (refilter_synced ord HO t b s r0 fl0 Rg) as (s' & E & Sy & Fi & Ro); auto.
    { apply no_clash_apt; auto. }
    assert (A : apt (froot s') t) by (rewrite Ro; apply no_clash_apt; auto).
    assert (Sy' : synced b (filters s') (froot s') (any_flat b (filters s')) t s') by (rewrite Ro, Fi; auto).
    exists s'. split; auto. split; [|split; [apply synced_uptodate; auto|auto]].
    split; auto. split; [apply (clash_same _ s); auto|]. split; auto.
    rewrite (not_flat b (filters s')) in Sy' by (rewrite Fi; auto). destruct Sy' as (r & HR & I & _). exists r. split; auto.
    pose proof (in_base _ _ _ _ _ _ _ I) as B'.
    assert (DD : forall x, is_displayed s' x = true -> x <> froot s' -> D b (filters s') t x = true /\ pars s' x = spv b (filters s') (froot s') false t x).
    { intros x Dx Nx. destruct (in_stale _ _ _ _ _ _ _ I x Dx) as [|Q]; [contradiction|]. split; auto. apply (in_pars _ _ _ _ _ _ _ I); auto. }
    assert (SL : slim t) by (apply slim_forest; auto; apply A).
    constructor; auto.
    - intros x Dx Nx. destruct (DD x Dx Nx) as [_ ->]. rewrite spv_eq by auto. specialize (SL x).
      assert (Q : length (filter (D b (filters s') t) (parents t x)) <= length (parents t x)) by (clear; induction (parents t x) as [|y l IH]; simpl; auto; destruct (D b (filters s') t y); simpl; lia).
      destruct (filter _ (parents t x)) as [|p [|q l]]; eauto. simpl in Q. lia.
    - intros x p Hp. assert (Nx : x <> froot s') by (intros ->; rewrite (gb_top _ _ _ _ _ (b_g _ _ _ _ _ B')) in Hp; destruct Hp).
      destruct (DD x (pars_disp _ _ _ Hp) Nx) as [_ Q]. rewrite Q, spv_eq in Hp by auto.
      assert (QQ : In p (filter (D b (filters s') t) (parents t x)) -> In p (parents t x)) by (rewrite filter_In; tauto).
      destruct (filter _ (parents t x)) as [|q l]; [destruct Hp as [<-|[]]; auto|auto].
    - intros x Dx Nx. destruct (DD x Dx Nx) as [Q _]. apply (apt_D b (filters s') (froot s') t A) in Q. split; [apply Q|exact Logic.I].
  Qed.

  Lemma loose_forest_ok : forall x, loose_forest ord x -> forest_ok x.
  Proof.
    intros x H. induction H as [t b name names R Fo N F|t b s o H IH C No Fe|t b s b' names H IH|t b s H IH F].
    - destruct (forest_refiltered t b (set_filters names (new_ft name)) (fun _ => 0) false) as (s' & E & P & _); auto.
      { apply base_filters. apply (new_ft_base name (fun _ => 0) false). }
      unfold opened. rewrite E. auto.
    - apply forest_tree; auto.
    - destruct IH as (R & N & Fo & r & HR & W). split; auto. split; auto. split; auto. exists r. split; auto.
      destruct W as [W1 W2 W3 W4 W5]. constructor; auto. apply base_filters. auto.
    - destruct IH as (R & N & Fo & r & HR & W). destruct (forest_refiltered t b s _ _ R Fo N (w_base _ _ _ _ _ _ W) F) as (s' & E & P & _).
      cbn [view_call]. rewrite E. auto.
  Qed.

  Theorem forest_no_error : forall t b s o, loose_forest ord (t, b, s) -> calm t o -> no_clashing_add s o ->
    Forall (fun e => forest (ev_tree e)) (events o t) -> snd (view_call ord (VTree o) (t, b, s)) = Ok tt.
  Proof. intros t b s o H C No Fe. apply loose_forest_ok in H. apply forest_tree; auto. Qed.

  Theorem forest_consistent : forall t b s, loose_forest ord (t, b, s) ->
    sound s /\ mirrored s /\ forall n, In n (view_all_nodes s) -> pars s n = [froot s] \/ pars s n = get_parents t n.
  Proof.
    intros t b s H. apply loose_forest_ok in H. destruct H as (R & N & Fo & r & HR & W). pose proof (w_base _ _ _ _ _ _ W) as B. pose proof (b_g _ _ _ _ _ B) as G.
    split; [eapply base_sound; eauto|]. split.
    - destruct (gb_knows _ _ _ _ _ G) as (cs & (K & _) & K1). exists cs. auto.
    - intros n Hn. apply all_nodes_In in Hn; [|apply B]. destruct Hn as [H1 H2]. destruct (w_one _ _ _ _ _ _ W n H1 H2) as (p & E).
      assert (A : apt (froot s) t) by (apply no_clash_apt; auto; apply reach_reg; auto). specialize (Fo n). rewrite vreg_parents in * by apply A.
      destruct (w_par _ _ _ _ _ _ W n p) as [->|[Q|[[] _]]]; [rewrite E; left; auto|auto|]. right. rewrite E.
      destruct (parents t n) as [|q [|]]; simpl in *; [tauto| |lia]. destruct Q as [->|[]]. auto.
  Qed.

  Theorem forest_announced : forall t b s o l e, loose_forest ord (t, b, s) -> calm t o -> no_clashing_add s o ->
    Forall (fun e => forest (ev_tree e)) (events o t) ->
    events o t = l ++ [e] -> ev_id e <> froot s -> ev_id e <> "" ->
    (In (ev_id e) (view_all_nodes (snd (fst (view_call ord (VTree o) (t, b, s))))) <-> In (ev_id e) (satisfying b (ev_tree e) (filters s))).
  Proof.
    intros t b s o l e H C No Fe E Hn H0. apply loose_forest_ok in H. destruct (forest_tree t b s o H C No Fe) as (P & _ & Ro & D).
    specialize (D l e E Hn).
    assert (S1 : should_display b (ev_tree e) (filters s) (ev_id e) = true <-> In (ev_id e) (satisfying b (ev_tree e) (filters s))).
    { rewrite satisfying_In. unfold should_display. destruct (has_node (ev_tree e) (ev_id e)) eqn:Eh.
      - assert (Tn : truthy (ev_id e) = true) by (destruct (ev_id e); auto; contradiction). rewrite Tn. simpl. rewrite passes_sat; tauto.
      - rewrite andb_false_r. split; [discriminate|intros []; discriminate]. }
    rewrite <- S1, <- D. destruct (fst (view_call ord (VTree o) (t, b, s))) as [[t' b'] s']. cbn [snd] in *. destruct P as (_ & _ & _ & r & _ & W).
    rewrite all_nodes_In by apply (w_base _ _ _ _ _ _ W). rewrite Ro. tauto.
  Qed.

  Theorem forest_refilter : forall t b s, loose_forest ord (t, b, s) -> ~ flattened b (filters s) ->
    exists s', view_call ord VRefilter (t, b, s) = (t, b, s', Ok tt) /\ uptodate t b s'.
  Proof.
    intros t b s H F. apply loose_forest_ok in H. destruct H as (R & N & Fo & r & HR & W).
    destruct (forest_refiltered t b s _ _ R Fo N (w_base _ _ _ _ _ _ W) F) as (s' & E & P & U & _). exists s'. cbn [view_call]. rewrite E. auto.
  Qed.
End ForestHist.
