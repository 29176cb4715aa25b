(** Views of nodes chosen by their children: the calls on the tree. *)
From Coq Require Import Permutation.
From Verif Require Import Base BaseFacts MainTree Spec MainFacts MainInv MainOps MainDel MainRun MainAdd MainEff MainLaws MainEvents MainReg MainRegDel MainTight DataFacts
  Filters FTree SpecApi ApiFacts CountFacts SpecView SpecViewing SpecLoose
  FtBase FtWalk FtEdge FtUp FtFront FtDown FtNoop FtDel FtSync FtTree FtOps FtState FtView FtThm FtQuiet FtStep FtFlat FtFlatThm FtForestThm FtTruth SpecKin KinFacts.
Open Scope f_scope.

Lemma feed_cons : forall ord b k n T es s Q, fwp (external_modify ord b T n) (fun _ s' => fwp (feed ord b es) Q s') s -> fwp (feed ord b (Ev k n T :: es)) Q s.
Proof. intros. unfold feed in *. simpl. unfold fwp, fbind in *. destruct (external_modify ord b T n s) as [s1 [[]|e|]]; auto. Qed.
Lemma feed_one : forall ord b k n T s Q, fwp (external_modify ord b T n) (fun _ s' => Q tt s') s -> fwp (feed ord b [Ev k n T]) Q s.
Proof. intros. apply feed_cons. eapply fwp_mono; [apply H|]. intros. exact H0. Qed.
Lemma feed_app : forall ord b l1 l2 s Q, fwp (feed ord b l1) (fun _ s1 => fwp (feed ord b l2) Q s1) s -> fwp (feed ord b (l1 ++ l2)) Q s.
Proof. intros. apply ffor_app. auto. Qed.

Lemma datum_attrs : forall T T' x, attrs T' x = attrs T x -> datum T' x = datum T x.
Proof. intros T T' x. unfold attrs, datum. destruct (dget x (nodes T)), (dget x (nodes T')); simpl; congruence. Qed.
Lemma datum_nodes : forall T T' x, nodes T' = nodes T -> datum T' x = datum T x.
Proof. intros. unfold datum. rewrite H. auto. Qed.

Section KinOp.
  Variable ord : nat -> list id -> list id.
  Variable b : bank.
  Variable fs : list id.
  Variable root : id.
  Variable fl : bool.
  Hypothesis HO : forall k l, Permutation (ord k l) l.
  Hypothesis HC : childwise b fs.
  Hypothesis HL : levelled b fs.
  Hypothesis Hfl : fl = any_flat b fs.

  Notation D T := (should_display b T fs).

  (** All nodes outside of [W] are displayed as they should be. *)
  Record kin (W : id -> Prop) (T : mtree) (s : ft) : Prop := {
    k_level : level root fl [] s;
    k_fs : filters s = fs;
    k_right : forall x, x <> root -> W x \/ is_displayed s x = D T x
  }.
  Notation fresh := (fun _ : id => False).

  Lemma kin_move : forall (W W' : id -> Prop) T T' s, kin W T s -> (forall x, x <> root -> W x -> W' x) -> (forall x, x <> root -> W' x \/ D T' x = D T x) -> kin W' T' s.
  Proof.
    intros W W' T T' s [L F R] H1 H2. constructor; auto. intros x Nx. destruct (R x Nx) as [|E]; auto. destruct (H2 x Nx) as [|E']; auto. right. congruence.
  Qed.
  Lemma kin_mono : forall (W W' : id -> Prop) T s, (forall x, W x -> W' x) -> kin W T s -> kin W' T s.
  Proof. intros W W' T s H K. eapply kin_move; eauto. Qed.
  Lemma kin_same : forall W T T' s, kin W T s -> (forall x, akin T T' x) -> kin W T' s.
  Proof. intros W T T' s K H. eapply kin_move; eauto. intros x _. right. apply display_akin; auto. Qed.
  Lemma kin_nodes : forall W T T' s, kin W T s -> nodes T' = nodes T -> kin W T' s.
  Proof.
    intros W T T' s K E. eapply kin_same; eauto. intros x. split; [apply datum_nodes; auto|]. split; [apply get_children_nodes; auto|].
    intros c _. apply datum_nodes; auto.
  Qed.

  (** What an event about [n] puts right. *)
  Definition heard (T : mtree) (n : id) (s : ft) (x : id) : Prop := x = n \/
    (has_node T n = true /\ In x (get_parents T n) /\ (is_displayed s n = false \/ (D T n = false /\ is_displayed s x = false))).

  Lemma kin_event : forall (W : id -> Prop) T n s, apt root T -> kin W T s ->
    fwp (external_modify ord b T n) (fun _ s' => kin (fun x => W x /\ ~ heard T n s x) T s') s.
  Proof.
    intros W T n s A K. destruct K as [L F R]. pose proof (a_reg _ _ A) as V. pose proof (level_root _ _ _ _ L) as Ro.
    assert (N : no_clash T s) by (split; [rewrite Ro; apply A|apply A]).
    assert (OL : one_level b T (filters s) root fl) by (rewrite F; apply levelled_one; auto).
    pose proof (level_event ord HO T b s n root fl (vreg_ok _ V) N L OL) as E. unfold fwp in *.
    destruct (external_modify ord b T n s) as [s' [[]|e|]] eqn:X; auto. destruct E as (L' & F' & _).
    unfold external_modify, update in X. change (shown b T s) with (should_display b T (filters s)) in X. rewrite F in X.
    pose proof (b_keys _ _ _ _ _ (l_base _ _ _ _ L)) as NK.
    constructor; auto; [congruence|]. intros x Nx.
    assert (Dec : heard T n s x \/ ~ heard T n s x).
    { unfold heard. destruct (id_dec x n) as [|Q1]; auto. destruct (has_node T n) eqn:Q2; [|right; intros [|[]]; [auto|discriminate]].
      destruct (In_dec_id x (get_parents T n)) as [Q3|Q3]; [|right; intros [|[_ []]]; auto].
      destruct (is_displayed s n) eqn:Q4; [|auto 6]. destruct (D T n) eqn:Q5; [right; intros [|(_ & _ & [|[]])]; auto; discriminate|].
      destruct (is_displayed s x) eqn:Q6; [right; intros [|(_ & _ & [|[]])]; auto; discriminate|auto 8]. }
    destruct Dec as [[->|(Hn & Hp & C)]|Nh].
    - right. apply (update_right ord T (D T) _ _ _ _ _ NK X). congruence.
    - right. assert (Nn : n <> root) by (intros ->; rewrite (a_root _ _ A) in Hn; discriminate).
      apply (update_parents ord T (D T) _ _ _ _ _ x NK X); auto; congruence.
    - destruct (R x Nx) as [Q|Q]; auto. right.
      eapply (moved_right (D T)); [eapply moves_eq; [apply moves_update|apply X]|auto|exact Q].
  Qed.
  Lemma kin_quiet : forall W T n s, apt root T -> kin W T s -> fwp (external_modify ord b T n) (fun _ s' => kin (fun x => W x /\ x <> n) T s') s.
  Proof.
    intros W T n s A K. eapply fwp_mono; [apply kin_event; eauto|]. intros ? s' K'. eapply kin_mono; [|apply K']. cbn beta. intros x [H1 H2]. split; auto.
    intros ->. apply H2. left. auto.
  Qed.

  (** A tree in which only the children of [p] differ. *)
  Lemma kin_edge : forall W T T' p s, apt root T -> apt root T' -> kin W T s -> (forall x, attrs T' x = attrs T x) ->
    (forall x, x <> p -> childs T' x = childs T x) -> kin (fun x => W x \/ x = p) T' s.
  Proof.
    intros W T T' p s A A' K Ha Hc. eapply kin_move; [apply K|auto|]. intros x _. destruct (id_dec x p) as [->|Nx]; auto. right. apply display_akin; auto.
    assert (Hd : forall c, datum T' c = datum T c) by (intros; apply datum_attrs; auto).
    split; auto. split; auto. rewrite !get_children_reg by (apply A || apply A'). rewrite Hc by auto. apply filter_ext. intros c. rewrite !datum_has, Hd. auto.
  Qed.
  Lemma kin_del_edge : forall W T T' p c s, apt root T -> apt root T' -> kin W T s -> nodes T' = nodes (del_edge p c T) -> kin (fun x => W x \/ x = p) T' s.
  Proof.
    intros W T T' p c s A A' K E. apply (kin_edge W T); auto.
    - intros x. rewrite <- (attrs_del_edge p c T). unfold attrs. rewrite E. auto.
    - intros x Nx. rewrite (childs_nodes (del_edge p c T)) by auto. rewrite childs_del_edge, (proj2 (eqb_neq x p)) by auto. auto.
  Qed.

  Lemma kin_atom : forall T T' es s, reg T -> apt root T -> atom T T' es -> kin fresh T s ->
    apt root T' /\ fwp (feed ord b es) (fun _ s' => kin fresh T' s') s.
  Proof.
    intros T T' es s RG A H K. pose proof (reg_atom _ _ _ RG H) as RG'.
    assert (A' : apt root T').
    { apply (reg_apt root T); auto. destruct H as [t' En Er Hp|n Hn|n v t' Hn E|p c t' Hp Hc Ha En Er Hpd|p c t' Hp Hc Hpc En Er Hpd]; auto; intros x.
      - apply has_node_nodes; auto.
      - subst. apply has_node_upd.
      - rewrite (has_node_nodes (add_edge p c T)) by auto. apply has_node_add_edge.
      - rewrite (has_node_nodes (del_edge p c T)) by auto. apply has_node_del_edge. }
    split; auto.
    destruct H as [t' En Er Hp|n Hn|n v t' Hn E|p c t' Hp Hc Ha En Er Hpd|p c t' Hp Hc Hpc En Er Hpd].
    - apply fwp_ret. eapply kin_nodes; eauto.
    - apply feed_one. eapply fwp_mono; [apply kin_quiet; eauto|]. intros ? s' K'. eapply kin_mono; [|apply K']. cbn beta. tauto.
    - assert (Hd : forall c, c <> n -> datum t' c = datum T c).
      { intros c Nc. subst t'. unfold datum. rewrite dget_upd, (proj2 (eqb_neq c n)) by auto. auto. }
      assert (Hh : forall x, has_node t' x = has_node T x) by (intros; subst; apply has_node_upd).
      assert (Hg : forall x, get_children t' x = get_children T x).
      { intros x. rewrite !get_children_reg by (apply A || apply A'). assert (Ec : childs t' x = childs T x).
        { subst t'. unfold childs. rewrite dget_upd. deq x n; auto. subst. destruct (dget n (nodes T)); auto. }
        rewrite Ec. apply filter_ext. auto. }
      assert (K0 : kin (fun x => x = n \/ (In n (get_children T x) /\ D t' x <> D T x)) t' s).
      { eapply kin_move; [apply K|intros ? ? []|]. intros x _. destruct (id_dec x n) as [|Nx]; auto.
        destruct (In_dec_id n (get_children T x)) as [I|NI].
        - destruct (bool_dec (D t' x) (D T x)); auto.
        - right. apply display_akin; auto. split; auto. split; auto. intros c Hc. apply Hd. intros ->. auto. }
      apply feed_one. eapply fwp_mono; [apply (kin_event _ t' n s A' K0)|]. intros ? s' K'. eapply kin_mono; [|apply K'].
      cbn beta. intros x [[->|[I Ne]] Nh]; [apply Nh; left; auto|]. apply Nh. destruct (id_dec x n) as [|Nx]; [left; auto|]. right.
      assert (Hn' : has_node t' n = true) by (rewrite Hh; auto).
      split; auto. split; [apply (vreg_sym t' x n (a_reg _ _ A') Hn'); rewrite Hg; auto|].
      assert (Hxr : x <> root).
      { intros ->. unfold get_children in I. pose proof (a_root _ _ A) as Q. unfold has_node, dmem in Q. destruct (dget root (nodes T)); [discriminate|destruct I]. }
      assert (Hnr : n <> root) by (intros ->; rewrite (a_root _ _ A) in Hn; discriminate).
      pose proof (k_right _ _ _ K n Hnr) as [[]|Dn]. pose proof (k_right _ _ _ K x Hxr) as [[]|Dx].
      destruct (is_displayed s n) eqn:En; auto. right. rewrite Dx. symmetry in Dn.
      assert (Q : D t' n = false).
      { destruct (D t' n) eqn:Q; auto. exfalso. apply Ne. apply (display_steady b fs T t' x n); auto. }
      split; auto. destruct (display_freed b fs T t' x n HC (Hd x Nx) (Hg x) I Dn) as [|Q']; auto. contradiction.
    - assert (K0 : kin (fun x => False \/ x = p) t' s).
      { apply (kin_edge _ T); auto.
        - intros x. rewrite <- (attrs_add_edge p c T). unfold attrs. rewrite En. auto.
        - intros x Nx. rewrite (childs_nodes (add_edge p c T)) by auto. rewrite childs_add_edge, (proj2 (eqb_neq x p)) by auto. auto. }
      apply feed_cons. eapply fwp_mono; [apply (kin_quiet _ t' p s A' K0)|]. intros ? s1 K1.
      apply feed_one. eapply fwp_mono; [apply (kin_quiet _ t' c s1 A' K1)|]. intros ? s2 K2. eapply kin_mono; [|apply K2]. cbn beta. tauto.
    - assert (K0 : kin (fun x => False \/ x = p) t' s) by (apply (kin_del_edge _ T t' p c); auto).
      apply feed_cons. eapply fwp_mono; [apply (kin_quiet _ t' p s A' K0)|]. intros ? s1 K1.
      apply feed_one. eapply fwp_mono; [apply (kin_quiet _ t' c s1 A' K1)|]. intros ? s2 K2. eapply kin_mono; [|apply K2]. cbn beta. tauto.
  Qed.

  Lemma kin_atoms : forall T T' es, atoms T T' es -> reg T -> apt root T -> forall s, kin fresh T s ->
    apt root T' /\ fwp (feed ord b es) (fun _ s' => kin fresh T' s') s.
  Proof.
    intros T T' es H. induction H as [|t1 e1 t2 e2 H1 IH H2]; intros RG A s Sy; [split; auto; apply fwp_ret; auto|].
    destruct (IH RG A s Sy) as (A1 & W1). assert (RG1 : reg t1) by (eapply reg_atoms; eauto).
    assert (X : forall s1, kin fresh t1 s1 -> apt root t2 /\ fwp (feed ord b e2) (fun _ s' => kin fresh t2 s') s1) by (intros s1 Sy1; apply (kin_atom t1 t2 e2 s1); auto).
    assert (Y : apt root t2).
    { unfold fwp in W1. destruct (feed ord b e1 s) as [s1 [[]|e|]]; try tauto. apply (X s1 W1). }
    split; auto. apply feed_app. eapply fwp_mono; [apply W1|]. intros ? s1 Sy1. apply X. auto.
  Qed.

  Lemma kin_add : forall n nd po T T' es s, reg T -> apt root T -> app_node n nd -> plain nd -> n <> "" -> n <> main_root ->
    n <> root -> ~ In n reserved -> unlisted_add T (AddNode n nd po) ->
    add_node n nd po T = (T', es, Ok tt) -> kin fresh T s ->
    apt root T' /\ fwp (feed ord b es) (fun _ s' => kin fresh T' s') s.
  Proof.
    intros n nd po T T' es s RG A An Pl N1 N2 N3 N4 Hu E K.
    destruct (has_node T n) eqn:Hn.
    { unfold add_node in E. rewrite bind_get, Hn in E. inv E. split; auto; apply fwp_ret; auto. }
    assert (RG' : reg T').
    { pose proof (reg_add n nd po T RG An Pl N1 N2 Hu) as H. unfold after, outcome in H. cbn [run_op] in H. rewrite E in H. simpl in H. auto. }
    destruct (add_node_spec true n nd po T (r_good _ RG) Hn An (fun _ => Hu Hn)) as (t3 & es' & r' & tg & E' & G3 & Gg & Gr & En & _ & [X|X]);
      rewrite E' in E; inv E; destruct X as (X & Ees & _); [discriminate|]. subst es. clear X.
    assert (HP : forall x, has_node T' x = String.eqb x n || has_node T x).
    { intros x. rewrite (has_node_nodes tg T') by auto. rewrite (grown_has _ _ _ x Gr). unfold put, has_node, dmem. simpl.
      rewrite dget_dset. destruct (String.eqb x n); auto. }
    assert (A' : apt root T').
    { constructor; [apply reg_vreg; auto| |].
      - rewrite HP, (proj2 (eqb_neq root n)) by auto. apply A.
      - intros x Hx. rewrite HP. deq x n; [congruence|]. apply A. auto. }
    split; auto.
    assert (Hd : forall x, x <> n -> datum T' x = datum T x).
    { intros x Nx. apply datum_attrs. transitivity (attrs tg x); [unfold attrs; rewrite En; auto|]. rewrite (grown_attrs _ _ _ _ Gr).
      unfold attrs, put. simpl. rewrite dget_dset, (proj2 (eqb_neq x n)) by auto. auto. }
    assert (Hg : forall x, x <> n -> ~ In n (get_children T' x) -> get_children T' x = get_children T x).
    { intros x Nx NI. rewrite !get_children_reg in * by (apply A || apply A').
      assert (NT : ~ In n (childs T x)) by (apply (Hu Hn)).
      assert (Pput : childs (put n nd T) x = childs T x).
      { unfold childs, put. simpl. rewrite dget_dset, (proj2 (eqb_neq x n)) by auto. auto. }
      assert (Ec : childs T' x = childs T x).
      { rewrite (childs_nodes tg T') by auto. destruct (grown_childs_other _ _ _ x Gr Nx) as [Q|[_ Q]]; rewrite Q, Pput; auto.
        exfalso. apply NI. rewrite (childs_nodes tg T') by auto. rewrite Q. apply filter_In. split; [apply in_app_iff; right; left; auto|].
        rewrite HP, eqb_refl. auto. }
      rewrite Ec. apply filter_ext_in. intros c Hc. rewrite HP. deq c n; auto. subst. contradiction. }
    assert (K0 : kin (fun x => x = n \/ In n (get_children T' x)) T' s).
    { eapply kin_move; [apply K|intros ? ? []|]. intros x _. destruct (id_dec x n) as [|Nx]; auto. destruct (In_dec_id n (get_children T' x)) as [|NI]; auto.
      right. apply display_akin; auto. split; auto. split; auto. intros c Hc. apply Hd. intros ->. apply NI. rewrite Hg; auto. }
    apply feed_one. eapply fwp_mono; [apply (kin_event _ T' n s A' K0)|]. intros ? s' K'. eapply kin_mono; [|apply K'].
    cbn beta. intros x [[->|I] Nh]; apply Nh; [left; auto|]. right.
    assert (Hn' : has_node T' n = true) by (rewrite HP, eqb_refl; auto).
    split; auto. split; [apply (vreg_sym T' x n (a_reg _ _ A') Hn'); auto|]. left.
    pose proof (k_right _ _ _ K n N3) as [[]|Dn]. rewrite Dn. unfold should_display. rewrite Hn, andb_false_r. auto.
  Qed.

  (** *** Deletions *)
  Lemma kin_unhook : forall n T s (U : id -> Prop), apt root T -> length (parents T n) <= 1 -> kin U T s -> (forall x, U x -> In x (parents T n)) ->
    apt root (detached n T) /\
    fwp (feed ord b (cut_events (evens (parents T n)) n (unmention n T))) (fun _ s' => kin fresh (detached n T) s') s.
  Proof.
    intros n T s U A Fn K HU.
    assert (A1 : apt root (unmention n T)).
    { apply (apt_nodes root T); auto. intros p c I. apply (apt_pend root T A). unfold unmention in I. simpl in I. apply filter_In in I. tauto. }
    assert (K1 : kin U (unmention n T) s) by (apply (kin_nodes U T); auto).
    unfold detached. destruct (parents T n) as [|p [|q l]] eqn:E; simpl in Fn; [| |lia]; cbn [evens cut cut_events].
    - split; auto. apply fwp_ret. eapply kin_mono; [|apply K1]. intros x Ux. destruct (HU x Ux).
    - assert (A2 := apt_del_edge root p n _ A1). split; auto.
      assert (K2 := kin_del_edge U (unmention n T) (del_edge p n (unmention n T)) p n s A1 A2 K1 eq_refl).
      apply feed_one. eapply fwp_mono; [apply (kin_quiet _ _ p s A2 K2)|]. intros ? s' K'. eapply kin_mono; [|apply K'].
      cbn beta. intros x [[Ux| ->] Np]; auto. destruct (HU x Ux) as [E'|[]]. congruence.
  Qed.

  Lemma kin_shed : forall n l T s, apt root T -> kin (eq n) T s ->
    apt root (shed n l T) /\ fwp (feed ord b (shed_events n l T)) (fun _ s' => kin (eq n) (shed n l T) s') s.
  Proof.
    intros n l. induction l as [|c l IH]; intros T s A K; simpl; [split; auto; apply fwp_ret; auto|].
    assert (A1 := apt_del_edge root n c T A).
    assert (K1 := kin_del_edge (eq n) T (del_edge n c T) n c s A A1 K eq_refl).
    pose proof (kin_quiet _ _ c s A1 K1) as W.
    unfold fwp in W. destruct (external_modify ord b (del_edge n c T) c s) as [s1 [[]|e|]] eqn:E1; try tauto.
    assert (A2 : apt root (shed1 n c T)).
    { apply (apt_nodes root (del_edge n c T)); auto; [apply nodes_shed1|]. pose proof (apt_pend root _ A1) as P.
      unfold shed1, orphan_root. destruct (parents (del_edge n c T) c); auto. }
    assert (K2 : kin (eq n) (shed1 n c T) s1).
    { apply (kin_nodes _ (del_edge n c T)); [|apply nodes_shed1]. eapply kin_mono; [|apply W]. cbn beta. intros x [[|] ?]; auto. }
    destruct (IH (shed1 n c T) s1 A2 K2) as (A3 & W3). split; auto.
    apply feed_cons. unfold fwp at 1. rewrite E1. auto.
  Qed.

  Lemma kin_pop : forall n T s, apt root T -> kin (eq n) T s -> parents T n = [] ->
    (forall x, has_node T x = true -> x <> n -> ~ In n (parents T x)) ->
    apt root (without n T) /\ fwp (external_modify ord b (without n T) n) (fun _ s' => kin fresh (without n T) s') s.
  Proof.
    intros n T s A K P0 HN. pose proof (vreg_ok _ (a_reg _ _ A)) as O. pose proof (ok_keys _ O) as ND.
    assert (Fr : MainRegDel.frame T (without n T)) by (apply (frame_pop n T (set_rootc (remove1 n (rootc T)) T)); auto).
    assert (A' : apt root (without n T)).
    { apply (apt_frame root T); auto.
      unfold without. apply (good_pop true n (set_rootc (remove1 n (rootc T)) T)).
      + apply goodx_set_rootc. apply (v_good _ (a_reg _ _ A)).
      + intros c. destruct (id_dec c n) as [|Nc]; auto. left. intros I. apply (HN c); auto. apply In_parents_live in I. auto. }
    split; auto.
    assert (Hd : forall x, x <> n -> datum (without n T) x = datum T x).
    { intros x Nx. unfold datum, without. simpl. rewrite dget_ddel, (proj2 (eqb_neq x n)) by auto. auto. }
    assert (K0 : kin (eq n) (without n T) s).
    { eapply kin_move; [apply K|auto|]. intros x _. destruct (id_dec n x) as [|Nx]; auto. right. apply display_akin; auto.
      assert (NI : ~ In n (get_children T x)).
      { intros I. assert (Hn : has_node T n = true) by (rewrite get_children_reg in I by apply A; apply filter_In in I; tauto).
        apply (vreg_sym T x n (a_reg _ _ A) Hn) in I. rewrite vreg_parents, P0 in I by apply A. destruct I. }
      split; auto. split; [|intros c Hc; apply Hd; intros ->; auto].
      rewrite !get_children_reg in * by (apply A || apply A'). rewrite childs_without, (proj2 (eqb_neq x n)) by auto.
      apply filter_ext_in. intros c Hc. destruct (id_dec c n) as [->|Nc]; [|rewrite !datum_has, Hd; auto].
      destruct (has_node T n) eqn:Hn.
      - exfalso. apply NI. apply filter_In. auto.
      - unfold without, has_node, dmem. simpl. rewrite dget_ddel, eqb_refl by auto. auto. }
    eapply fwp_mono; [apply (kin_quiet _ _ n s A' K0)|]. intros ? s' K'. eapply kin_mono; [|apply K']. cbn beta. intros x []. auto.
  Qed.

  Lemma parents_detached_single : forall n T, length (parents T n) <= 1 -> parents (detached n T) n = [].
  Proof.
    intros n T H. unfold detached. destruct (parents T n) as [|p [|q l]] eqn:E; simpl in H; [| |lia]; cbn [evens cut].
    - exact E.
    - rewrite parents_del_edge, eqb_refl. change (parents (unmention n T) n) with (parents T n). rewrite E. simpl. rewrite eqb_refl. auto.
  Qed.

  Lemma kin_del_one : forall n T T' es s, apt root T -> length (parents T n) <= 1 -> del_node n false T = (T', es, Ok tt) -> kin fresh T s ->
    apt root T' /\ fwp (feed ord b es) (fun _ s' => kin fresh T' s') s.
  Proof.
    intros n T T' es s A F E K. destruct (has_node T n) eqn:Hn.
    2:{ rewrite del_dead in E by auto. inv E. split; auto; apply fwp_ret; auto. }
    pose proof (v_good _ (a_reg _ _ A)) as G.
    assert (LC : forall c, In c (childs T n) -> has_node T c = true).
    { intros c Hc. destruct (has_node T c) eqn:X; auto. exfalso.
      assert (Q : snd (del_node n false T) = Err KeyError) by (apply (del_one_err true); auto; exists c; auto).
      rewrite E in Q. discriminate. }
    rewrite (del_one true) in E by auto. inv E.
    destruct (kin_unhook n T s _ A F K) as (A2 & W2); [intros x []|].
    unfold fwp in W2. destruct (feed ord b (cut_events (evens (parents T n)) n (unmention n T)) s) as [s1 [[]|e|]] eqn:E1; try tauto.
    destruct (kin_shed n (childs T n) (detached n T) s1 A2) as (A3 & W3); [eapply kin_mono; [|apply W2]; intros x []|].
    fold (shedded n T) in A3, W3.
    unfold fwp in W3. destruct (feed ord b (shed_events n (childs T n) (detached n T)) s1) as [s2 [[]|e|]] eqn:E2; try tauto.
    destruct (kin_pop n (shedded n T) s2 A3 W3) as (A4 & W4).
    { unfold shedded. rewrite parents_shed by apply (ok_ndc _ (g_ok _ _ _ G)). rewrite parents_detached_single by auto. destruct (mem n (childs T n)); auto. }
    { intros x Hx Nx. unfold shedded in Hx. rewrite has_node_shed, has_node_detached in Hx.
      rewrite (parents_shedded true) by auto. intros I. apply remove1_iff in I; [tauto|]. apply (ok_ndp _ (vreg_ok _ (a_reg _ _ A))). }
    split; auto. apply feed_app. unfold fwp at 1. rewrite E1. apply feed_app. unfold fwp at 1. rewrite E2.
    apply feed_one. auto.
  Qed.

  Section Rec.
    Variable T0 : mtree.
    Variable C : id -> Prop.
    Hypothesis C_down : forall p x, C p -> In p (parents T0 x) -> C x.
    Hypothesis C_one : forall x, C x -> length (parents T0 x) <= 1.

    Lemma C_slim : forall T x, MainRegDel.frame T0 T -> C x -> length (parents T x) <= 1.
    Proof.
      intros T x F H. destruct (has_node T x) eqn:Hl.
      - pose proof (frame_parents _ _ _ F Hl) as Sb. specialize (C_one x H).
        assert (length (parents T x) <= length (parents T0 x)); [|lia]. clear -Sb. induction Sb; simpl; lia.
      - unfold parents. rewrite has_node_none by auto. simpl. lia.
    Qed.

    Definition rec_kin (f : nat) : Prop := forall n T T' es s (U : id -> Prop), MainRegDel.frame T0 T -> C n -> apt root T ->
      remove_node f n true T = (T', es, Ok tt) -> kin U T s -> (forall x, U x -> has_node T n = true /\ In x (parents T n)) ->
      apt root T' /\ fwp (feed ord b es) (fun _ s' => kin fresh T' s') s.

    Lemma kin_children : forall f n l T1 T T' es s, rec_kin f -> MainRegDel.frame T0 T1 -> C n -> apt root T ->
      good true T1 -> MainRegDel.frame T1 T -> same_parents T1 T -> has_node T n = true ->
      (forall c, In c l -> has_node T1 c = true -> In n (parents T1 c)) ->
      for_each l (fun c => remove_node f c true) T = (T', es, Ok tt) -> kin (eq n) T s ->
      apt root T' /\ has_node T' n = true /\ same_parents T1 T' /\ MainRegDel.frame T1 T' /\
      (forall c, In c l -> has_node T' c = false) /\
      fwp (feed ord b es) (fun _ s' => kin (eq n) T' s') s.
    Proof.
      intros f n l T1. induction l as [|c l IH]; intros T T' es s HR F0 Cn A G0 F SP Hn Hl E H.
      { simpl in E. inv E. split; auto. split; auto. split; auto. split; auto. split; [simpl; tauto|]. apply fwp_ret. auto. }
      cbn [for_each] in E. unfold bind in E.
      destruct (remove_node f c true T) as [[T2 e1] [[]|e|]] eqn:E1; try discriminate.
      destruct (for_each l (fun c => remove_node f c true) T2) as [[T3 e2] r2] eqn:E2. inv E.
      pose proof (v_good _ (a_reg _ _ A)) as G.
      assert (He : has_node T "" = false) by apply (v_empty _ (a_reg _ _ A)).
      pose proof (remove_node_rec_rm true f c T G) as RM. unfold wp in RM. rewrite E1 in RM. destruct RM as (G1 & _ & _ & RM).
      destruct (RM eq_refl) as [Dead SP1]. clear RM.
      pose proof (framed_remove_node f c true T (ok_keys _ (g_ok _ _ _ G))) as FR. unfold wp in FR. rewrite E1 in FR.
      pose proof (remove_lost f c T G He) as LO. unfold wp in LO. rewrite E1 in LO.
      assert (F1 : MainRegDel.frame T T2) by (apply FR).
      assert (Step : apt root T2 /\ has_node T2 n = true /\ fwp (feed ord b e1) (fun _ s' => kin (eq n) T2 s') s).
      { destruct (has_node T c) eqn:Hc.
        - assert (Pc : In n (parents T c)).
          { rewrite SP by auto. apply Hl; [left; auto|]. eapply frame_has; eauto. }
          assert (Anc : anc T n c) by (eapply anc_step; [apply Pc|apply anc_refl]).
          assert (P1 : In n (parents T1 c)) by (rewrite <- SP; auto).
          assert (P0 : In n (parents T0 c)).
          { eapply subseq_In; [|apply P1]. apply (frame_parents _ _ _ F0). eapply frame_has; eauto. }
          destruct (HR c T T2 e1 s (eq n)) as (A1 & W1); auto.
          + eapply frame_trans; eauto.
          + apply (C_down n); auto.
          + intros x <-. auto.
          + split; auto. split.
            * destruct (has_node T2 n) eqn:X; auto. exfalso. pose proof (LO n Hn X) as Bad.
              assert (n = c) by (eapply (anc_antisym T); [apply (g_ok _ _ _ G)|apply Anc|apply Bad]). subst c.
              eapply ok_not_own_parent; [apply (g_ok _ _ _ G)|eauto].
            * eapply fwp_mono; [apply W1|]. intros ? s1 H1. eapply kin_mono; [|apply H1]. cbn beta. tauto.
        - assert (Nop : remove_node f c true T = (T, [], Ok tt)) by (destruct f; cbn [remove_node]; rewrite bind_get, Hc; reflexivity).
          rewrite Nop in E1. inv E1. split; auto; split; auto; apply fwp_ret; auto. }
      destruct Step as (A1 & Hn1 & W1).
      unfold fwp in W1. destruct (feed ord b e1 s) as [s1 [[]|e|]] eqn:Ef; try tauto.
      assert (SP' : same_parents T1 T2).
      { intros x Hx. rewrite SP1 by auto. apply SP. eapply frame_has; eauto. }
      destruct (IH T2 T' e2 s1 HR F0 Cn A1 G0) as (A2 & Hn2 & SP2 & F2 & Dead2 & W2); auto.
      { eapply frame_trans; eauto. }
      split; auto. split; auto. split; auto. split; auto. split.
      - intros x [<-|Hx]; auto. destruct (has_node T' c) eqn:X; auto. exfalso.
        pose proof (framed_for_each _ l (fun c => remove_node f c true) (fun x => framed_remove_node f x true) T2) as FF.
        unfold wp in FF. rewrite E2 in FF. destruct (FF (ok_keys _ (g_ok _ _ _ G1))) as [_ [FF' _]].
        simpl in FF'. apply (frame_has _ _ _ FF') in X. simpl in Dead. rewrite Dead in X by (left; auto). discriminate.
      - apply feed_app. unfold fwp at 1. rewrite Ef. auto.
    Qed.

    Lemma kin_remove : forall f, rec_kin f.
    Proof.
      induction f as [|f IH]; intros n T T' es s U F0 Cn A E H HU.
      { destruct (has_node T n) eqn:Hn.
        - rewrite (remove_node_unfold true) in E by (auto; apply (v_good _ (a_reg _ _ A))). discriminate.
        - cbn [remove_node] in E. rewrite bind_get, Hn in E. inv E. split; auto. apply fwp_ret.
          eapply kin_mono; [|apply H]. intros x Ux. destruct (HU x Ux). congruence. }
      destruct (has_node T n) eqn:Hn.
      2:{ cbn [remove_node] in E. rewrite bind_get, Hn in E. inv E. split; auto. apply fwp_ret.
          eapply kin_mono; [|apply H]. intros x Ux. destruct (HU x Ux). congruence. }
      pose proof (v_good _ (a_reg _ _ A)) as G. pose proof (C_slim T n F0 Cn) as SL.
      rewrite (remove_node_unfold true) in E by auto.
      destruct (kin_unhook n T s U A SL H) as (A2 & W2); [intros x Ux; apply (HU x Ux)|].
      unfold fwp in W2. destruct (feed ord b (cut_events (evens (parents T n)) n (unmention n T)) s) as [s1 [[]|e|]] eqn:E1; try tauto.
      unfold prefix, children_part in E. unfold bind in E.
      destruct (for_each (childs T n) (fun c => remove_node f c true) (detached n T)) as [[T1 e1] [[]|e|]] eqn:E2; try discriminate.
      assert (Gd : good true (detached n T)) by (apply good_detached; auto).
      assert (Fd : MainRegDel.frame T0 (detached n T)) by (eapply frame_trans; [apply F0|eapply frame_detached; eauto]).
      destruct (kin_children f n (childs T n) (detached n T) (detached n T) T1 e1 s1 IH Fd Cn A2 Gd) as (A3 & Hn3 & SP3 & Fr3 & Dead & W3); auto.
      { apply frame_refl. }
      { intros x Hx. auto. }
      { rewrite has_node_detached. auto. }
      { intros c Hc Hl. rewrite has_node_detached in Hl. assert (Pc : In n (parents T c)) by (apply listed_parent; auto; apply (v_empty _ (a_reg _ _ A))).
        rewrite parents_detached_other; auto. intros ->. eapply ok_not_own_parent; [apply (g_ok _ _ _ G)|eauto]. }
      { eapply kin_mono; [|apply W2]. intros x []. }
      rewrite tail_Ok in E by auto. fold (without n T1) in E. simpl in E. inv E.
      unfold fwp in W3. destruct (feed ord b e1 s1) as [s2 [[]|e|]] eqn:E3; try tauto.
      destruct (kin_pop n T1 s2 A3 W3) as (A4 & W4).
      { rewrite SP3 by auto. apply parents_detached_single. auto. }
      { intros x Hx Nx I. rewrite SP3 in I by auto. rewrite parents_detached_other in I by auto.
        assert (Hc : In x (childs T n)) by (apply (ok_sym _ (g_ok _ _ _ G)); auto). rewrite Dead in Hx by auto. discriminate. }
      fold (without n T1). split; auto. apply feed_app. unfold fwp at 1. rewrite E1.
      apply feed_app. unfold fwp at 1. rewrite E3.
      apply feed_one. auto.
    Qed.
  End Rec.

  Lemma kin_call : forall o T s, reg T -> apt root T -> calm T o -> single T o -> match o with AddNode n _ _ => n <> root /\ ~ In n reserved | _ => True end ->
    kin fresh T s -> apt root (after o T) /\ fwp (feed ord b (events o T)) (fun _ s' => kin fresh (after o T) s') s.
  Proof.
    intros o T s RG A (P & F & Un & St) Si X K. destruct (ordinary_cases o F) as [Ho|[(n & nd & p & ->)|(n & rc & ->)]].
    - pose proof (steps_run_op o Ho T RG) as W. unfold wp in W. unfold after, events in *. destruct (run_op o T) as [[T' es] q].
      simpl in *. apply (kin_atoms T T' es); auto.
    - destruct P as (An & P1 & P2 & N1 & N2). destruct X as [X1 X2]. simpl in St. unfold outcome in St. unfold after, events in *. cbn [run_op] in *.
      destruct (add_node n nd p T) as [[T' es] q] eqn:E. simpl in *. subst. apply (kin_add n nd p T T' es); auto. split; auto.
    - simpl in St. unfold outcome in St. unfold after, events in *. cbn [run_op] in *. destruct (del_node n rc T) as [[T' es] q] eqn:E.
      simpl in St. subst. destruct rc.
      + unfold del_node in E. rewrite bind_get in E. simpl fst in *. simpl snd in *.
        apply (kin_remove T (anc T n)) with (f := remove_budget T) (n := n) (T := T) (U := fresh); auto.
        * intros q x Hq Hp. eapply anc_step; eauto.
        * apply frame_refl.
        * apply anc_refl.
        * tauto.
      + apply (kin_del_one n T); auto.
  Qed.
End KinOp.
