(** Views: queued actions, iteration orders and announcements over whole histories. *)
From Coq Require Import Permutation.
From Verif Require Import Base BaseFacts MainTree Spec MainFacts MainInv MainReg MainRegDel MainTight Filters FTree SpecApi ApiFacts CountFacts
  SpecView SpecViewing FtBase FtWalk FtEdge FtUp FtFront FtDown FtNoop FtDel FtSync FtTree FtOps FtSent FtKeep FtState FtView FtThm FtSignals.
Open Scope f_scope.

Section Actions.
  Variable ord : nat -> list id -> list id.
  Hypothesis HO : forall k l, Permutation (ord k l) l.

  Definition ready (s : ft) : Prop := NoDup (dkeys (runonce s)) /\ idle s.

  Lemma viewing_step_idle : forall c t b s, current t b s -> supported (t, b, s) c -> mirrored s -> ready s ->
    let '(_, _, s') := fst (view_call ord c (t, b, s)) in ready s'.
  Proof.
    intros c t b s C X (cs & M1 & M2 & M3) [Nk Id].
    assert (Cases : (exists n a, c = VQueue n a) \/ forall n a, c <> VQueue n a) by (destruct c; eauto; right; discriminate).
    destruct Cases as [(n & a & ->)|Nq].
    - simpl in X. cbn [view_call]. destruct (waiting_queue n a s X) as [Q1 Q2]. destruct (is_displayed s n) eqn:E.
      + rewrite Q1 by auto. split; auto.
      + destruct (Q2 eq_refl) as (s' & E' & F1 & F2 & F3 & F4 & F5 & F6). rewrite E'. split; auto. intros m Hm.
        unfold is_displayed in Hm, E. rewrite F1 in Hm. destruct (id_dec m n) as [->|N]; [congruence|]. rewrite F6 by auto. apply Id. auto.
    - pose proof (obeys_call ord c t b s Nq) as O. destruct (current_call ord HO c t b s C X) as (s' & E & C' & _ & Ro). rewrite E in *. cbn [fst] in *.
      destruct (O Nk) as (Nk' & l & El & F). split; auto. intros n Hn. specialize (F n). destruct (waiting s n) as [|a acts] eqn:W; [apply F|].
      destruct F as [[_ F]|[F _]]; auto. exfalso.
      assert (ND : is_displayed s n = false) by (destruct (is_displayed s n) eqn:Y; auto; apply Id in Y; congruence).
      assert (Nr : n <> froot s).
      { intros ->. pose proof (so_root _ (synced_sound t b s (c_sync _ _ _ C))). congruence. }
      destruct (has_path (new_tree c t) (new_bank c b) s' n C') as (q & Hq).
      { apply all_nodes_In; [apply (synced_sound _ _ _ (c_sync _ _ _ C'))|]. rewrite Ro. auto. }
      destruct (current_base _ _ _ C') as (r & B). destruct (gb_knows _ _ _ _ _ (b_g _ _ _ _ _ B)) as (cs' & (N1 & _) & N2 & N3).
      apply N3 in Hq. rewrite El in N1. apply hear_split in N1. destruct N1 as (m & H1 & H2). rewrite (hear_all_det _ _ _ _ H1 M1) in H2.
      destruct (hear_adds _ _ _ _ _ H2 Hq) as [Hi|(x & Hx & Ax)]; [|apply F in Hx; tauto].
      apply M3 in Hi. destruct Hi as [_ Hi]. apply downward_app in Hi. destruct Hi as [_ [Hi _]].
      pose proof (proj1 (so_sym _ (synced_sound t b s (c_sync _ _ _ C)) _ _) Hi) as Hp. apply pars_disp in Hp. congruence.
  Qed.

  Lemma opened_ready : forall t b name names, welcome t b name -> ready (snd (opened ord t b name names)).
  Proof.
    intros t b name names W. unfold opened. cbn [snd]. set (s0 := set_filters names (new_ft name)).
    pose proof (obeys_call ord VRefilter t b s0 ltac:(discriminate)) as O. cbn [view_call] in O. destruct (refilter ord b t s0) as [s1 r].
    cbn [fst] in *. destruct O as (N & l & _ & F); [constructor|]. split; auto. intros n _. specialize (F n).
    change (waiting s0 n) with (@nil nat) in F. apply F.
  Qed.

  Lemma viewing_ready : forall x, viewing ord x -> ready (snd x).
  Proof.
    intros x H. induction H as [t b name names W|[[t b] s] c H IH X]; [apply opened_ready; auto|].
    pose proof (viewing_step_idle c t b s (viewing_current ord HO _ H) X (viewing_mirrored ord HO _ H) IH) as P.
    destruct (fst (view_call ord c (t, b, s))) as [[t' b'] s']. auto.
  Qed.

  Lemma viewing_actions : forall t b s c, viewing ord (t, b, s) -> supported (t, b, s) c -> (forall n a, c <> VQueue n a) ->
    let s' := snd (fst (view_call ord c (t, b, s))) in
    idle s /\ exists l, sent s' = sent s ++ l /\ forall n,
      (waiting s n = [] -> waiting s' n = [] /\ forall x, In x l -> ~ runs_of n x) /\
      (waiting s n <> [] -> (waiting s' n = waiting s n /\ is_displayed s' n = false /\ forall x, In x l -> ~ runs_of n x /\ ~ adds_of n x) \/
                            (waiting s' n = [] /\ delivered n (waiting s n) l)).
  Proof.
    intros t b s c V X Nq. destruct (viewing_ready _ V) as [Nk Id]. pose proof (viewing_ready _ (viewing_call ord _ c V X)) as [_ Id'].
    pose proof (obeys_call ord c t b s Nq) as O. destruct (fst (view_call ord c (t, b, s))) as [[t' b'] s']. cbn [snd] in *. split; auto.
    destruct (O Nk) as (_ & l & El & F). exists l. split; auto. intros n. specialize (F n). split; intros W.
    - rewrite W in F. auto.
    - destruct (waiting s n) as [|a acts] eqn:Wn; [contradiction|]. destruct F as [[F1 F2]|F]; [left|right; auto].
      split; auto. split; auto. destruct (is_displayed s' n) eqn:Y; auto. apply Id' in Y. congruence.
  Qed.

  Lemma viewing_queue : forall t b s n a, viewing ord (t, b, s) -> n <> "" ->
    (is_displayed s n = true -> queue_action n a s = (s, Ok true)) /\
    (is_displayed s n = false -> exists s', queue_action n a s = (s', Ok false) /\ fnodes s' = fnodes s /\ sent s' = sent s /\
      waiting s' n = waiting s n ++ [a] /\ forall m, m <> n -> waiting s' m = waiting s m).
  Proof.
    intros t b s n a _ Hn. destruct (waiting_queue n a s Hn) as [Q1 Q2]. split; auto. intros H.
    destruct (Q2 H) as (s' & E' & F1 & F2 & F3 & F4 & F5 & F6). exists s'. auto.
  Qed.
End Actions.

(** *** Iteration orders *)
Section Orders.
  Variable ord1 ord2 : nat -> list id -> list id.
  Hypothesis H1 : forall k l, Permutation (ord1 k l) l.
  Hypothesis H2 : forall k l, Permutation (ord2 k l) l.

  Definition twin (x y : viewed) : Prop :=
    let '(t, b, s) := x in let '(t', b', s') := y in
    t' = t /\ b' = b /\ froot s' = froot s /\ filters s' = filters s /\ current t b s /\ current t b s'.

  Lemma twin_supported : forall x y c, twin x y -> supported x c -> supported y c.
  Proof. intros [[t b] s] [[t' b'] s'] c (-> & -> & E1 & E2 & _) X. simpl in *. rewrite E1, E2. exact X. Qed.

  Lemma twin_call : forall x y c, twin x y -> supported x c -> twin (fst (view_call ord1 c x)) (fst (view_call ord2 c y)).
  Proof.
    intros [[t b] s] [[t' b'] s'] c T X. pose proof (twin_supported _ _ c T X) as X'. destruct T as (-> & -> & E1 & E2 & C1 & C2).
    destruct (current_call ord1 H1 c t b s C1 X) as (u & Eu & Cu & Fu & Ru). destruct (current_call ord2 H2 c t b s' C2 X') as (v & Ev & Cv & Fv & Rv).
    rewrite Eu, Ev. cbn [fst]. unfold twin. spl; auto; congruence.
  Qed.

  Lemma twin_calls : forall l x y, twin x y -> all_supported ord1 l x -> all_supported ord2 l y /\ twin (view_calls ord1 l x) (view_calls ord2 l y).
  Proof.
    induction l as [|c l IH]; simpl; intros x y T A; auto. destruct A as [X A]. pose proof (twin_call x y c T X) as T'.
    destruct (IH _ _ T' A). pose proof (twin_supported x y c T X). auto.
  Qed.

  Lemma orders_agree : forall t b name names l, welcome t b name -> all_supported ord1 l (opened ord1 t b name names) ->
    all_supported ord2 l (opened ord2 t b name names) /\
    let '(t1, b1, s1) := view_calls ord1 l (opened ord1 t b name names) in
    let '(t2, b2, s2) := view_calls ord2 l (opened ord2 t b name names) in
    t1 = t2 /\ b1 = b2 /\ filters s1 = filters s2 /\ same_set (view_all_nodes s1) (view_all_nodes s2) /\ forall n, pars s1 n = pars s2 n.
  Proof.
    intros t b name names l W A.
    assert (T : twin (opened ord1 t b name names) (opened ord2 t b name names)).
    { pose proof (opened_current ord1 H1 t b name names W) as P. pose proof (opened_current ord2 H2 t b name names W) as Q.
      destruct (opened ord1 t b name names) as [[t1 b1] s1]. destruct (opened ord2 t b name names) as [[t2 b2] s2].
      destruct P as (-> & -> & P1 & P2 & P3 & _). destruct Q as (-> & -> & Q1 & Q2 & Q3 & _). unfold twin. spl; auto; congruence. }
    destruct (twin_calls l _ _ T A) as [A' T']. split; auto.
    destruct (view_calls ord1 l (opened ord1 t b name names)) as [[t1 b1] s1]. destruct (view_calls ord2 l (opened ord2 t b name names)) as [[t2 b2] s2].
    destruct T' as (-> & -> & E1 & E2 & C1 & C2).
    pose proof (synced_nodes t1 b1 s1 (c_reg _ _ _ C1) (c_apt _ _ _ C1) (c_sync _ _ _ C1)) as (N1 & N1' & N1'').
    pose proof (synced_nodes t1 b1 s2 (c_reg _ _ _ C2) (c_apt _ _ _ C2) (c_sync _ _ _ C2)) as (N2 & N2' & N2'').
    assert (SN : forall n, In n (view_all_nodes s1) <-> In n (view_all_nodes s2)) by (intros n; rewrite N1'', N2'', E2; reflexivity).
    pose proof (synced_sound _ _ _ (c_sync _ _ _ C1)) as So1. pose proof (synced_sound _ _ _ (c_sync _ _ _ C2)) as So2.
    split; auto. split; auto. split; auto. split; [split; auto|]. intros n. destruct (In_dec_id n (view_all_nodes s1)) as [Hn|Hn].
    - destruct (synced_parents t1 b1 s1 (c_apt _ _ _ C1) (c_sync _ _ _ C1) n Hn) as [P1 P2].
      destruct (synced_parents t1 b1 s2 (c_apt _ _ _ C2) (c_sync _ _ _ C2) n (proj1 (SN n) Hn)) as [Q1 Q2]. rewrite E2 in Q1, Q2.
      destruct (any_flat b1 (filters s1)) eqn:F.
      + apply flat_spec in F. rewrite P1, Q1 by auto. congruence.
      + assert (NF : ~ flattened b1 (filters s1)) by (intros Y; apply flat_spec in Y; congruence). rewrite P2, Q2 by auto.
        unfold shown_parents. rewrite E1. rewrite (filter_ext _ (fun p => mem p (view_all_nodes s2))); auto.
        intros p. apply eq_true_iff_eq. rewrite !mem_In. apply SN.
    - assert (Hn' : ~ In n (view_all_nodes s2)) by (rewrite <- SN; auto).
      destruct (id_dec n (froot s1)) as [->|Nr]; [rewrite (so_top _ So1), <- E1, (so_top _ So2); auto|].
      assert (D1 : is_displayed s1 n = false).
      { destruct (is_displayed s1 n) eqn:Y; auto. destruct Hn. apply all_nodes_In; auto. apply So1. }
      assert (D2 : is_displayed s2 n = false).
      { destruct (is_displayed s2 n) eqn:Y; auto. destruct Hn'. apply all_nodes_In; [apply So2|]. rewrite E1. auto. }
      rewrite (proj2 (not_disp _ _ D1)), (proj2 (not_disp _ _ D2)). auto.
  Qed.
End Orders.
