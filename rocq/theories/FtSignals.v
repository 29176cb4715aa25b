(** Views: signals, queued actions and iteration orders over whole histories. *)
From Coq Require Import Permutation.
From Verif Require Import Base BaseFacts MainTree Spec MainFacts MainInv MainReg MainRegDel MainTight Filters FTree SpecApi ApiFacts CountFacts
  SpecView SpecViewing FtBase FtWalk FtEdge FtUp FtFront FtDown FtNoop FtDel FtSync FtTree FtOps FtSent FtKeep FtState FtView FtThm.
Open Scope f_scope.

(** *** Clients *)
Lemma hear_det : forall cs x c1 c2, hear cs x c1 -> hear cs x c2 -> c1 = c2.
Proof.
  intros cs x c1 c2 H1 H2. destruct H1; inversion H2; subst; auto;
    match goal with H : _ ++ [_] = _ ++ [_] |- _ => apply app_inj_tail in H; destruct H; subst; auto end.
Qed.

Lemma hear_all_nil : forall cs c, hear_all cs [] c -> c = cs.
Proof. intros cs c H. inversion H; auto. destruct l; discriminate. Qed.

Lemma hear_all_snoc : forall cs l x c, hear_all cs (l ++ [x]) c -> exists c1, hear_all cs l c1 /\ hear c1 x c.
Proof.
  intros cs l x c H. inversion H; [destruct l; discriminate|]. subst. apply app_inj_tail in H0. destruct H0; subst. eauto.
Qed.

Lemma hear_all_det : forall l cs c1 c2, hear_all cs l c1 -> hear_all cs l c2 -> c1 = c2.
Proof.
  induction l as [|x l IH] using rev_ind; intros cs c1 c2 H1 H2.
  - apply hear_all_nil in H1. apply hear_all_nil in H2. congruence.
  - apply hear_all_snoc in H1. apply hear_all_snoc in H2. destruct H1 as (d1 & A1 & B1). destruct H2 as (d2 & A2 & B2).
    rewrite (IH _ _ _ A2 A1) in B2. eapply hear_det; eauto.
Qed.

Lemma hear_split : forall b a cs c, hear_all cs (a ++ b) c -> exists m, hear_all cs a m /\ hear_all m b c.
Proof.
  induction b as [|x b IH] using rev_ind; intros a cs c H.
  - rewrite app_nil_r in H. exists c. split; auto. constructor.
  - rewrite app_assoc in H. apply hear_all_snoc in H. destruct H as (d & A & B). destruct (IH _ _ _ A) as (m & M1 & M2).
    exists m. split; auto. econstructor; eauto.
Qed.

Lemma hear_cong : forall cs x c1 ds, hear cs x c1 -> same_set cs ds -> exists d1, hear ds x d1 /\ same_set c1 d1.
Proof.
  intros cs x c1 ds H (N1 & N2 & E). destruct H.
  - exists (ds ++ [q ++ [n]]). split; [constructor; rewrite <- E; auto; destruct H0; auto; right; apply E; auto|].
    split; [apply NoDup_snoc; auto|]. split; [apply NoDup_snoc; auto; rewrite <- E; auto|].
    intros y. rewrite !in_app_iff, E. reflexivity.
  - exists (filter (fun p => negb (path_eqb p (q ++ [n]))) ds). split; [constructor; [apply E; auto|intros bl Hb; rewrite <- E; auto]|].
    split; [apply filter_NoDup; auto|]. split; [apply filter_NoDup; auto|]. intros y. rewrite !filter_In, E. reflexivity.
  - exists ds. split; [constructor; apply E; auto|]. split; auto.
  - exists ds. split; [constructor|]. split; auto.
Qed.

Lemma hear_all_cong : forall l cs c1 ds, hear_all cs l c1 -> same_set cs ds -> exists d1, hear_all ds l d1 /\ same_set c1 d1.
Proof.
  induction l as [|x l IH] using rev_ind; intros cs c1 ds H S.
  - apply hear_all_nil in H. subst. exists ds. split; auto. constructor.
  - apply hear_all_snoc in H. destruct H as (c & A & B). destruct (IH _ _ _ A S) as (d & D1 & D2).
    destruct (hear_cong _ _ _ _ B D2) as (e & E1 & E2). exists e. split; auto. econstructor; eauto.
Qed.

(** *** Signals are only added to those already sent *)
Definition longer (s s' : ft) : Prop := exists l, sent s' = sent s ++ l.
Lemma longer_refl : forall s, longer s s.
Proof. intros. exists []. rewrite app_nil_r. auto. Qed.
Lemma longer_trans : forall a b c, longer a b -> longer b c -> longer a c.
Proof. intros a b c (l & H) (l' & H'). exists (l ++ l'). rewrite H', H, app_assoc. auto. Qed.

(** A relation that holds across signals, with the actions they run, and across
    other changes of a view, holds across every call. *)
Section Respect.
  Variable R : ft -> ft -> Prop.
  Hypothesis Rrefl : forall s, R s s.
  Hypothesis Rtrans : forall a b c, R a b -> R b c -> R a c.
  Hypothesis Rsame : forall s s', sent s' = sent s -> runonce s' = runonce s -> R s s'.
  Hypothesis Radded : forall n p, keeps R (callback_added n p).
  Hypothesis Rdeleted : forall n p s, R s (send (SDeleted n p) s).
  Hypothesis Rmodified : forall n p s, R s (send (SModified n p) s).

  Lemma respect_call : forall ord c t b s, (forall n a, c <> VQueue n a) ->
    let '(_, _, s') := fst (view_call ord c (t, b, s)) in R s s'.
  Proof.
    intros ord c t b s Nq. 
    assert (Rn : forall d s, R s (set_fnodes d s)) by (intros; apply Rsame; auto).
    assert (Rb : forall s, R s (bump s)) by (intros; apply Rsame; auto).
    assert (Rf : forall d s, R s (set_flat d s)) by (intros; apply Rsame; auto).
    assert (Rl : forall d s, R s (set_filters d s)) by (intros; apply Rsame; auto).
    destruct c as [o|n p rs|n| | |n a|c]; cbn [view_call].
    - pose proof (keeps_feed R Rrefl Rtrans Radded Rdeleted Rmodified Rn Rb ord b (events o t) s) as H.
      destruct (feed ord b (events o t) s) as [s1 r]. exact H.
    - pose proof (keeps_apply R Rrefl Rtrans Radded Rdeleted Rmodified Rn Rb Rf Rl ord t n p rs true b s) as H.
      destruct (apply_filter ord t n p rs true b s) as [[b1 s1] r]. exact H.
    - pose proof (keeps_unapply R Rrefl Rtrans Radded Rdeleted Rmodified Rn Rb Rf Rl ord b t n true s) as H.
      destruct (unapply_filter ord b t n true s) as [s1 r]. exact H.
    - pose proof (keeps_reset R Rrefl Rtrans Radded Rdeleted Rmodified Rn Rb Rf Rl ord b t true s) as H.
      destruct (reset_filters ord b t true s) as [s1 r]. exact H.
    - pose proof (keeps_refilter R Rrefl Rtrans Radded Rdeleted Rmodified Rn Rb Rf ord b t s) as H.
      destruct (refilter ord b t s) as [s1 r]. exact H.
    - exfalso. eapply Nq. reflexivity.
    - apply Rrefl.
  Qed.
End Respect.

Lemma fold_runs : forall n acts s, fold_left (fun s a => send (SRun n a) s) acts s =
  mkFT (froot s) (fnodes s) (flat s) (filters s) (runonce s) (sent s ++ map (SRun n) acts) (tick s).
Proof.
  intros n acts. induction acts as [|a l IH]; intros s; simpl.
  - rewrite app_nil_r. destruct s; auto.
  - rewrite IH. unfold send. simpl. rewrite <- app_assoc. auto.
Qed.

Lemma longer_call : forall ord c t b s, let '(_, _, s') := fst (view_call ord c (t, b, s)) in longer s s'.
Proof.
  intros ord c t b s. destruct c as [o|n p rs|n| | |n a|c].
  6: { cbn [view_call]. unfold queue_action. destruct (negb (truthy n)); [apply longer_refl|]. destruct (is_displayed s n); simpl; exists []; rewrite app_nil_r; auto. }
  all: apply (respect_call longer); try discriminate.
  all: try apply longer_refl; try apply longer_trans.
  all: try (intros; exists []; rewrite app_nil_r; auto; fail).
  all: try (intros; eexists; reflexivity).
  all: intros m q s0; unfold callback_added; destruct (mem m reserved); [apply longer_refl|].
  all: destruct (dget m (runonce s0)) as [[|a0 l0]|]; cbn [fst]; try (eexists; reflexivity).
  all: destruct (is_displayed s0 m); [|apply longer_refl]; cbn [fst]; rewrite fold_runs; unfold send, set_runonce; cbn [sent]; exists (map (SRun m) (a0 :: l0) ++ [SAdded m q]); cbn [sent]; rewrite app_assoc; auto.
Qed.

Section Hist.
  Variable ord : nat -> list id -> list id.
  Hypothesis HO : forall k l, Permutation (ord k l) l.

  Lemma onward_viewing : forall x y, viewing ord x -> onward ord x y -> viewing ord y.
  Proof. intros x y V H. induction H; auto. apply viewing_call; auto. Qed.

  Lemma onward_longer : forall x y, onward ord x y -> exists l, sent (snd y) = sent (snd x) ++ l.
  Proof.
    intros x y H. induction H as [|[[t b] s] c H (l & IH) X]; [exists []; rewrite app_nil_r; auto|].
    pose proof (longer_call ord c t b s) as L. destruct (fst (view_call ord c (t, b, s))) as [[t' b'] s']. destruct L as (l' & E).
    cbn [snd] in *. exists (l ++ l'). rewrite E, IH, app_assoc. auto.
  Qed.

  Lemma viewing_mirrored : forall x, viewing ord x -> mirrored (snd x).
  Proof.
    intros [[t b] s] H. apply (viewing_current ord HO) in H. destruct (current_base _ _ _ H) as (r & B).
    destruct (gb_knows _ _ _ _ _ (b_g _ _ _ _ _ B)) as (cs & (K & _) & K1). exists cs. auto.
  Qed.

  Lemma viewing_signals : forall x y cs, viewing ord x -> onward ord x y ->
    NoDup cs -> (forall q, In q cs <-> view_path (snd x) q) ->
    exists l cs', sent (snd y) = sent (snd x) ++ l /\ hear_all cs l cs' /\ NoDup cs' /\ forall q, In q cs' <-> view_path (snd y) q.
  Proof.
    intros x y cs V H N E. destruct (viewing_mirrored x V) as (cx & X1 & X2 & X3).
    destruct (viewing_mirrored y (onward_viewing _ _ V H)) as (cy & Y1 & Y2 & Y3).
    destruct (onward_longer x y H) as (l & El). rewrite El in Y1. apply hear_split in Y1. destruct Y1 as (m & M1 & M2).
    rewrite (hear_all_det _ _ _ _ M1 X1) in M2. destruct (hear_all_cong l cx cy cs M2) as (d & D1 & D2 & D3 & D4).
    { split; auto. split; auto. intros q. rewrite X3, E. reflexivity. }
    exists l, d. split; auto. split; auto. split; auto. intros q. rewrite <- D4. apply Y3.
  Qed.
End Hist.

(** *** Queued actions *)
Definition fate (n : id) (acts acts' : list nat) (l : list sig) : Prop :=
  match acts with
  | [] => acts' = [] /\ forall x, In x l -> ~ runs_of n x
  | _ => (acts' = acts /\ forall x, In x l -> ~ runs_of n x /\ ~ adds_of n x) \/ (acts' = [] /\ delivered n acts l)
  end.

Definition obeys (s s' : ft) : Prop := NoDup (dkeys (runonce s)) -> NoDup (dkeys (runonce s')) /\
  exists l, sent s' = sent s ++ l /\ forall n, fate n (waiting s n) (waiting s' n) l.

Lemma fate_nil : forall n acts, fate n acts acts [].
Proof. intros n [|a l]; simpl; auto. Qed.

Lemma fate_app : forall n a b c l l', fate n a b l -> fate n b c l' -> fate n a c (l ++ l').
Proof.
  intros n a b c l l' H1 H2. destruct a as [|a0 a].
  - destruct H1 as [-> H1]. destruct H2 as [-> H2]. split; auto. intros x Hx. apply in_app_iff in Hx. destruct Hx; auto.
  - destruct H1 as [[-> H1]|[-> H1]].
    + destruct H2 as [[-> H2]|[-> (l1 & p & l2 & -> & A & B)]].
      * left. split; auto. intros x Hx. apply in_app_iff in Hx. destruct Hx; auto.
      * right. split; auto. exists (l ++ l1), p, l2. rewrite <- app_assoc. split; auto. split; auto.
        intros x Hx. apply in_app_iff in Hx. destruct Hx; auto.
    + destruct H2 as [-> H2]. right. split; auto. destruct H1 as (l1 & p & l2 & -> & A & B). exists l1, p, (l2 ++ l').
      split; [rewrite <- !app_assoc; auto|]. split; auto. intros x Hx. apply in_app_iff in Hx. destruct Hx; auto.
Qed.

Lemma fate_other : forall n acts l, (forall x, In x l -> ~ runs_of n x /\ ~ adds_of n x) -> fate n acts acts l.
Proof. intros n [|a acts] l H; simpl; [split; auto; intros; apply H; auto|left; auto]. Qed.

Lemma obeys_same : forall s s', sent s' = sent s -> runonce s' = runonce s -> obeys s s'.
Proof.
  intros s s' H1 H2 H. rewrite H2. split; auto. exists []. rewrite app_nil_r. split; auto. intros n. unfold waiting. rewrite H2. apply fate_nil.
Qed.
Lemma obeys_refl : forall s, obeys s s.
Proof. intros. apply obeys_same; auto. Qed.
Lemma obeys_trans : forall a b c, obeys a b -> obeys b c -> obeys a c.
Proof.
  intros a b c H1 H2 H. destruct (H1 H) as (N1 & l & E1 & F1). destruct (H2 N1) as (N2 & l' & E2 & F2). split; auto.
  exists (l ++ l'). split; [rewrite E2, E1, app_assoc; auto|]. intros n. eapply fate_app; eauto.
Qed.
Lemma obeys_send : forall x s, (forall n, ~ runs_of n x /\ (adds_of n x -> waiting s n = [])) -> obeys s (send x s).
Proof.
  intros x s H N. split; auto. exists [x]. split; auto. intros n. change (waiting (send x s) n) with (waiting s n).
  destruct (H n) as [H1 H2]. destruct (waiting s n) as [|a l] eqn:E.
  - split; auto. intros y [<-|[]]. auto.
  - left. split; auto. intros y [<-|[]]. split; auto. intros Hy. apply H2 in Hy. discriminate.
Qed.

Lemma obeys_added : forall n p, keeps obeys (callback_added n p).
Proof.
  intros n p s. unfold callback_added. destruct (mem n reserved); [apply obeys_refl|].
  destruct (dget n (runonce s)) as [[|a acts]|] eqn:E; cbn [fst].
  1, 3: apply obeys_send; intros m; split; auto; intros <-; unfold waiting; rewrite E; auto.
  destruct (is_displayed s n); [|apply obeys_refl]. cbn [fst]. rewrite fold_runs. intros N. cbn [runonce set_runonce send].
  split; [apply ddel_NoDup; auto|]. exists (map (SRun n) (a :: acts) ++ [SAdded n p]). split.
  { unfold send, set_runonce. cbn [sent]. rewrite app_assoc. auto. }
  intros m. unfold waiting. cbn [runonce set_runonce send]. rewrite dget_ddel by auto. deq m n.
  - subst. rewrite E. right. split; auto. exists [], p, []. split; auto.
  - apply fate_other. intros x Hx. apply in_app_iff in Hx. destruct Hx as [Hx|[<-|[]]].
    + apply in_map_iff in Hx. destruct Hx as (y & <- & _). simpl. split; auto.
    + simpl. split; auto.
Qed.

Lemma obeys_call : forall ord c t b s, (forall n a, c <> VQueue n a) -> let '(_, _, s') := fst (view_call ord c (t, b, s)) in obeys s s'.
Proof.
  intros ord c t b s N. apply (respect_call obeys); auto.
  - apply obeys_refl.
  - apply obeys_trans.
  - apply obeys_same.
  - apply obeys_added.
  - intros n p s0. apply obeys_send. intros m. split; auto. intros [].
  - intros n p s0. apply obeys_send. intros m. split; auto. intros [].
Qed.

Lemma waiting_queue : forall n a s, n <> "" ->
  (is_displayed s n = true -> queue_action n a s = (s, Ok true)) /\
  (is_displayed s n = false -> exists s', queue_action n a s = (s', Ok false) /\ fnodes s' = fnodes s /\ froot s' = froot s /\ sent s' = sent s /\
    (NoDup (dkeys (runonce s)) -> NoDup (dkeys (runonce s'))) /\
    waiting s' n = waiting s n ++ [a] /\ forall m, m <> n -> waiting s' m = waiting s m).
Proof.
  intros n a s Hn. assert (Tn : truthy n = true) by (destruct n; auto; contradiction). unfold queue_action. rewrite Tn. cbn [negb].
  split; intros ->; auto. eexists. split; [reflexivity|]. repeat split; auto.
  - intros H. simpl. apply dset_NoDup; auto.
  - unfold waiting. simpl. rewrite dget_dset, eqb_refl. auto.
  - intros m Hm. unfold waiting. simpl. rewrite dget_dset. rewrite (proj2 (eqb_neq m n)); auto.
Qed.

Lemma hear_adds : forall l cs c q n, hear_all cs l c -> In (q ++ [n]) c -> In (q ++ [n]) cs \/ exists x, In x l /\ adds_of n x.
Proof.
  induction l as [|x l IH] using rev_ind; intros cs c q n H Hi.
  - apply hear_all_nil in H. subst. auto.
  - apply hear_all_snoc in H. destruct H as (d & A & B). 
    assert (G : In (q ++ [n]) d \/ adds_of n x).
    { destruct B; auto.
      - apply in_app_iff in Hi. destruct Hi as [Hi|[Hi|[]]]; auto. right. apply app_inj_tail in Hi. simpl. tauto.
      - apply filter_In in Hi. left. tauto. }
    destruct G as [G|G]; [|right; exists x; split; auto; apply in_app_iff; right; left; auto].
    destruct (IH _ _ _ _ A G) as [|(y & Y1 & Y2)]; auto. right. exists y. split; auto. apply in_app_iff. auto.
Qed.

Section Actions.
  Variable ord : nat -> list id -> list id.
  Hypothesis HO : forall k l, Permutation (ord k l) l.

  (** Every node of an up-to-date view has a path. *)
  Lemma has_path : forall t b s n, current t b s -> In n (view_all_nodes s) -> exists q, view_path s (q ++ [n]).
  Proof.
    intros t b s n C. pose proof (synced_sound t b s (c_sync _ _ _ C)) as So. destruct So as [Kd Rd Td Sy Np Nk (r & Hr)].
    assert (G : forall k n, r n <= k -> In n (view_all_nodes s) -> exists q, downward (kids s) (froot s) (q ++ [n])).
    { induction k as [|k IH]; intros m Hm Hi.
      all: assert (P : exists p, In p (pars s m)).
      all: try (destruct (synced_parents t b s (c_apt _ _ _ C) (c_sync _ _ _ C) m Hi) as [P1 P2]; destruct (any_flat b (filters s)) eqn:F;
        [apply flat_spec in F; rewrite (P1 F); eexists; left; reflexivity|
         rewrite P2 by (intros X; apply flat_spec in X; congruence); unfold shown_parents; destruct (filter _ _) eqn:Ef; [eexists; left; reflexivity|exists i; left; auto]]).
      all: destruct P as (p & Hp); pose proof Hp as Hk; apply Sy in Hk; pose proof (Hr _ _ Hk).
      - lia.
      - destruct (id_dec p (froot s)) as [->|N]; [exists []; simpl; auto|].
        destruct (IH p) as (q & Hq); [lia|apply all_nodes_In; auto; split; auto; eapply kids_disp; eauto|].
        exists (q ++ [p]). apply downward_app. split; auto. simpl. rewrite last_last. auto. }
    intros Hn. destruct (G (r n) n (le_n _) Hn) as (q & Hq). exists q. split; auto. destruct q; discriminate.
  Qed.
End Actions.
