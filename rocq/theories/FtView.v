(** Views: every supported call keeps a view up to date. *)
From Coq Require Import Permutation.
From Verif Require Import Base BaseFacts MainTree Spec MainFacts MainReg MainRegDel MainTight Filters FTree SpecApi ApiFacts CountFacts
  SpecView SpecViewing FtBase FtWalk FtEdge FtUp FtFront FtDown FtNoop FtDel FtSync FtTree FtOps FtSent.
Open Scope f_scope.

Ltac spl := repeat match goal with |- _ /\ _ => split end.

Lemma fwp_run : forall A (m : FM A) (Q : A -> ft -> Prop) s, fwp m Q s -> exists s' a, m s = (s', Ok a) /\ Q a s'.
Proof. intros A m Q s H. unfold fwp in H. destruct (m s) as [s' [a| |]]; [eauto|destruct H|destruct H]. Qed.

(** *** Filters of equal meaning *)
Lemma passes_ext : forall b b' t n names, (forall m, In m names -> get_filter b' m = get_filter b m) ->
  passes b' t names n = passes b t names n.
Proof.
  induction names as [|m l IH]; simpl; auto. intros H. rewrite (H m) by auto. rewrite IH by (intros; apply H; auto). auto.
Qed.

Lemma should_ext : forall b b' t names n, (forall m, In m names -> get_filter b' m = get_filter b m) ->
  should_display b' t names n = should_display b t names n.
Proof. intros. unfold should_display. rewrite (passes_ext b b'); auto. Qed.

Lemma any_flat_ext : forall b b' names, (forall m, In m names -> get_filter b' m = get_filter b m) ->
  any_flat b' names = any_flat b names.
Proof. induction names as [|m l IH]; simpl; auto. intros H. rewrite (H m), IH; auto. Qed.

Lemma sp_ext : forall T D D' root fl x, (forall y, D' y = D y) -> sp T D' root fl x = sp T D root fl x.
Proof. intros. unfold sp. rewrite (filter_ext _ _ H). auto. Qed.

Lemma insync_ext : forall T D D' root fl r U s, (forall y, D' y = D y) -> insync T D root fl r U s -> insync T D' root fl r U s.
Proof.
  intros T D D' root fl r U s H []. constructor; auto.
  - intros x Hx. rewrite H. apply in_stale. auto.
  - intros x. rewrite H. auto.
  - intros x. rewrite H, (sp_ext _ _ _ _ _ _ H). auto.
Qed.

(** Queued actions, signals sent so far and the clock do not matter. *)
Lemma insync_like : forall T D root fl r U s s', like s s' -> sent s' = sent s -> insync T D root fl r U s -> insync T D root fl r U s'.
Proof.
  intros T D root fl r U s s' L E []. constructor.
  - eapply base_like; eauto. eapply knows_sent; [apply E|]. apply (gb_knows _ _ _ _ _ (b_g _ _ _ _ _ in_base)).
  - intros x. rewrite (like_disp _ _ _ L). auto.
  - intros x. rewrite (like_disp _ _ _ L). auto.
  - intros x. rewrite (like_pars _ _ _ L). auto.
Qed.

Lemma local_bank_call : forall c b, local_bank b -> available b = [] -> NoDup (dkeys (custom b)) ->
  (match c with BAdd n f _ => local f /\ bang n = false | _ => True end) -> local_bank (bank_call c b).
Proof.
  intros c b L Ha Hk X m f. rewrite bank_get; auto; [|destruct c; tauto].
  destruct c as [n g d|n|n d].
  - destruct (get_filter b m) as [f0|] eqn:E; [intros H; inv H; eapply L; eauto|]. destruct (String.eqb n m); [|discriminate].
    intros H. inv H. apply X.
  - destruct (String.eqb n m); [discriminate|]. apply L.
  - destruct d as [d|]; [|apply L]. destruct (String.eqb n m); [|apply L]. destruct (get_filter b m) as [f0|] eqn:E; [|discriminate].
    simpl. intros H. inv H. simpl. eapply L; eauto.
Qed.

Section View.
  Variable ord : nat -> list id -> list id.
  Hypothesis HO : forall k l, Permutation (ord k l) l.

  Record current (t : mtree) (b : bank) (s : ft) : Prop := {
    c_reg : reg t;
    c_apt : apt (froot s) t;
    c_local : local_bank b;
    c_avail : available b = [];
    c_keys : NoDup (dkeys (custom b));
    c_sync : synced b (filters s) (froot s) (any_flat b (filters s)) t s
  }.

  Lemma refilter_live : forall t b s r0 fl0, reg t -> apt (froot s) t -> base r0 (froot s) fl0 (fun _ => True) s ->
    exists s', refilter ord b t s = (s', Ok tt) /\ synced b (filters s) (froot s) (any_flat b (filters s)) t s' /\
      filters s' = filters s /\ froot s' = froot s /\ @heeds (tree_ear t (sent s) (fun _ => True) (lonely t s)) s'.
  Proof.
    intros t b s r0 fl0 R A B. destruct (apt_ranks (froot s) t A) as (r & HR).
    assert (HF : forall x, D b (filters s) t x = true -> has_node t x = true /\ @fine (tree_ear t (sent s) (fun _ => True) (lonely t s)) x).
    { intros x Hx. destruct (apt_D b (filters s) (froot s) t A x Hx). split; auto. split; auto. }
    apply (base_ear any_ear (tree_ear t (sent s) (fun _ => True) (lonely t s))) in B; [|intros []; auto|apply heeds_tree].
    pose proof (rebuild_sync ord t (D b (filters s) t) (froot s) (any_flat b (filters s)) r HO R HR (a_root _ _ A) HF (fun _ => I) (fun H => proj1 H) r0 fl0 s B) as W.
    apply fwp_run in W. destruct W as (s' & [] & E & I & F). exists s'. split; [exact E|].
    pose proof (gb_root _ _ _ _ _ (b_g _ _ _ _ _ (in_base _ _ _ _ _ _ _ I))) as Ro. destruct (insync_heeds _ _ _ _ _ _ _ _ _ I) as (c0 & _ & Hh & _).
    spl; auto. exists r. split; auto. split; auto. apply (insync_ear (tree_ear t (sent s) (fun _ => True) (lonely t s))); auto; [intros []|]. apply heeds_any.
  Qed.

  Lemma refilter_synced : forall t b s r0 fl0, reg t -> apt (froot s) t -> base r0 (froot s) fl0 (fun _ => True) s ->
    exists s', refilter ord b t s = (s', Ok tt) /\ synced b (filters s) (froot s) (any_flat b (filters s)) t s' /\
      filters s' = filters s /\ froot s' = froot s.
  Proof.
    intros t b s r0 fl0 R A B. destruct (refilter_live t b s r0 fl0 R A B) as (s' & E & Sy & F & Ro & _). exists s'. auto.
  Qed.

  Lemma refilter_current : forall t b s r0 fl0, reg t -> apt (froot s) t -> base r0 (froot s) fl0 (fun _ => True) s ->
    local_bank b -> available b = [] -> NoDup (dkeys (custom b)) ->
    exists s', refilter ord b t s = (s', Ok tt) /\ current t b s' /\ filters s' = filters s /\ froot s' = froot s.
  Proof.
    intros t b s r0 fl0 R A B L Ha Hk. destruct (refilter_synced t b s r0 fl0 R A B) as (s' & E & Sy & F & Ro).
    exists s'. spl; auto. constructor; auto; [rewrite Ro; auto|]. rewrite F, Ro. auto.
  Qed.

  Lemma current_base : forall t b s, current t b s -> exists r, base r (froot s) (any_flat b (filters s)) (fun _ => True) s.
  Proof. intros t b s C. destruct (c_sync _ _ _ C) as (r & _ & I & _). exists r. apply I. Qed.

  Lemma base_filters : forall r root fl A fs s, base r root fl A s -> base r root fl A (set_filters fs s).
  Proof. intros r root fl A fs s []. constructor; auto. destruct b_g. constructor; auto. Qed.

  Definition new_filters (c : vcall) (fs : list id) : list id :=
    match c with
    | VApply n _ rs => let l := if rs then [] else fs in if mem n l then l else l ++ [n]
    | VUnapply n => remove1 n fs
    | VReset => []
    | _ => fs
    end.
  Definition new_bank (c : vcall) (b : bank) : bank :=
    match c with
    | VApply n (Some d) _ => bank_call (BParam n (Some d)) b
    | VBank c => bank_call c b
    | _ => b
    end.
  Definition new_tree (c : vcall) (t : mtree) : mtree := match c with VTree o => after o t | _ => t end.

  Lemma current_call : forall c t b s, current t b s -> supported (t, b, s) c ->
    exists s', view_call ord c (t, b, s) = (new_tree c t, new_bank c b, s', Ok tt) /\
      current (new_tree c t) (new_bank c b) s' /\ filters s' = new_filters c (filters s) /\ froot s' = froot s.
  Proof.
    intros c t b s C X. pose proof C as [R A L Ha Hk Sy]. destruct (current_base _ _ _ C) as (r & B).
    destruct c as [o|n p rs|n| | |n a|c]; cbn [view_call new_tree new_bank new_filters].
    - destruct X as [Cm X].
      destruct (sync_call ord b (filters s) (froot s) (any_flat b (filters s)) HO L o t s R A) as [A' W]; auto.
      { split; auto. }
      apply fwp_run in W. destruct W as (s' & [] & E & Sy'). exists s'. unfold events. rewrite E. split; auto.
      destruct Sy' as (r' & Hr' & I' & F'). pose proof (gb_root _ _ _ _ _ (b_g _ _ _ _ _ (in_base _ _ _ _ _ _ _ I'))) as Ro.
      spl; auto. constructor; auto.
      + apply reg_calm; auto.
      + rewrite Ro. auto.
      + rewrite F', Ro. exists r'. split; auto. split; auto.
    - assert (G : forall b' should, local_bank b' -> available b' = [] -> NoDup (dkeys (custom b')) ->
        (should = false -> b' = b) ->
        exists s', (let s1 := if rs then set_filters [] s else s in let fresh := negb (mem n (filters s1)) in
          let s2 := if fresh then set_filters (filters s1 ++ [n]) s1 else s1 in
          if true && (should || fresh) then match refilter ord b' t s2 with
            | (s3, Ok _) => (b', s3, Ok fresh) | (s3, Err e) => (b', s3, Err e) | (s3, Diverge) => (b', s3, Diverge) end
          else (b', s2, Ok fresh)) = (b', s', Ok (negb (mem n (filters (if rs then set_filters [] s else s))))) /\
          current t b' s' /\ filters s' = (if mem n (if rs then [] else filters s) then (if rs then [] else filters s) else (if rs then [] else filters s) ++ [n]) /\ froot s' = froot s).
      { intros b' should L' Ha' Hk' Eb. cbv zeta.
        set (s1 := if rs then set_filters [] s else s).
        assert (F1 : filters s1 = if rs then [] else filters s) by (unfold s1; destruct rs; auto).
        assert (B1 : base r (froot s1) (any_flat b (filters s)) (fun _ => True) s1 /\ froot s1 = froot s).
        { unfold s1. destruct rs; auto. split; auto. apply base_filters. auto. }
        destruct B1 as [B1 Ro1]. rewrite <- F1. destruct (mem n (filters s1)) eqn:M; cbn [negb].
        - destruct should; cbn [orb andb].
          + destruct (refilter_current t b' s1 r (any_flat b (filters s)) R) as (s' & E & C' & F & Ro); auto; [rewrite Ro1; auto|].
            exists s'. rewrite E. spl; auto. congruence.
          + rewrite Eb by auto. exists s1. split; auto. assert (s1 = s) as ->; [|auto].
            unfold s1 in *. destruct rs; auto. simpl in M. discriminate.
        - rewrite orb_true_r. cbn [andb].
          destruct (refilter_current t b' (set_filters (filters s1 ++ [n]) s1) r (any_flat b (filters s)) R) as (s' & E & C' & F & Ro); auto;
            [simpl; rewrite Ro1; auto|apply base_filters; auto|].
          exists s'. rewrite E. spl; auto. rewrite Ro. simpl. auto. }
      destruct p as [d|].
      + simpl in X. destruct (get_filter b n) as [f|] eqn:Ef; [|contradiction].
        destruct (G (bank_call (BParam n (Some d)) b) true) as (s' & E & P); auto; try discriminate.
        * apply local_bank_call; auto.
        * apply bank_available; auto.
        * apply bank_keys; auto.
        * exists s'. unfold apply_filter. rewrite Ef. cbn [bank_call] in *. cbv zeta in E. rewrite E. split; auto.
      + destruct (G b false) as (s' & E & P); auto. exists s'. unfold apply_filter. cbv zeta in E. rewrite E. split; auto.
    - unfold unapply_filter. unfold fbind, fget, fmodify. destruct (mem n (filters s)) eqn:M.
      + destruct (refilter_current t b (set_filters (remove1 n (filters s)) s) r (any_flat b (filters s)) R) as (s' & E & C' & F & Ro); auto.
        { apply base_filters; auto. }
        exists s'. rewrite E. simpl. spl; auto.
      + exists s. simpl. rewrite remove1_notin; [spl; auto|]. intros H. apply mem_In in H. congruence.
    - unfold reset_filters, fbind, fmodify.
      destruct (refilter_current t b (set_filters [] s) r (any_flat b (filters s)) R) as (s' & E & C' & F & Ro); auto.
      { apply base_filters; auto. }
      exists s'. rewrite E. spl; auto.
    - destruct (refilter_current t b s r (any_flat b (filters s)) R) as (s' & E & C' & F & Ro); auto.
      exists s'. rewrite E. spl; auto.
    - simpl in X. unfold queue_action. assert (Tn : truthy n = true) by (destruct n; auto; contradiction). rewrite Tn. simpl.
      destruct (is_displayed s n); [exists s; split; auto|]. eexists. split; [reflexivity|].
      split; [|auto]. destruct Sy as (r' & Hr & I & F). constructor; auto; try apply A. exists r'. split; auto. split; auto.
      eapply insync_like; [| |apply I]; auto. constructor; auto.
    - exists s. split; auto. split; [|auto].
      assert (EQ : forall m, In m (filters s) -> get_filter (bank_call c b) m = get_filter b m).
      { intros m Hm. rewrite bank_get; auto; [|destruct c; simpl in X; tauto]. destruct c as [k f d|k|k d]; simpl in X.
        - destruct (get_filter b m); auto. deq k m; auto. subst. tauto.
        - deq k m; auto. subst. contradiction.
        - destruct d; auto. deq k m; auto. subst. contradiction. }
      constructor; auto.
      + apply local_bank_call; auto. destruct c; simpl in X; tauto.
      + apply bank_available; auto.
      + apply bank_keys; auto.
      + rewrite (any_flat_ext b) by auto. destruct Sy as (r' & Hr & I & F). exists r'. split; auto. split; auto.
        eapply insync_ext; [|apply I]. intros y. apply should_ext. auto.
  Qed.

  Lemma new_ft_base : forall name r fl, base r (root_name name) fl (fun _ => True) (set_flat fl (new_ft name)).
  Proof.
    intros name r fl. set (root := root_name name). set (s3 := set_flat fl (new_ft name)).
    assert (Kd : forall x, kids s3 x = []) by (intros x; unfold kids, s3; simpl; destruct (String.eqb _ _); auto).
    assert (Pd : forall x, pars s3 x = []) by (intros x; unfold pars, s3; simpl; destruct (String.eqb _ _); auto).
    constructor; auto.
    - constructor; auto.
      + unfold is_displayed, dmem, s3. simpl. rewrite eqb_refl. auto.
      + intros p c. rewrite Kd. intros [].
      + intros x. rewrite Pd. constructor.
      + intros x p. rewrite Pd. intros [].
      + intros p c _. rewrite Kd, Pd. reflexivity.
      + exists []. split; [split; [constructor|apply heeds_any]|]. split; [constructor|]. intros l. split; [intros []|].
        intros [Hl Hd]. destruct l as [|z l]; [tauto|]. simpl in Hd. rewrite Kd in Hd. destruct Hd as [[] _].
      + intros [].
    - simpl. constructor; auto. constructor.
    - intros x. rewrite Kd. constructor.
  Qed.

  Lemma opened_current : forall t b name names, welcome t b name ->
    let '(t', b', s) := opened ord t b name names in
    t' = t /\ b' = b /\ current t b s /\ filters s = names /\ froot s = root_name name /\
    snd (refilter ord b t (set_filters names (new_ft name))) = Ok tt.
  Proof.
    intros t b name names (R & Ro & Re & L & Ha & Hk). unfold opened.
    assert (RG : reg t) by (apply reach_reg; auto).
    assert (Hk' : NoDup (dkeys (custom b))) by (unfold list_filters in Hk; rewrite Ha in Hk; exact Hk).
    destruct (refilter_current t b (set_filters names (new_ft name)) (fun _ => 0) false RG) as (s' & E & C & F & Rt); auto.
    - constructor; auto. apply reg_vreg; auto.
    - apply base_filters. apply (new_ft_base name (fun _ => 0) false).
    - rewrite E. simpl. spl; auto.
  Qed.

  Lemma viewing_current : forall x, viewing ord x -> let '(t, b, s) := x in current t b s.
  Proof.
    induction 1 as [t b name names W|[[t b] s] c H IH Hc].
    - pose proof (opened_current t b name names W) as P. destruct (opened ord t b name names) as [[t' b'] s]. destruct P as (-> & -> & C & _). auto.
    - destruct (current_call c t b s IH Hc) as (s' & E & C & _). rewrite E. simpl. auto.
  Qed.
End View.
