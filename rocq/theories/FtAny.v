(** Views: what a call does to any up-to-date view, whatever its past. *)
From Coq Require Import Permutation.
From Verif Require Import Base BaseFacts MainTree Spec MainFacts MainInv MainReg MainRegDel MainTight Filters FTree SpecApi ApiFacts CountFacts
  SpecView SpecViewing FtBase FtWalk FtEdge FtUp FtFront FtDown FtNoop FtDel FtSync FtTree FtOps FtSent FtKeep FtState FtView FtThm FtSignals FtQuiet.
Open Scope f_scope.

Lemma apply_pre : forall ord t n p rs rf b l s, apply_filter ord t n p rs rf b (pre l s) =
  (fst (fst (apply_filter ord t n p rs rf b s)), pre l (snd (fst (apply_filter ord t n p rs rf b s))), snd (apply_filter ord t n p rs rf b s)).
Proof.
  intros. unfold apply_filter.
  assert (G : forall b' should,
    let go s0 := (let s1 := if rs then set_filters [] s0 else s0 in let fresh := negb (mem n (filters s1)) in
      let s2 := if fresh then set_filters (filters s1 ++ [n]) s1 else s1 in
      if rf && (should || fresh) then match refilter ord b' t s2 with
        | (s3, Ok _) => (b', s3, Ok fresh) | (s3, Err e) => (b', s3, Err e) | (s3, Diverge) => (b', s3, Diverge) end
      else (b', s2, Ok fresh)) in
    go (pre l s) = (fst (fst (go s)), pre l (snd (fst (go s))), snd (go s))).
  { intros b' should go. unfold go. cbv zeta.
    replace (if rs then set_filters [] (pre l s) else pre l s) with (pre l (if rs then set_filters [] s else s)) by (destruct rs; auto).
    set (s1 := if rs then set_filters [] s else s). change (filters (pre l s1)) with (filters s1).
    replace (if negb (mem n (filters s1)) then set_filters (filters s1 ++ [n]) (pre l s1) else pre l s1)
      with (pre l (if negb (mem n (filters s1)) then set_filters (filters s1 ++ [n]) s1 else s1)) by (destruct (negb _); auto).
    set (s2 := if negb (mem n (filters s1)) then set_filters (filters s1 ++ [n]) s1 else s1).
    destruct (rf && _); auto. rewrite (blind_refilter ord b' t). destruct (refilter ord b' t s2) as [s3 [a|e|]]; auto. }
  cbv zeta in *. destruct p as [d|]; [destruct (get_filter b n) as [f|]|]; [apply G| |apply G].
  destruct rs; auto.
Qed.

Lemma vcall_pre : forall ord c t b l s, view_call ord c (t, b, pre l s) =
  (fst (fst (fst (view_call ord c (t, b, s)))), snd (fst (fst (view_call ord c (t, b, s)))), pre l (snd (fst (view_call ord c (t, b, s)))), snd (view_call ord c (t, b, s))).
Proof.
  intros ord c t b l s. destruct c as [o|n p rs|n| | |n a|c]; cbn [view_call].
  - rewrite (blind_feed ord b). destruct (feed ord b (events o t) s); auto.
  - rewrite apply_pre. destruct (apply_filter ord t n p rs true b s) as [[b1 s1] r]; auto.
  - rewrite (blind_unapply ord b). destruct (unapply_filter ord b t n true s); auto.
  - rewrite (blind_reset ord b). destruct (reset_filters ord b t true s); auto.
  - rewrite (blind_refilter ord b). destruct (refilter ord b t s); auto.
  - rewrite (blind_queue n a). destruct (queue_action n a s); auto.
  - auto.
Qed.

Section Any.
  Variable ord : nat -> list id -> list id.
  Hypothesis HO : forall k l, Permutation (ord k l) l.

  Lemma uptodate_call : forall c t b s, reg t -> no_clash t s -> local_bank b -> available b = [] -> NoDup (dkeys (custom b)) ->
    uptodate t b s -> supported (t, b, s) c ->
    exists s', view_call ord c (t, b, s) = (new_tree c t, new_bank c b, s', Ok tt) /\
      uptodate (new_tree c t) (new_bank c b) s' /\ no_clash (new_tree c t) s' /\ filters s' = new_filters c (filters s) /\ froot s' = froot s /\
      exists l, sent s' = sent s ++ l /\ forall cs, NoDup cs -> (forall q, In q cs <-> view_path s q) ->
        exists cs', hear_all cs l cs' /\ NoDup cs' /\ forall q, In q cs' <-> view_path s' q.
  Proof.
    intros c t b s R N L Ha Hk U X. destruct (uptodate_synced t b s R N U) as (l0 & Sy).
    set (s0 := pre l0 (unsent s)) in *.
    assert (C0 : current t b s0) by (constructor; auto; apply (no_clash_apt t s R N)).
    destruct (current_call ord HO c t b s0 C0) as (s1 & E & C1 & F & Ro); [destruct c; exact X|].
    pose proof (vcall_pre ord c t b (sent s) (unsent s)) as E2. rewrite pre_unsent in E2.
    unfold s0 in E. rewrite vcall_pre in E.
    pose proof (longer_call ord c t b s0) as Lg. unfold s0 in Lg. rewrite vcall_pre in Lg. 
    destruct (view_call ord c (t, b, unsent s)) as [[[t1 b1] u] r]. cbn [fst snd] in *. inv E.
    destruct Lg as (l & El). simpl in El. rewrite app_nil_r in El. apply app_inv_head in El.
    exists (pre (sent s) u). split; auto.
    assert (U1 : uptodate (new_tree c t) (new_bank c b) (pre l0 u)) by (apply synced_uptodate; apply C1).
    split; [apply (same_uptodate _ _ (pre l0 u)); auto|]. split; [split; [apply (a_root _ _ (c_apt _ _ _ C1))|apply (a_res _ _ (c_apt _ _ _ C1))]|].
    split; auto. split; auto. exists (sent u). split; auto. intros cs ND HC.
    destruct Sy as (r0 & _ & I & _). destruct (gb_knows _ _ _ _ _ (b_g _ _ _ _ _ (in_base _ _ _ _ _ _ _ I))) as (ds & (K1 & _) & K2 & K3).
    destruct (current_base _ _ _ C1) as (r1 & B1). destruct (gb_knows _ _ _ _ _ (b_g _ _ _ _ _ B1)) as (ds1 & (J1 & _) & J2 & J3).
    simpl in K1, J1. rewrite app_nil_r in K1. apply hear_split in J1. destruct J1 as (m & M1 & M2). rewrite (hear_all_det _ _ _ _ M1 K1) in M2.
    destruct (hear_all_cong _ _ _ cs M2) as (cs' & H1 & H2 & H3 & H4).
    - split; auto. split; auto. intros q. rewrite K3, HC. reflexivity.
    - exists cs'. split; auto. split; auto. intros q. rewrite <- H4, J3. unfold view_path, rooted. simpl. reflexivity.
  Qed.
End Any.
