(** Views: paths, counts, the list of filters. *)
From Coq Require Import Permutation.
From Verif Require Import Base BaseFacts MainTree Spec MainFacts MainInv MainReg MainRegDel MainTight MainPaths Filters FTree SpecApi ApiFacts CountFacts
  SpecView SpecViewing FtBase FtWalk FtEdge FtUp FtFront FtDown FtNoop FtDel FtSync FtTree FtOps FtSent FtKeep FtState FtView FtThm FtSignals FtQuiet.
Open Scope f_scope.

(** ** Paths *)
Lemma sound_kids : forall s p c, sound s -> In c (kids s p) -> is_displayed s c = true /\ is_displayed s p = true /\ c <> froot s.
Proof.
  intros s p c So H. assert (H2 := proj1 (so_sym _ So p c) H). split; [|split].
  - unfold is_displayed, dmem. unfold pars in H2. destruct (dget c (fnodes s)); auto.
  - unfold is_displayed, dmem. unfold kids in H. destruct (dget p (fnodes s)); auto.
  - intros ->. rewrite (so_top _ So) in H2. destruct H2.
Qed.

Lemma sound_pars : forall s p c, sound s -> In p (pars s c) -> is_displayed s c = true /\ is_displayed s p = true.
Proof. intros s p c So H. apply (so_sym _ So) in H. destruct (sound_kids s p c So H) as (A & B & _). auto. Qed.

Lemma sound_paths : forall s n, sound s -> In n (view_all_nodes s) ->
  exists P, view_paths s n = Ok P /\ NoDup P /\ forall q, In q P <-> view_path s q /\ last q "" = n.
Proof.
  intros s n So Hn. apply all_nodes_In in Hn; [|apply So]. destruct Hn as [Hd Hr]. destruct (so_acyclic _ So) as (r & HR).
  destruct (view_paths_spec s (kids s) r (r n)) with (n := n) as (P & E & ND & I); auto.
  - intros x p _ _ Hp. split; [apply (sound_pars s p x So Hp)|]. apply (so_sym _ So) in Hp. auto.
  - intros. apply (so_ndp _ So).
  - intros. symmetry. apply (so_sym _ So).
  - exists P. split; auto. split; auto. intros q. rewrite I. unfold chain, view_path. split.
    + intros [H1 H2]. destruct q as [|x q]; [simpl in H2; congruence|]. split; [split; [discriminate|auto]|].
      rewrite <- H2. apply last_cons_any || (clear; revert x; induction q as [|y q IH]; intros; [reflexivity|apply (IH y)]).
    + intros [[H1 H2] H3]. split; auto. destruct q as [|x q]; [congruence|]. rewrite <- H3.
      clear; revert x; induction q as [|y q IH]; intros; [reflexivity|apply (IH y)].
Qed.

Lemma sound_last : forall s q, sound s -> view_path s q -> In (last q "") (view_all_nodes s).
Proof.
  intros s q So [H1 H2]. destruct (exists_last H1) as (q' & x & ->). rewrite last_snoc.
  apply downward_app in H2. destruct H2 as [_ H2]. simpl in H2. destruct H2 as [H2 _].
  apply sound_kids in H2; auto. apply all_nodes_In; [apply So|tauto].
Qed.

Lemma path_eqb_In : forall p l, existsb (path_eqb p) l = true <-> In p l.
Proof.
  intros p l. rewrite existsb_exists. split.
  - intros (x & H & E). apply path_eqb_eq in E. subst; auto.
  - intros H. exists p. split; auto. apply path_eqb_eq. auto.
Qed.

(** A node the view does not display has the one path []. *)
Lemma other_paths : forall s n, is_displayed s n = false \/ n = froot s -> view_paths s n = Ok [[]].
Proof.
  intros s n H. unfold view_paths. cbn [fpaths]. deq n (froot s); auto. destruct H as [H|]; [|contradiction].
  unfold is_displayed, dmem in H. destruct (dget n (fnodes s)); auto. discriminate.
Qed.

Lemma sound_lookup : forall s q, sound s ->
  exists r, view_node_for_path s q = Ok r /\ forall n, r = Some n <-> view_path s q /\ last q "" = n.
Proof.
  intros s q So. destruct q as [|x q0].
  - exists None. split; auto. intros n. split; [discriminate|]. intros [[H _] _]. destruct H; auto.
  - unfold view_node_for_path. set (q := x :: q0). set (m := last q "").
    destruct (in_dec id_dec m (view_all_nodes s)) as [Hm|Hm].
    + destruct (sound_paths s m So Hm) as (P & E & _ & I). cbv zeta. rewrite E. eexists. split; [reflexivity|]. intros n.
      destruct (existsb (path_eqb q) P) eqn:X.
      * apply path_eqb_In in X. apply I in X. split; [intros H; inv H; tauto|]. intros [_ <-]. auto.
      * split; [discriminate|]. intros [H _]. assert (Y : In q P) by (apply I; split; auto). apply path_eqb_In in Y. congruence.
    + assert (V : ~ view_path s q) by (intros V; apply Hm; apply sound_last; auto). cbv zeta.
      rewrite other_paths.
      * exists None. split; [reflexivity|]. intros n. split; [discriminate|]. tauto.
      * destruct (is_displayed s m) eqn:Dm; auto. right. destruct (id_dec m (froot s)); auto. exfalso. apply Hm. apply all_nodes_In; [apply So|auto].
Qed.

Lemma valid_chain_down : forall s q x, sound s -> is_displayed s x = true -> (valid_chain s (x :: q) = true <-> downward (kids s) x q).
Proof.
  intros s q. induction q as [|y q IH]; intros x So Hx; [simpl; tauto|].
  change (valid_chain s (x :: y :: q)) with (match dget x (fnodes s) with Some e => mem y (fchi e) && valid_chain s (y :: q) | None => false end).
  assert (K : kids s x = match dget x (fnodes s) with Some e => fchi e | None => [] end) by reflexivity.
  unfold is_displayed, dmem in Hx. destruct (dget x (fnodes s)) as [e|] eqn:E; [|discriminate].
  rewrite andb_true_iff, mem_In. cbn [downward]. rewrite K. split; intros [A B]; split; auto.
  - apply IH; auto. apply (sound_kids s x y So). rewrite K. auto.
  - apply IH; auto. apply (sound_kids s x y So). rewrite K. auto.
Qed.

Lemma sound_valid : forall s q, sound s -> (is_path_valid s (froot s :: q) = true <-> view_path s q).
Proof.
  intros s q So. unfold view_path. destruct q as [|y q].
  - simpl. split; [discriminate|]. intros [H _]. destruct H; auto.
  - rewrite <- (valid_chain_down s (y :: q) (froot s) So (so_root _ So)). change (is_path_valid s (froot s :: y :: q)) with (valid_chain s (froot s :: y :: q)).
    intuition discriminate.
Qed.

(** ** Counting children *)
Fixpoint chains_below (fuel : nat) (s : ft) (x : id) : list (list id) :=
  match fuel with
  | 0 => []
  | S f => flat_map (fun c => [c] :: map (cons c) (chains_below f s c)) (kids s x)
  end.

Lemma chains_below_In : forall f s x q, In q (chains_below f s x) -> q <> [] /\ downward (kids s) x q.
Proof.
  induction f as [|f IH]; intros s x q; [intros []|]. simpl. rewrite in_flat_map. intros (c & Hc & [<-|Hq]).
  - split; [discriminate|simpl; auto].
  - apply in_map_iff in Hq. destruct Hq as (q' & <- & Hq). apply IH in Hq. split; [discriminate|simpl; tauto].
Qed.

Section Count.
  Variable s : ft.
  Variable r : id -> nat.
  Hypothesis So : sound s.
  Hypothesis HR : forall p c, In c (kids s p) -> r p < r c.
  Definition above (x : id) : nat := length (filter (fun y => Nat.ltb (r x) (r y)) (dkeys (fnodes s))).
  Lemma above_lt : forall p c, In c (kids s p) -> above c < above p.
  Proof.
    intros p c H. unfold above. apply filter_length_lt with (p := c).
    - intros x Hx. apply Nat.ltb_lt in Hx. apply Nat.ltb_lt. apply HR in H. lia.
    - apply dmem_In. apply (sound_kids s p c So H).
    - apply Nat.ltb_irrefl.
    - apply Nat.ltb_lt. auto.
  Qed.
  Lemma above_le : forall x, above x <= length (fnodes s).
  Proof.
    intros n. unfold above. rewrite <- dkeys_length. generalize (dkeys (fnodes s)) as l.
    induction l as [|a l IH]; simpl; auto. destruct (r n <? r a); simpl; lia.
  Qed.

  Lemma chains_complete : forall f x q, above x < f -> q <> [] -> downward (kids s) x q -> In q (chains_below f s x).
  Proof.
    induction f as [|f IH]; intros x q Hf Hq Hd; [lia|]. destruct q as [|c q]; [congruence|]. destruct Hd as [Hc Hd].
    simpl. apply in_flat_map. exists c. split; auto. destruct q as [|d q]; [left; auto|]. right. apply in_map.
    apply IH; auto; [|discriminate]. apply above_lt in Hc. lia.
  Qed.

  Lemma chains_NoDup : forall f x, NoDup (chains_below f s x).
  Proof.
    induction f as [|f IH]; intros x; [constructor|]. simpl. generalize (so_ndk _ So x). generalize (kids s x) as l.
    induction l as [|c l IHl]; intros ND; [constructor|]. apply NoDup_cons_iff in ND. destruct ND as [N1 N2].
    change (flat_map (fun c => [c] :: map (cons c) (chains_below f s c)) (c :: l)) with
      (([c] :: map (cons c) (chains_below f s c)) ++ flat_map (fun c => [c] :: map (cons c) (chains_below f s c)) l).
    apply NoDup_app_intro; auto.
    - constructor.
      + rewrite in_map_iff. intros (q & E & Hq). inv E. apply chains_below_In in Hq. tauto.
      + apply FinFun.Injective_map_NoDup; auto. intros a b E. inv E. auto.
    - intros q Hq H2. apply in_flat_map in H2. destruct H2 as (d & Hd & H2).
      assert (exists q', q = c :: q') as (q1 & E1).
      { destruct Hq as [<-|Hq]; [eauto|]. apply in_map_iff in Hq. destruct Hq as (q' & <- & _). eauto. }
      assert (exists q', q = d :: q') as (q2 & E2).
      { destruct H2 as [<-|Hq2]; [eauto|]. apply in_map_iff in Hq2. destruct Hq2 as (q' & <- & _). eauto. }
      congruence.
  Qed.

  Lemma count_chains : forall f x, above x < f -> count_below f s x = Ok (length (chains_below f s x)).
  Proof.
    induction f as [|f IH]; intros x Hf; [lia|]. cbn [count_below chains_below].
    assert (K : kids s x = match dget x (fnodes s) with Some e => fchi e | None => [] end) by reflexivity.
    destruct (dget x (fnodes s)) as [e|]; [|rewrite K; auto]. rewrite <- K.
    assert (G : forall c, In c (kids s x) -> above c < f) by (intros c Hc; apply above_lt in Hc; lia).
    clear K. revert G. generalize (kids s x) as l. induction l as [|c l IHl]; intros G; auto.
    rewrite IH by (apply G; left; auto). rewrite IHl by (intros; apply G; right; auto).
    cbn [flat_map]. rewrite app_length. cbn [length]. rewrite map_length. f_equal. lia.
  Qed.
End Count.

Definition or_root (s : ft) (n : option id) : id := match n with None => froot s | Some x => x end.

Lemma sound_count : forall s n, sound s ->
  exists L, NoDup L /\ (forall q, In q L <-> q <> [] /\ downward (kids s) (or_root s n) q) /\ view_n_children s n true = Ok (length L).
Proof.
  intros s n So. destruct (so_acyclic _ So) as (r & HR). set (x := or_root s n).
  pose proof (above_le s r x) as L.
  exists (chains_below (S (S (length (fnodes s)))) s x). split; [apply chains_NoDup; auto|]. split.
  - intros q. split; [apply chains_below_In|]. intros [A B]. apply (chains_complete s r So HR); auto. lia.
  - unfold view_n_children. apply (count_chains s r So HR). lia.
Qed.

Lemma direct_count : forall s n, view_n_children s n false = Ok (length (kids s (or_root s n))).
Proof. intros s n. unfold view_n_children, kids. fold (or_root s n). destruct (dget (or_root s n) (fnodes s)); auto. Qed.

(** ** Counting with more filters *)
Lemma view_nodes_spec : forall b t s names, sound s ->
  view_nodes b t s names = filter (fun n => forallb (fun name =>
    match get_filter b name with Some f => filt_displayed t f n | None => true end) names) (view_all_nodes s).
Proof.
  intros b t s names So. unfold view_nodes, view_all_nodes. destruct names as [|a l].
  - simpl. symmetry. clear. induction (remove1 (froot s) (dkeys (fnodes s))) as [|x m IH]; auto. simpl. f_equal. auto.
  - rewrite BaseFacts.remove1_filter by apply So. set (names := a :: l). clearbody names. clear a l.
    assert (E : forall n, forallb (fun f => filt_displayed t f n) (flat_map (fun name => match get_filter b name with Some f => [f] | None => [] end) names) =
      forallb (fun name => match get_filter b name with Some f => filt_displayed t f n | None => true end) names).
    { intros n. induction names as [|a l IH]; auto. simpl. rewrite forallb_app, IH. destruct (get_filter b a); simpl; auto. rewrite andb_true_r. auto. }
    cbv zeta. induction (dkeys (fnodes s)) as [|x m IH]; auto. simpl. rewrite IH, E.
    destruct (String.eqb x (froot s)); simpl; auto. 
Qed.

Lemma filt_sat : forall t f n, has_node t n = true ->
  filt_displayed t f n = xorb (f_fun f t n (f_dic f)) (match f_dic f with Some d => p_negate d | None => false end).
Proof.
  intros t f n H. unfold filt_displayed. rewrite H. destruct (f_dic f) as [d|]; [destruct (p_negate d)|]; destruct (f_fun f t n _); auto.
Qed.

(** ** The list of filters *)
Lemma filters_sends : forall n acts s, filters (fold_left (fun s a => send (SRun n a) s) acts s) = filters s.
Proof. induction acts as [|a l IH]; intros; auto. simpl. rewrite IH. auto. Qed.

Lemma refilter_filters : forall ord b t s, filters (fst (refilter ord b t s)) = filters s.
Proof.
  intros ord b t s. symmetry. apply (keeps_refilter (fun s s' => filters s = filters s')); auto; try congruence.
  intros n p x. unfold callback_added. destruct (mem n reserved); auto. destruct (dget n (runonce x)) as [[|a l]|]; auto.
  destruct (is_displayed x n); auto. simpl. rewrite filters_sends. auto.
Qed.

Lemma known_set : forall b n d m, get_filter b m <> None -> get_filter (bank_set_parameters n d b) m <> None.
Proof.
  intros b n d m H. unfold bank_set_parameters, get_filter in *. destruct (dget n (available b)) as [f|] eqn:E1; [|destruct (dget n (custom b)) as [f|] eqn:E2]; simpl; auto.
  - destruct (id_dec m n) as [->|N]; [rewrite dget_dset_same; discriminate|rewrite dget_dset_other by auto; auto].
  - destruct (dget m (available b)) eqn:E3; auto. destruct (id_dec m n) as [->|N]; [rewrite dget_dset_same; discriminate|rewrite dget_dset_other by auto; auto].
Qed.

Lemma filters_history : forall ord t l b name, (forall n d rs rf, In (FApply n (Some d) rs rf) l -> get_filter b n <> None) ->
  let x := fold_left (filter_call ord t) l (b, new_ft name) in
  NoDup (filters (snd x)) /\ (forall n, In n (filters (snd x)) <-> applied (rev l) n) /\ (forall n, get_filter b n <> None -> get_filter (fst x) n <> None).
Proof.
  intros ord t l b name. induction l as [|c l IH] using rev_ind; intros K.
  - simpl. split; [constructor|]. tauto.
  - rewrite fold_left_app, rev_unit. cbn [fold_left]. set (x := fold_left (filter_call ord t) l (b, new_ft name)) in *.
    destruct IH as (ND & I & Kn); [intros; eapply K; apply in_or_app; left; eauto|].
    destruct x as [b1 s1]. cbn [fst snd] in *. cbv zeta. destruct c as [n p rs rf|n rf|rf]; cbn [filter_call applied].
    + set (s2 := if rs then set_filters [] s1 else s1).
      assert (E2 : NoDup (filters s2) /\ forall m, In m (filters s2) <-> rs = false /\ applied (rev l) m).
      { unfold s2. destruct rs; simpl; [split; [constructor|]|split; auto]; [intuition discriminate|]. intros m. rewrite I. intuition. }
      assert (G : forall b0 sh, (forall m, get_filter b m <> None -> get_filter b0 m <> None) -> forall y, y = (
          let fresh := negb (mem n (filters s2)) in
          let s3 := if fresh then set_filters (filters s2 ++ [n]) s2 else s2 in
          if rf && (sh || fresh) then
            match refilter ord b0 t s3 with (s4, Ok _) => (b0, s4, Ok fresh) | (s4, Err e) => (b0, s4, Err e) | (s4, Diverge) => (b0, s4, Diverge) end
          else (b0, s3, Ok fresh)) ->
        NoDup (filters (snd (fst y))) /\ (forall m, In m (filters (snd (fst y))) <-> m = n \/ rs = false /\ applied (rev l) m) /\
        (forall m, get_filter b m <> None -> get_filter (fst (fst y)) m <> None)).
      { intros b0 sh Kb y ->. cbv zeta. set (s3 := if negb (mem n (filters s2)) then set_filters (filters s2 ++ [n]) s2 else s2).
        assert (E3 : NoDup (filters s3) /\ forall m, In m (filters s3) <-> m = n \/ rs = false /\ applied (rev l) m).
        { unfold s3. destruct E2 as [N2 I2]. destruct (mem n (filters s2)) eqn:M; simpl.
          - apply mem_In in M. split; auto. intros m. rewrite I2. apply I2 in M. split; auto. intros [->|]; auto.
          - split.
            + apply NoDup_app_intro; auto; [repeat constructor; simpl; tauto|]. intros z Hz [<-|[]]. apply mem_In in Hz. congruence.
            + intros m. rewrite in_app_iff, I2. simpl. intuition. }
        assert (F3 : filters (fst (refilter ord b0 t s3)) = filters s3) by apply refilter_filters.
        destruct (rf && (sh || negb (mem n (filters s2)))).
        - destruct (refilter ord b0 t s3) as [s4 [| |]]; cbn [fst snd] in *; rewrite F3; split; try apply E3; split; try apply E3; auto.
        - cbn [fst snd]. split; try apply E3; split; try apply E3; auto. }
      unfold apply_filter. fold s2. destruct p as [d|].
      * destruct (get_filter b1 n) eqn:E.
        -- apply (G (bank_set_parameters n (Some d) b1) true); auto. intros m Hm. apply known_set. auto.
        -- exfalso. apply (Kn n); auto. eapply K. apply in_or_app. right. left. reflexivity.
      * apply (G b1 false); auto.
    + assert (E : filters (fst (unapply_filter ord b1 t n rf s1)) = if mem n (filters s1) then remove1 n (filters s1) else filters s1).
      { unfold unapply_filter, fbind, fget, fret, fmodify. destruct (mem n (filters s1)); auto. destruct rf; auto.
        pose proof (refilter_filters ord b1 t (set_filters (remove1 n (filters s1)) s1)) as F.
        destruct (refilter ord b1 t (set_filters (remove1 n (filters s1)) s1)) as [s4 [| |]]; auto. }
      cbn [fst snd]. rewrite E. destruct (mem n (filters s1)) eqn:M.
      * split; [apply remove1_NoDup; auto|]. split; auto. intros m. rewrite remove1_iff by auto. rewrite I. tauto.
      * split; auto. split; auto. intros m. rewrite I. split; [|tauto]. intros H. split; auto. intros ->. apply I in H. apply mem_In in H. congruence.
    + assert (E : filters (fst (reset_filters ord b1 t rf s1)) = []).
      { unfold reset_filters, fbind, fmodify. destruct rf; auto. apply refilter_filters. }
      cbn [fst snd]. rewrite E. simpl. split; [constructor|]. tauto.
Qed.

Lemma satisfying_set : forall b t l1 l2, (forall n, In n l1 <-> In n l2) -> satisfying b t l1 = satisfying b t l2.
Proof.
  intros b t l1 l2 H. unfold satisfying. apply filter_ext. intros n. apply eq_true_iff_eq. rewrite !forallb_forall. 
  split; intros G x Hx; apply G; apply H; auto.
Qed.

Lemma satisfying_unknown : forall b t l n, In n l -> get_filter b n = None -> satisfying b t l = [].
Proof.
  intros b t l n H E. unfold satisfying. induction (get_all_nodes t) as [|x m IH]; auto. cbn [filter].
  match goal with |- (if ?c then _ else _) = _ => destruct c eqn:X end; auto. rewrite forallb_forall in X. specialize (X n H). rewrite E in X. discriminate.
Qed.

(** ** The calls that rebuild *)
Section Rebuild.
  Variable ord : nat -> list id -> list id.
  Hypothesis HO : forall k l, Permutation (ord k l) l.

  Lemma rebuilding_uptodate : forall t b s c, reg t -> no_clash t s -> sound s -> proper s ->
    supported (t, b, s) c -> rebuilding s c ->
    exists b' s', view_call ord c (t, b, s) = (t, b', s', Ok tt) /\ uptodate t b' s'.
  Proof.
    intros t b s c R N So Pr Su Rb.
    assert (G : forall b0 s0, froot s0 = froot s -> fnodes s0 = fnodes s -> exists s', refilter ord b0 t s0 = (s', Ok tt) /\ uptodate t b0 s').
    { intros b0 s0 E1 E2. destruct (refilter_sound ord HO t b0 s0) as (s' & E & U & _); auto.
      - unfold no_clash. rewrite E1. auto.
      - eapply sound_same; eauto.
      - intros x Hx. unfold view_all_nodes. rewrite E1, E2. apply Pr; auto.
      - eauto. }
    assert (GF : forall b0 l, exists s', refilter ord b0 t (set_filters l s) = (s', Ok tt) /\ uptodate t b0 s') by (intros; apply G; auto).
    destruct c as [o|n p rs|n| | |n a|cc]; cbn [rebuilding] in Rb; try contradiction; cbn [view_call].
    - set (s2 := if rs then set_filters [] s else s).
      assert (E2 : froot s2 = froot s /\ fnodes s2 = fnodes s) by (unfold s2; destruct rs; auto).
      assert (Hgo : forall b0 sh, sh || negb (mem n (filters s2)) = true -> exists b' s',
         (let '(b1, s1, r) := (let fresh := negb (mem n (filters s2)) in
          let s3 := if fresh then set_filters (filters s2 ++ [n]) s2 else s2 in
          if true && (sh || fresh) then
            match refilter ord b0 t s3 with (s4, Ok _) => (b0, s4, Ok fresh) | (s4, Err e) => (b0, s4, Err e) | (s4, Diverge) => (b0, s4, Diverge) end
          else (b0, s3, Ok fresh)) in (t, b1, s1, done r)) = (t, b', s', Ok tt) /\ uptodate t b' s').
      { intros b0 sh Hsh. cbv zeta. rewrite Hsh. cbn [andb].
        destruct (G b0 (if negb (mem n (filters s2)) then set_filters (filters s2 ++ [n]) s2 else s2)) as (s' & E & U); [destruct (mem n (filters s2)); apply E2..|].
        rewrite E. exists b0, s'. auto. }
      unfold apply_filter. fold s2. destruct p as [d|].
      + cbn [supported] in Su. destruct (get_filter b n); [|congruence]. apply (Hgo (bank_set_parameters n (Some d) b) true). auto.
      + apply (Hgo b false). apply negb_true_iff. destruct (mem n (filters s2)) eqn:M; auto. apply mem_In in M. unfold s2 in M.
        destruct Rb as [Rb|[->|Rb]]; [congruence|destruct M|]. destruct rs; [destruct M|contradiction].
    - apply mem_In in Rb. destruct (GF b (remove1 n (filters s))) as (s' & E & U). exists b, s'. split; auto.
      unfold unapply_filter, fbind, fget, fret, fmodify. rewrite Rb, E. auto.
    - destruct (GF b []) as (s' & E & U). exists b, s'. split; auto. unfold reset_filters, fbind, fmodify. rewrite E. auto.
    - destruct (G b s) as (s' & E & U); auto. exists b, s'. rewrite E. auto.
  Qed.
End Rebuild.

(** ** What every history gives *)
Section Life.
  Variable ord : nat -> list id -> list id.
  Hypothesis HO : forall k l, Permutation (ord k l) l.

  Lemma viewing_reach : forall x, viewing ord x -> reach calm (fst (fst x)).
  Proof.
    intros x V. induction V as [t b name names W|[[t b] s] c V IH Su]; [apply W|].
    destruct c as [o|n p rs|n| | |n a|cc]; cbn [view_call].
    - destruct (feed ord b (events o t) s) as [s1 r]. apply reach_call; auto. apply Su.
    - destruct (apply_filter ord t n p rs true b s) as [[b1 s1] r]. auto.
    - destruct (unapply_filter ord b t n true s) as [s1 r]. auto.
    - destruct (reset_filters ord b t true s) as [s1 r]. auto.
    - destruct (refilter ord b t s) as [s1 r]. auto.
    - destruct (queue_action n a s) as [s1 r]. auto.
    - auto.
  Qed.

  Lemma viewing_uptodate : forall t b s, viewing ord (t, b, s) -> reach calm t /\ no_clash t s /\ uptodate t b s /\ sound s /\ proper s.
  Proof.
    intros t b s V. pose proof (viewing_reach _ V) as R. pose proof (viewing_current ord HO _ V) as C. cbv beta iota in C.
    split; auto. split; [|split; [|split]].
    - destruct (c_apt _ _ _ C) as [? ? ?]. split; auto.
    - apply synced_uptodate; apply C.
    - apply (viewing_sound ord HO t b s V).
    - apply (viewing_proper ord HO t b s V).
  Qed.
End Life.

(** ** The shapes used by the property theorems *)
Lemma with_reach : forall t, reach calm t -> reg t.
Proof. apply reach_reg. Qed.

Section Shapes.
  Variable ord : nat -> list id -> list id.
  Hypothesis HO : forall k l, Permutation (ord k l) l.

  Lemma rebuild_exact : forall t b s c, reach calm t -> no_clash t s -> sound s -> proper s -> supported (t, b, s) c -> rebuilding s c ->
    exists b' s', view_call ord c (t, b, s) = (t, b', s', Ok tt) /\
      same_set (view_all_nodes s') (satisfying b' t (filters s')) /\ uptodate t b' s'.
  Proof.
    intros t b s c R N So Pr Su Rb. destruct (rebuilding_uptodate ord HO t b s c) as (b' & s' & E & U); auto using with_reach.
    exists b', s'. split; auto. split; auto. apply U.
  Qed.

  Lemma quiet_calls : forall t b s o, reach calm t -> no_clash t s -> uptodate t b s -> announcing o ->
    after o t = t /\ exists s' l, feed ord b (events o t) s = (s', Ok tt) /\ fnodes s' = fnodes s /\ filters s' = filters s /\
      froot s' = froot s /\ flat s' = flat s /\ runonce s' = runonce s /\ sent s' = sent s ++ l /\
      Forall (fun x => exists q n, x = SModified n (q ++ [n]) /\ view_path s (q ++ [n])) l.
  Proof. intros. apply announce_quiet; auto using with_reach. Qed.

  Lemma other_ids : forall t b s n nd p, viewing ord (t, b, s) -> calm t (AddNode n nd p) -> n <> froot s -> ~ In n reserved ->
    let o := AddNode n nd p in
    exists s', feed ord b (events o t) s = (s', Ok tt) /\ (In n (view_all_nodes s') <-> In n (satisfying b (after o t) (filters s'))).
  Proof.
    intros t b s n nd p V Ca N3 N4 o.
    assert (Su : supported (t, b, s) (VTree o)) by (split; auto; split; auto).
    pose proof (viewing_ok ord HO _ _ V Su) as E. pose proof (viewing_call ord _ _ V Su) as V'. cbn [view_call] in *.
    destruct (feed ord b (events o t) s) as [s1 r]. cbn [fst snd] in *. subst r. exists s1. split; auto.
    apply (viewing_nodes ord HO) in V'. apply V'.
  Qed.
End Shapes.

Lemma late_client : forall s, sound s -> proper s -> idle s ->
  exists ps s', get_current_state s = (s', Ok tt) /\
    froot s' = froot s /\ fnodes s' = fnodes s /\ flat s' = flat s /\ filters s' = filters s /\ runonce s' = runonce s /\
    sent s' = sent s ++ map (fun q => SAdded (last q "") q) ps /\
    NoDup ps /\ (forall q, In q ps <-> view_path s q) /\
    (forall a q n b, ps = a ++ (q ++ [n]) :: b -> q = [] \/ In q a).
Proof.
  intros s So Pr Id. destruct (current_state s So Pr Id) as (ps & s' & E & L & R & H). exists ps, s'. destruct L. tauto.
Qed.

Lemma counted_nodes : forall b t s names, sound s -> (forall n, In n (view_all_nodes s) -> has_node t n = true) ->
  view_nodes b t s names = filter (fun n => forallb (fun name =>
    match get_filter b name with
    | Some f => xorb (f_fun f t n (f_dic f)) (match f_dic f with Some d => p_negate d | None => false end)
    | None => true
    end) names) (view_all_nodes s) /\ view_n_nodes b t s names = length (view_nodes b t s names).
Proof.
  intros b t s names So H. split; auto. rewrite view_nodes_spec by auto. apply filter_ext_in. intros n Hn. apply H in Hn.
  induction names as [|a l IH]; auto. cbn [forallb]. rewrite IH. f_equal. destruct (get_filter b a); auto. apply filt_sat; auto.
Qed.

Lemma filter_set : forall ord t l b name, (forall n d rs rf, In (FApply n (Some d) rs rf) l -> get_filter b n <> None) ->
  let fs := filters (snd (fold_left (filter_call ord t) l (b, new_ft name))) in
  NoDup fs /\ forall n, In n fs <-> applied (rev l) n.
Proof. intros ord t l b name H. destruct (filters_history ord t l b name H) as (A & B & _). auto. Qed.

Lemma independent : forall ord t name p rs rf b s1 names, p = None \/ ~ In name names ->
  let b' := fst (fst (apply_filter ord t name p rs rf b s1)) in
  satisfying b' t names = satisfying b t names /\ (flattened b' names <-> flattened b names).
Proof.
  intros ord t name p rs rf b s1 names H. set (x := apply_filter ord t name p rs rf b s1). cbv zeta.
  assert (B : fst (fst x) = b \/ (p <> None /\ fst (fst x) = bank_set_parameters name p b)).
  { unfold x, apply_filter. destruct p as [d|].
    - destruct (get_filter b name); auto. match goal with |- context [if ?c then _ else _] => destruct c end;
      try (destruct (refilter _ _ _ _) as [? [| |]]); simpl; right; split; auto; discriminate.
    - match goal with |- context [if ?c then _ else _] => destruct c end;
      try (destruct (refilter _ _ _ _) as [? [| |]]); simpl; auto. }
  assert (G : forall n, In n names -> get_filter (fst (fst x)) n = get_filter b n).
  { intros n Hn. destruct B as [->|[Hp ->]]; auto. destruct H as [|H]; [congruence|].
    unfold bank_set_parameters, get_filter. destruct (dget name (available b)) eqn:E1; [|destruct (dget name (custom b)) eqn:E2]; simpl; auto;
    rewrite dget_dset_other by (intros ->; contradiction); auto. }
  split.
  - unfold satisfying. apply filter_ext. intros n. clear H. induction names as [|a l IH]; auto. simpl. rewrite G by (left; auto). rewrite IH; auto.
  - unfold flattened. split; intros (n & f & d & H1 & H2 & H3); exists n, f, d; [rewrite <- G by auto|rewrite G by auto]; auto.
Qed.
