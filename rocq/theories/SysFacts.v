(** The whole library: the views and counts do not disturb each other. *)
From Coq Require Import Permutation.
From Verif Require Import Base BaseFacts AddFacts FrameFacts MainEvents MainTree Spec MainFacts MainInv MainReg MainRegDel MainTight Filters FTree ViewCount Api ViewApi SpecApi ApiFacts CountFacts
  SpecView SpecViewing FtBase FtWalk FtEdge FtUp FtDel FtKeep FtOps FtSent FtState FtView FtThm FtQuiet FtAny NamedFacts SpecSys.

Lemma nth_set : forall A i (x : A) l j, nth_error (set_nth i x l) j = if Nat.eqb j i then (match nth_error l i with Some _ => Some x | None => None end) else nth_error l j.
Proof.
  intros A i x l. revert i. induction l as [|y l IH]; intros i j.
  - simpl. destruct i, j; simpl; auto. destruct (Nat.eqb j i); auto.
  - destruct i as [|i], j as [|j]; simpl; auto.
Qed.

Section Lib.
  Variable ord : nat -> list id -> list id.
  Hypothesis HO : forall k l, Permutation (ord k l) l.

  (** *** Delivering events *)
  Definition hear_list (b : bank) (es : list event) (l : listener) : listener * res unit :=
    match l with
    | LMain h => (LMain h, Ok tt)
    | LView s => (LView (fst (feed ord b es s)), snd (feed ord b es s))
    | LCount v => (LCount (fst (hears b es v)), snd (hears b es v))
    end.

  Lemma notify_all_ok : forall b e ls, (forall l, In l ls -> snd (notify ord b e l) = Ok tt) ->
    notify_all ord b e ls = (map (fun l => fst (notify ord b e l)) ls, Ok tt).
  Proof.
    induction ls as [|l ls IH]; simpl; intros H; auto. pose proof (H l (or_introl eq_refl)) as E.
    destruct (notify ord b e l) as [l1 r]. cbn [fst snd] in *. subst r. rewrite IH; auto.
  Qed.

  Lemma hear_list_cons : forall b e es l, snd (hear_list b (e :: es) l) = Ok tt ->
    snd (notify ord b e l) = Ok tt /\ hear_list b (e :: es) l = hear_list b es (fst (notify ord b e l)).
  Proof.
    intros b e es [h|s|v]; simpl; auto.
    - unfold feed. cbn [ffor]. unfold fbind. destruct (external_modify ord b (ev_tree e) (ev_id e) s) as [s1 [[]|x|]]; simpl; try discriminate; auto.
    - destruct (vc_event b e v) as [v1 [[]|x|]]; simpl; try discriminate; auto.
  Qed.

  Lemma hear_list_nil : forall b l, hear_list b [] l = (l, Ok tt).
  Proof. intros b [h|s|v]; reflexivity. Qed.

  Lemma deliver_all : forall b es ls, (forall l, In l ls -> snd (hear_list b es l) = Ok tt) ->
    deliver ord b es ls = (map (fun l => fst (hear_list b es l)) ls, None).
  Proof.
    intros b es. induction es as [|e es IH]; intros ls H; cbn [deliver].
    - f_equal. rewrite <- (map_id ls) at 1. apply map_ext. intros l. rewrite hear_list_nil. auto.
    - rewrite notify_all_ok; [|intros l Hl; apply (hear_list_cons b e es l); auto].
      rewrite IH.
      + f_equal. rewrite map_map. apply map_ext_in. intros l Hl. destruct (hear_list_cons b e es l (H l Hl)) as [_ ->]. auto.
      + intros l' Hl'. apply in_map_iff in Hl'. destruct Hl' as (l & <- & Hl). destruct (hear_list_cons b e es l (H l Hl)) as [_ E].
        rewrite <- E. auto.
  Qed.

  (** A listener that raises stops the call. *)
  Lemma deliver_cases : forall b es ls, snd (deliver ord b es ls) = None \/
    exists e r, In e es /\ snd (deliver ord b es ls) = Some (ev_tree e, r) /\ r <> Ok tt.
  Proof.
    intros b es. induction es as [|e es IH]; intros ls; cbn [deliver]; auto.
    destruct (notify_all ord b e ls) as [ls1 [[]|x|]].
    - destruct (IH ls1) as [H|(e' & r & A & B & C)]; auto. right. exists e', r. split; [right; auto|auto].
    - right. exists e, (Err x). repeat split; [left; auto|discriminate].
    - right. exists e, Diverge. repeat split; [left; auto|discriminate].
  Qed.

  Lemma tree_call_cases : forall o y, let y' := fst (tree_call ord o y) in let r := snd (tree_call ord o y) in
    s_bank y' = s_bank y /\ s_views y' = s_views y /\ s_counts y' = s_counts y /\
    ((s_tree y' = after o (s_tree y) /\ r = outcome o (s_tree y)) \/
     (r <> Ok tt /\ exists e, In e (events o (s_tree y)) /\ s_tree y' = ev_tree e)).
  Proof.
    intros o y. unfold tree_call, after, outcome, events. destruct (run_op o (s_tree y)) as [[t1 es] r]. cbn [fst snd].
    destruct (deliver_cases (s_bank y) es (s_listeners y)) as [E|(e & x & A & E & C)];
      destruct (deliver ord (s_bank y) es (s_listeners y)) as [ls o']; cbn [snd] in E; subst o'; cbn [fst snd].
    - split; auto.
    - repeat split; auto. right. split; auto. exists e. auto.
  Qed.

  (** *** The invariant *)
  Definition linv (t : mtree) (b : bank) (l : listener) : Prop :=
    match l with
    | LMain _ => True
    | LView s => no_clash t s /\ uptodate t b s
    | LCount v => exact t b v
    end.

  Record sinv (y : sys) : Prop := {
    i_calm : reach calm (s_tree y);
    i_local : local_bank (s_bank y);
    i_avail : available (s_bank y) = [];
    i_res : forall x, In x reserved -> has_node (s_tree y) x = false;
    i_keys : NoDup (dkeys (custom (s_bank y)));
    i_all : forall i l, nth_error (s_listeners y) i = Some l -> linv (s_tree y) (s_bank y) l;
    i_only : forall i h, nth_error (s_listeners y) i = Some (LMain h) -> i = 0;
    i_main : exists h, nth_error (s_listeners y) 0 = Some (LMain h) /\
      forall i, h = Some i -> exists s, nth_error (s_listeners y) i = Some (LView s) /\ filters s = [] /\ froot s = root_name None
  }.

  Lemma i_reg : forall y, sinv y -> reg (s_tree y).
  Proof. intros y I. apply reach_reg. apply I. Qed.

  Lemma view_step : forall y i s c, sinv y -> nth_error (s_listeners y) i = Some (LView s) -> supported (s_tree y, s_bank y, s) c ->
    exists s', view_call ord c (s_tree y, s_bank y, s) = (new_tree c (s_tree y), new_bank c (s_bank y), s', Ok tt) /\
      linv (new_tree c (s_tree y)) (new_bank c (s_bank y)) (LView s') /\ filters s' = new_filters c (filters s) /\ froot s' = froot s.
  Proof.
    intros y i s c I H X. destruct (i_all _ I i _ H) as [N U].
    destruct (uptodate_call ord HO c (s_tree y) (s_bank y) s (i_reg _ I) N (i_local _ I) (i_avail _ I) (i_keys _ I) U X) as (s' & E & U' & N' & F & Ro & _).
    exists s'. split; [exact E|]. split; [split; auto|]. auto.
  Qed.

  Lemma calm_fresh : forall t, reach calm t -> reachx any_fresh t.
  Proof.
    intros t H. apply reach_reachx. eapply reach_mono; [|apply H]. intros t' o (P & _). destruct o; simpl in *; auto. apply P.
  Qed.

  Lemma res_step : forall o y, sinv y -> fits y (LTree o) -> forall x, In x reserved -> has_node (s_tree y) x = false -> has_node (after o (s_tree y)) x = false.
  Proof.
    intros o y I [Cm X] x Hx H. destruct (has_node (after o (s_tree y)) x) eqn:E; auto. exfalso.
    apply has_node_In in E. change (In x (get_all_nodes (after o (s_tree y)))) in E. rewrite nodes_after in E; [|apply calm_fresh; apply I|destruct Cm as (Pl & _); destruct o; simpl in *; auto; apply Pl].
    assert (Q : In x (get_all_nodes (s_tree y)) -> False) by (intros Q; apply has_node_In in Q; congruence).
    destruct o; auto.
    - unfold add_last in E. destruct (mem n (get_all_nodes (s_tree y))); auto. apply in_app_iff in E. destruct E as [E|[<-|[]]]; auto. destruct X as [X _]. auto.
    - apply filter_In in E. tauto.
  Qed.

  (** A call on the tree. *)
  Lemma hear_list_ok : forall o y i l, sinv y -> fits y (LTree o) -> nth_error (s_listeners y) i = Some l ->
    snd (hear_list (s_bank y) (events o (s_tree y)) l) = Ok tt /\
    linv (after o (s_tree y)) (s_bank y) (fst (hear_list (s_bank y) (events o (s_tree y)) l)) /\
    match l with
    | LMain h => fst (hear_list (s_bank y) (events o (s_tree y)) l) = LMain h
    | LView s => exists s', fst (hear_list (s_bank y) (events o (s_tree y)) l) = LView s' /\ filters s' = filters s /\ froot s' = froot s
    | LCount v => exists v', fst (hear_list (s_bank y) (events o (s_tree y)) l) = LCount v'
    end.
  Proof.
    intros o y i l I [Cm X] H. destruct l as [h|s|v].
    - simpl. auto.
    - destruct (view_step y i s (VTree o) I H) as (s' & E & L' & F & Ro).
      { split; auto. destruct o; auto. destruct X as [X1 X2]. split; auto. apply X2. eapply nth_error_In; eauto. }
      cbn [view_call] in E. cbn [hear_list]. destruct (feed ord (s_bank y) (events o (s_tree y)) s) as [s1 r]. inv E. cbn [fst snd].
      split; auto. split; auto. exists s'. auto.
    - pose proof (i_all _ I i _ H) as Ex. cbn [linv] in Ex.
      assert (Q : snd (hears (s_bank y) (events o (s_tree y)) v) = Ok tt /\ exact (after o (s_tree y)) (s_bank y) (fst (hears (s_bank y) (events o (s_tree y)) v))).
      { destruct Cm as (Pl & _ & _ & St).
        assert (FA : fresh_add o) by (destruct o; simpl in *; auto; apply Pl).
        assert (NR : forall n d, o = SetData n d -> n = main_root -> after o (s_tree y) = s_tree y /\ events o (s_tree y) = []).
        { intros n d -> ->. pose proof (r_main _ (i_reg _ I)) as Nr. apply has_node_none in Nr.
          unfold after, events. cbn [run_op]. unfold set_node_data, live, bind. rewrite Nr. auto. }
        destruct o; try (apply call_exact; auto; fail).
        destruct (id_dec n main_root) as [->|Nn]; [|apply call_exact; auto].
        destruct (NR _ _ eq_refl eq_refl) as [-> ->]. simpl. auto. }
      cbn [hear_list fst snd]. split; [apply Q|]. split; [apply Q|eauto].
  Qed.

  Lemma map_main : forall (f : listener -> listener) ls, (forall i l, nth_error ls i = Some l -> match l with
      | LMain h => f l = LMain h
      | LView s => exists s', f l = LView s' /\ filters s' = filters s /\ froot s' = froot s
      | LCount v => exists v', f l = LCount v' end) ->
    (forall i h, nth_error ls i = Some (LMain h) -> i = 0) ->
    (exists h, nth_error ls 0 = Some (LMain h) /\ forall i, h = Some i -> exists s, nth_error ls i = Some (LView s) /\ filters s = [] /\ froot s = root_name None) ->
    (forall i h, nth_error (map f ls) i = Some (LMain h) -> i = 0) /\
    (exists h, nth_error (map f ls) 0 = Some (LMain h) /\ forall i, h = Some i -> exists s, nth_error (map f ls) i = Some (LView s) /\ filters s = [] /\ froot s = root_name None).
  Proof.
    intros f ls H H1 (h & H2 & H3). split.
    - intros i h0. rewrite nth_error_map. destruct (nth_error ls i) as [l|] eqn:E; [|discriminate]. simpl. intros Q. inv Q.
      specialize (H _ _ E). destruct l as [h1|s|v].
      + apply (H1 i h1). auto.
      + destruct H as (s' & Q & _). congruence.
      + destruct H as (v' & Q). congruence.
    - exists h. split.
      + rewrite nth_error_map, H2. simpl. specialize (H _ _ H2). simpl in H. rewrite H. auto.
      + intros i Hi. destruct (H3 i Hi) as (s & E & F & Ro). pose proof (H _ _ E) as (s' & Q & F' & R'). exists s'.
        rewrite nth_error_map, E. cbn [option_map]. rewrite Q. repeat split; congruence.
  Qed.

  Lemma tree_step : forall o y, sinv y -> fits y (LTree o) ->
    snd (tree_call ord o y) = outcome o (s_tree y) /\ s_tree (fst (tree_call ord o y)) = after o (s_tree y) /\
    s_listeners (fst (tree_call ord o y)) = map (fun l => fst (hear_list (s_bank y) (events o (s_tree y)) l)) (s_listeners y) /\
    sinv (fst (tree_call ord o y)).
  Proof.
    intros o y I X.
    assert (D : deliver ord (s_bank y) (events o (s_tree y)) (s_listeners y) =
      (map (fun l => fst (hear_list (s_bank y) (events o (s_tree y)) l)) (s_listeners y), None)).
    { apply deliver_all. intros l Hl. apply In_nth_error in Hl. destruct Hl as (i & Hi). apply (hear_list_ok o y i l I X Hi). }
    unfold tree_call. unfold events, after, outcome in *. destruct (run_op o (s_tree y)) as [[t1 es] r] eqn:E. cbn [fst snd] in *. rewrite D. cbn [fst snd].
    split; auto. split; auto. split; auto.
    assert (Q := fun i l => hear_list_ok o y i l I X). unfold events, after in Q. rewrite E in Q. cbn [fst snd] in Q.
    destruct (map_main (fun l => fst (hear_list (s_bank y) es l)) (s_listeners y)) as [M1 M2]; try apply I.
    { intros i l Hl. apply (Q i l Hl). }
    constructor; simpl; auto; try apply I.
    - assert (T : t1 = after o (s_tree y)) by (unfold after; rewrite E; auto). rewrite T. apply reach_call; [apply I|apply X].
    - assert (T : t1 = after o (s_tree y)) by (unfold after; rewrite E; auto). rewrite T. intros x Hx. apply res_step; auto. apply (i_res _ I); auto.
    - intros i l. rewrite nth_error_map. destruct (nth_error (s_listeners y) i) as [l0|] eqn:E0; [|discriminate]. simpl. intros H. inv H.
      apply (Q i l0 E0).
  Qed.

  (** *** The calls on the bank *)
  Lemma bank_step : forall c b, local_bank b -> available b = [] -> NoDup (dkeys (custom b)) ->
    match c with BAdd n f _ => local f /\ bang n = false | _ => True end ->
    local_bank (bank_call c b) /\ available (bank_call c b) = [] /\ NoDup (dkeys (custom (bank_call c b))).
  Proof.
    intros c b L Ha Hk H. split; [|split; [apply bank_available; auto|apply bank_keys; auto]].
    intros m f Hf. destruct c as [n g d|n|n d].
    - rewrite bank_get in Hf by tauto. destruct (get_filter b m) eqn:Em; [inv Hf; eapply L; eauto|]. deq n m; [|discriminate].
      inv Hf. simpl. tauto.
    - rewrite bank_get in Hf by auto. deq n m; [discriminate|]. eapply L; eauto.
    - rewrite bank_get in Hf by auto. destruct d as [d|]; [|eapply L; eauto]. deq n m; [|eapply L; eauto].
      destruct (get_filter b m) as [f0|] eqn:Em; [|discriminate]. inv Hf. simpl. eapply L; eauto.
  Qed.

  Lemma bank_listener : forall c y i l, sinv y -> nth_error (s_listeners y) i = Some l ->
    match c with BAdd n f _ => local f /\ bang n = false /\ ~ In n (used l) | BRemove n => ~ In n (used l) | BParam n _ => ~ In n (used l) end ->
    linv (s_tree y) (bank_call c (s_bank y)) l.
  Proof.
    intros c y i l I H X. destruct l as [h|s|v]; [exact Logic.I| |].
    - destruct (view_step y i s (VBank c) I H) as (s' & E & L' & _); [destruct c; auto|]. cbn [view_call new_tree new_bank] in *. inv E. auto.
    - apply (count_call_exact (CBank c) (s_tree y) (s_bank y) v); [apply (i_all _ I i _ H)|]. destruct c; simpl in *; tauto.
  Qed.

  (** *** One view or count changes *)
  Lemma put_step : forall y i l l' b', sinv y -> nth_error (s_listeners y) i = Some l ->
    (forall h, l <> LMain h) -> (forall h, l' <> LMain h) -> ~ hidden y i ->
    local_bank b' -> available b' = [] -> NoDup (dkeys (custom b')) ->
    linv (s_tree y) b' l' -> (forall j l0, j <> i -> nth_error (s_listeners y) j = Some l0 -> linv (s_tree y) b' l0) ->
    forall vs cs, sinv (mkSys (s_tree y) b' (set_nth i l' (s_listeners y)) vs cs).
  Proof.
    intros y i l l' b' I H K K' Hd L Ha Hk X Y vs cs. destruct (i_main _ I) as (h & M1 & M2).
    assert (Ni : i <> 0) by (intros ->; rewrite M1 in H; inv H; eapply K; eauto).
    constructor; cbn [s_tree s_bank s_listeners]; auto; try apply I.
    - intros j l0. rewrite nth_set, H. destruct (Nat.eqb_spec j i); [intros Q; inv Q; auto|eauto].
    - intros j h0. rewrite nth_set, H. destruct (Nat.eqb_spec j i); [intros Q; inv Q; destruct (K' h0); auto|apply I].
    - exists h. rewrite nth_set, H. destruct (Nat.eqb_spec 0 i); [congruence|]. split; auto. intros j ->. destruct (M2 j eq_refl) as (s & S1 & S2).
      exists s. rewrite nth_set, H. destruct (Nat.eqb_spec j i); [|auto]. subst. destruct (Hd M1).
  Qed.

  (** *** A view or count is added *)
  Lemma add_step : forall y l, sinv y -> (forall h, l <> LMain h) -> linv (s_tree y) (s_bank y) l ->
    forall vs cs, sinv (mkSys (s_tree y) (s_bank y) (s_listeners y ++ [l]) vs cs).
  Proof.
    intros y l I K X vs cs. destruct (i_main _ I) as (h & M1 & M2).
    assert (Q : forall j l0, nth_error (s_listeners y ++ [l]) j = Some l0 -> nth_error (s_listeners y) j = Some l0 \/ l0 = l).
    { intros j l0 H. destruct (Nat.lt_ge_cases j (length (s_listeners y))); [rewrite nth_error_app1 in H; auto|].
      rewrite nth_error_app2 in H by auto. right. destruct (j - length (s_listeners y)) as [|[|k]]; simpl in H; congruence. }
    assert (P : forall j l0, nth_error (s_listeners y) j = Some l0 -> nth_error (s_listeners y ++ [l]) j = Some l0).
    { intros j l0 H. rewrite nth_error_app1; auto. apply nth_error_Some. congruence. }
    constructor; cbn [s_tree s_bank s_listeners]; auto; try apply I.
    - intros j l0 H. apply Q in H. destruct H as [H| ->]; auto. apply (i_all _ I j l0 H).
    - intros j h0 H. apply Q in H. destruct H as [H|H]; [apply (i_only _ I j h0 H)|]. destruct (K h0). auto.
    - exists h. split; auto. intros j ->. destruct (M2 j eq_refl) as (s & S1 & S2). exists s. auto.
  Qed.

  Lemma state_like : forall s, sound s -> proper s -> exists s', get_current_state s = (s', Ok tt) /\ like s s'.
  Proof.
    intros s So Pr. pose proof (state_all (unsent s)) as W.
    assert (W' : fwp get_current_state (fun _ s' => like (unsent s) s' /\ knows s' (paths (kids (unsent s)) (froot (unsent s)))) (unsent s)).
    { apply W; [apply (sound_same s); auto|exact (proper_fine s Pr)|intros []|]. exists []. split; [split; [constructor|apply heeds_any]|]. split; [constructor|]. intros l. split; [intros []|auto]. }
    unfold fwp in W'. pose proof (blind_state (sent s) (unsent s)) as B. rewrite pre_unsent in B.
    destruct (get_current_state (unsent s)) as [s1 [[]| |]]; try (destruct W'; fail).
    destruct W' as (L & _). cbn [fst snd] in *. exists (pre (sent s) s1). split; auto. destruct L; constructor; auto.
  Qed.

  Lemma new_view : forall name y, sinv y -> has_node (s_tree y) (root_name name) = false ->
    exists s, refilter ord (s_bank y) (s_tree y) (new_ft name) = (s, Ok tt) /\ linv (s_tree y) (s_bank y) (LView s) /\ filters s = [] /\ froot s = root_name name.
  Proof.
    intros name y I H.
    destruct (refilter_sound ord HO (s_tree y) (s_bank y) (new_ft name)) as (s & E & U & F & Ro).
    - apply i_reg; auto.
    - split; auto. apply I.
    - assert (Ek : forall x, kids (new_ft name) x = []) by (intros x; unfold kids; simpl; destruct (String.eqb x (root_name name)); auto).
      assert (Ep : forall x, pars (new_ft name) x = []) by (intros x; unfold pars; simpl; destruct (String.eqb x (root_name name)); auto).
      constructor; auto.
      + simpl. constructor; auto. constructor.
      + unfold is_displayed, dmem. simpl. rewrite String.eqb_refl. auto.
      + intros p c. rewrite Ek, Ep. tauto.
      + intros x. rewrite Ep. constructor.
      + intros x. rewrite Ek. constructor.
      + exists (fun _ => 0). intros p c. rewrite Ek. intros [].
    - intros x Hx. unfold view_all_nodes. simpl. rewrite String.eqb_refl. intros [].
    - exists s. split; auto. split; [split; auto|auto]. split; [rewrite Ro; auto|apply I].
  Qed.

  (** *** Every call *)
  Definition raised (c : lcall) (y : sys) : res unit := match c with LTree o => outcome o (s_tree y) | _ => Ok tt end.
  Definition tree_of (c : lcall) (y : sys) : mtree := match c with LTree o => after o (s_tree y) | _ => s_tree y end.

  Lemma refresh_fits : forall y, fits y (LTree RefreshAll).
  Proof. intros y. split; [|exact I]. repeat split. Qed.

  Lemma refresh_after : forall t, after RefreshAll t = t /\ outcome RefreshAll t = Ok tt.
  Proof. intros t. unfold after, outcome. rewrite refresh_exact. auto. Qed.

  Lemma view_put : forall c y i s, sinv y -> nth_error (s_listeners y) i = Some (LView s) -> ~ hidden y i ->
    supported (s_tree y, s_bank y, s) c -> (forall o, c <> VTree o) -> (forall d, c <> VBank d) ->
    (forall n d rs j l, c = VApply n (Some d) rs -> nth_error (s_listeners y) j = Some l -> j <> i -> ~ In n (used l)) ->
    exists s', view_call ord c (s_tree y, s_bank y, s) = (s_tree y, new_bank c (s_bank y), s', Ok tt) /\
      sinv (mkSys (s_tree y) (new_bank c (s_bank y)) (set_nth i (LView s') (s_listeners y)) (s_views y) (s_counts y)).
  Proof.
    intros c y i s I H Hd X K1 K2 Y. destruct (view_step y i s c I H X) as (s' & E & L' & _).
    assert (T : new_tree c (s_tree y) = s_tree y) by (destruct c; auto; destruct (K1 o); auto). rewrite T in *.
    exists s'. split; auto.
    assert (B : new_bank c (s_bank y) = s_bank y \/ exists n d rs, c = VApply n (Some d) rs /\ new_bank c (s_bank y) = bank_call (BParam n (Some d)) (s_bank y)).
    { destruct c as [o|n [d|] rs|n| | |n a|c]; simpl; auto.
      - right. exists n, d, rs. auto.
      - destruct (K2 c). auto. }
    destruct (bank_step (BParam "" None) (s_bank y) (i_local _ I) (i_avail _ I) (i_keys _ I) Logic.I) as (_ & _ & _).
    destruct B as [B|(n & d & rs & -> & B)]; rewrite B in *.
    - apply (put_step y i (LView s)); auto; try apply I; try discriminate. intros j l0 _ Hj. apply (i_all _ I j _ Hj).
    - destruct (bank_step (BParam n (Some d)) (s_bank y) (i_local _ I) (i_avail _ I) (i_keys _ I) Logic.I) as (B1 & B2 & B3).
      apply (put_step y i (LView s)); auto; try discriminate. intros j l0 Hj Hl. apply (bank_listener (BParam n (Some d)) y j l0 I Hl). simpl. eauto.
  Qed.

  Lemma count_put : forall c y i v, sinv y -> nth_error (s_listeners y) i = Some (LCount v) ->
    (forall o, c <> CCall o) -> (forall d, c <> CBank d) ->
    exists v', count_call c (s_tree y, s_bank y, v) = (s_tree y, s_bank y, v', Ok tt) /\
      sinv (mkSys (s_tree y) (s_bank y) (set_nth i (LCount v') (s_listeners y)) (s_views y) (s_counts y)).
  Proof.
    intros c y i v I H K1 K2.
    destruct (count_call_exact c (s_tree y) (s_bank y) v) as [A B]; [apply (i_all _ I i _ H)|destruct c; simpl; auto; [destruct (K1 o)|destruct (K2 c)]; auto|].
    assert (T : exists v', fst (count_call c (s_tree y, s_bank y, v)) = (s_tree y, s_bank y, v')).
    { destruct c as [o|n|n|f|c]; cbn [count_call].
      - destruct (K1 o). auto.
      - destruct (vc_apply_filter (s_bank y) (s_tree y) n true v). eexists. reflexivity.
      - destruct (vc_unapply_filter (s_bank y) (s_tree y) n v). eexists. reflexivity.
      - eexists. reflexivity.
      - destruct (K2 c). auto. }
    destruct T as (v' & T). destruct (count_call c (s_tree y, s_bank y, v)) as [z r]. cbn [fst snd] in *. subst z r. exists v'. split; auto.
    apply (put_step y i (LCount v)); auto; try apply I; try discriminate.
    - intros Hd. destruct (i_main _ I) as (h & M1 & M2). unfold hidden in Hd. rewrite M1 in Hd. inv Hd. destruct (M2 i eq_refl) as (s & S & _). congruence.
    - intros j l0 _ Hj. apply (i_all _ I j _ Hj).
  Qed.

  Lemma lib_step : forall c y, sinv y -> fits y c ->
    snd (lib_call ord c y) = raised c y /\ s_tree (fst (lib_call ord c y)) = tree_of c y /\ sinv (fst (lib_call ord c y)).
  Proof.
    intros c y I X. destruct c as [o|name|name| |i n p rs|i n|i|i n a|i|i n|i n|i f|c]; cbn [lib_call raised tree_of fits] in *.
    - destruct (tree_step o y I X) as (A & B & _ & D). auto.
    - unfold get_viewtree. destruct name as [x|].
      + destruct (dget x (s_views y)); [cbn; auto|]. destruct (new_view (Some x) y I X) as (s & E & L & _). rewrite E. cbn [fst snd done s_tree]. split; auto. split; auto.
        apply add_step; auto; [discriminate|]. destruct L as [L1 L2]. split; [exact L1|]. apply (same_uptodate _ _ s); auto.
      + destruct (new_view None y I X) as (s & E & L & _). rewrite E. cbn [fst snd done s_tree]. split; auto. split; auto.
        apply add_step; auto; [discriminate|]. destruct L as [L1 L2]. split; [exact L1|]. apply (same_uptodate _ _ s); auto.
    - assert (C : forall vs cs, snd (vc_refresh (s_bank y) (s_tree y) new_vc) = Ok tt /\
        sinv (mkSys (s_tree y) (s_bank y) (s_listeners y ++ [LCount (fst (vc_refresh (s_bank y) (s_tree y) new_vc))]) vs cs)).
      { intros vs cs. split.
        - unfold vc_refresh. destruct (modify_all_spec (s_bank y) (s_tree y) (get_all_nodes (s_tree y)) new_vc) as (A1 & _).
          + apply (ok_keys _ (g_ok _ _ _ (r_good _ (i_reg _ I)))).
          + constructor.
          + intros x [].
          + intros x Hx. apply has_node_In. auto.
          + destruct (vc_modify_all (s_bank y) (s_tree y) (get_all_nodes (s_tree y)) new_vc) as [v1 r]. cbn [fst snd] in *. subst r. auto.
        - apply add_step; auto; [discriminate|]. apply start_exact; [apply calm_fresh; apply I|apply I|apply I|]. unfold list_filters. rewrite (i_avail _ I). apply I. }
      unfold get_viewcount. destruct name as [x|].
      + destruct (dget x (s_counts y)); [cbn; auto|]. destruct (vc_refresh (s_bank y) (s_tree y) new_vc) as [v r]. cbn [fst snd] in C.
        destruct (C (s_views y) (dset x (length (s_listeners y)) (s_counts y))) as [C1 C2]. subst r. cbn. auto.
      + destruct (vc_refresh (s_bank y) (s_tree y) new_vc) as [v r]. cbn [fst snd] in C.
        destruct (C (s_views y) (s_counts y)) as [C1 C2]. subst r. cbn. auto.
    - unfold main_filtered. destruct (i_main _ I) as (h & M1 & M2). rewrite M1. destruct h as [i|]; [cbn; auto|].
      unfold get_viewtree. destruct (new_view None y I X) as (s & E & L & F & Ro). rewrite E. cbn [fst snd done s_tree s_bank s_listeners s_views s_counts]. split; auto. split; auto.
      set (s2 := mkFT _ _ _ _ _ _ _).
      assert (L2 : linv (s_tree y) (s_bank y) (LView s2)) by (destruct L as [L1 L2]; split; [exact L1|apply (same_uptodate _ _ s); auto]).
      assert (I2 := add_step y (LView s2) I ltac:(discriminate) L2 (s_views y) (s_counts y)).
      assert (M0 : nth_error (s_listeners y ++ [LView s2]) 0 = Some (LMain None)) by (rewrite nth_error_app1; auto; apply nth_error_Some; congruence).
      constructor; cbn [s_tree s_bank s_listeners]; auto; try apply I.
      + intros j l0. rewrite nth_set, M0. destruct (Nat.eqb_spec j 0); [intros Q; inv Q; exact Logic.I|]. apply (i_all _ I2).
      + intros j h0. rewrite nth_set, M0. destruct (Nat.eqb_spec j 0); [auto|]. apply (i_only _ I2).
      + exists (Some (length (s_listeners y))). split; [rewrite nth_set, M0; auto|]. intros i Q. inv Q.
        exists s2. rewrite nth_set, M0. destruct (Nat.eqb_spec (length (s_listeners y)) 0) as [Q|Q].
        { destruct (s_listeners y); [discriminate|simpl in Q; lia]. }
        rewrite nth_error_app2, Nat.sub_diag by lia. auto.
    - destruct X as [[Hd (s & H)] X]. unfold view_apply_filter. rewrite H.
      destruct (view_put (VApply n p rs) y i s I H Hd) as (s' & E & I'); try discriminate.
      { destruct p; simpl; auto. apply X. discriminate. }
      { intros n0 d rs0 j l Q Hj Nj. inv Q. apply (proj2 (X ltac:(discriminate)) j l); auto. }
      cbn [view_call] in E. destruct (apply_filter ord (s_tree y) n p rs true (s_bank y) s) as [[b1 s1] r]. inv E. match goal with Q : done r = Ok tt |- _ => destruct r; try discriminate Q end. cbn [fst snd s_tree]. auto.
    - destruct X as [Hd (s & H)]. unfold view_unapply_filter. rewrite H.
      destruct (view_put (VUnapply n) y i s I H Hd) as (s' & E & I'); try discriminate; [exact Logic.I|].
      cbn [view_call] in E. destruct (unapply_filter ord (s_bank y) (s_tree y) n true s) as [s1 r]. inv E. match goal with Q : done r = Ok tt |- _ => destruct r; try discriminate Q end. cbn [fst snd s_tree]. auto.
    - destruct X as [Hd (s & H)]. unfold view_reset_filters. rewrite H.
      destruct (view_put VReset y i s I H Hd) as (s' & E & I'); try discriminate; [exact Logic.I|].
      cbn [view_call] in E. destruct (reset_filters ord (s_bank y) (s_tree y) true s) as [s1 r]. inv E. destruct r as [[]| |]; try discriminate. cbn [fst snd s_tree]. auto.
    - destruct X as [[Hd (s & H)] X]. unfold view_queue_action. rewrite H.
      destruct (view_put (VQueue n a) y i s I H Hd) as (s' & E & I'); try discriminate; [exact X|].
      cbn [view_call] in E. destruct (queue_action n a s) as [s1 r]. inv E. match goal with Q : done r = Ok tt |- _ => destruct r; try discriminate Q end. cbn [fst snd s_tree]. auto.
    - unfold view_current_state. destruct X as [->|[Hd (s & H)]].
      + destruct (i_main _ I) as (h & M1 & _). rewrite M1. destruct (tree_step RefreshAll y I (refresh_fits y)) as (A & B & _ & D).
        destruct (refresh_after (s_tree y)) as [R1 R2]. rewrite A, B, R1, R2. auto.
      + rewrite H. destruct (i_all _ I i _ H) as [N U]. destruct (state_like s) as (s' & E & K); [apply U|eapply uptodate_proper; eauto|].
        rewrite E. cbn [fst snd s_tree]. split; auto. split; auto. destruct K.
        apply (put_step y i (LView s)); auto; try apply I; try discriminate.
        * split; [destruct N as [N1 N2]; split; auto; congruence|]. apply (same_uptodate _ _ s); auto.
        * intros j l0 _ Hj. apply (i_all _ I j _ Hj).
    - destruct X as (v & H). unfold count_apply_filter. rewrite H. destruct (count_put (CApply n) y i v I H) as (v' & E & I'); try discriminate.
      cbn [count_call] in E. destruct (vc_apply_filter (s_bank y) (s_tree y) n true v) as [v1 r]. inv E. cbn [fst snd s_tree]. auto.
    - destruct X as (v & H). unfold count_unapply_filter. rewrite H. destruct (count_put (CUnapply n) y i v I H) as (v' & E & I'); try discriminate.
      cbn [count_call] in E. destruct (vc_unapply_filter (s_bank y) (s_tree y) n v) as [v1 r]. inv E. cbn [fst snd s_tree]. auto.
    - destruct X as (v & H). unfold count_register. rewrite H. destruct (count_put (CRegister f) y i v I H) as (v' & E & I'); try discriminate.
      cbn [count_call] in E. inv E. cbn [fst snd s_tree]. auto.
    - cbn [fst snd]. split; auto. split; auto. unfold on_bank.
      destruct (bank_step c (s_bank y) (i_local _ I) (i_avail _ I) (i_keys _ I)) as (B1 & B2 & B3); [destruct c; auto; tauto|].
      constructor; cbn [s_tree s_bank s_listeners]; auto; try apply I.
      intros i l H. apply (bank_listener c y i l I H). apply nth_error_In in H. destruct c; auto. destruct X as (X1 & X2 & X3). auto.
  Qed.

  Lemma new_sinv : sinv new_sys.
  Proof.
    constructor; simpl.
    - constructor.
    - intros n f. discriminate.
    - auto.
    - auto.
    - constructor.
    - intros [|[|i]] l H; inv H. exact I.
    - intros [|[|i]] h H; inv H. auto.
    - exists None. split; auto. discriminate.
  Qed.

  Lemma library_sinv : forall y, library ord y -> sinv y.
  Proof. induction 1; [apply new_sinv|]. apply lib_step; auto. Qed.

  Lemma all_show : forall y, library ord y -> forall l, In l (s_listeners y) -> shows (s_tree y) (s_bank y) l.
  Proof.
    intros y H l Hl. pose proof (library_sinv y H) as I. apply In_nth_error in Hl. destruct Hl as (i & Hi). pose proof (i_all _ I i l Hi) as L.
    destruct l as [h|s|v]; auto. destruct L as [N E K Hn L Ha Hk G]. simpl.
    assert (E' : forall x, In x (vnodes v) <-> In x (satisfying (s_bank y) (s_tree y) (vfilters v))) by (intros x; rewrite E, satisfying_In; tauto).
    split; auto. unfold vc_n_nodes. apply Permutation_length. apply NoDup_Permutation; auto.
    unfold satisfying. apply filter_NoDup. apply (ok_keys _ (g_ok _ _ _ G)).
  Qed.

  Lemma nothing_raises : forall y c, library ord y -> fits y c ->
    snd (lib_call ord c y) = match c with LTree o => outcome o (s_tree y) | _ => Ok tt end /\
    s_tree (fst (lib_call ord c y)) = match c with LTree o => after o (s_tree y) | _ => s_tree y end.
  Proof. intros y c H X. destruct (lib_step c y (library_sinv y H) X) as (A & B & _). auto. Qed.
End Lib.
