(** Lemmas about counts. *)
From Coq Require Import Permutation.
From Verif Require Import Base BaseFacts MainTree Spec MainFacts MainOps MainRun MainInv MainAdd MainEvents DataFacts
  Filters ViewCount SpecApi ApiFacts.

Definition sat1 (b : bank) (t : mtree) (n name : id) : bool :=
  match get_filter b name with
  | Some f => xorb (f_fun f t n (f_dic f)) (match f_dic f with Some d => p_negate d | None => false end)
  | None => false
  end.
Definition sat (b : bank) (t : mtree) (names : list id) (n : id) : bool := forallb (sat1 b t n) names.

Lemma satisfying_In : forall b t names x, In x (satisfying b t names) <-> has_node t x = true /\ sat b t names x = true.
Proof. intros. unfold satisfying. rewrite filter_In, has_node_In. reflexivity. Qed.

Definition known (b : bank) (names : list id) : Prop := forall n, In n names -> get_filter b n <> None.

Lemma displayed_sat : forall b t names n, known b names -> has_node t n = true ->
  vc_displayed b t names n = Ok (sat b t names n).
Proof.
  intros b t names n. induction names as [|m names IH]; intros K Hn; auto. unfold sat. simpl. fold (sat b t names n).
  rewrite IH; auto; [|intros x Hx; apply K; simpl; auto]. unfold sat1.
  destruct (get_filter b m) as [f|] eqn:E; [|exfalso; apply (K m); simpl; auto].
  unfold filt_displayed. rewrite Hn. destruct (f_dic f) as [d|]; [destruct (p_negate d)|];
    rewrite ?xorb_true_r, ?xorb_false_r; auto.
Qed.

Lemma sat_data : forall b t t' names n v, local_bank b -> known b names ->
  data_of t n = Some v -> data_of t' n = Some v -> sat b t names n = sat b t' names n.
Proof.
  intros b t t' names n v L K H H'. unfold sat. induction names as [|m names IH]; simpl; auto.
  rewrite IH by (intros x Hx; apply K; simpl; auto). f_equal. unfold sat1.
  destruct (get_filter b m) as [f|] eqn:E; auto. f_equal. unfold data_of in *.
  destruct (dget n (nodes t)) as [nd|] eqn:E1; [|discriminate]. destruct (dget n (nodes t')) as [nd'|] eqn:E2; [|discriminate].
  apply (L m f E t t' n (f_dic f) nd nd'); auto. simpl in *. congruence.
Qed.

Lemma forallb_ext_in' : forall A (f g : A -> bool) l, (forall x, In x l -> f x = g x) -> forallb f l = forallb g l.
Proof. induction l; simpl; intros H; auto. rewrite H, IHl; auto. Qed.

(** One notification. *)
Definition same_but (v v' : vcount) : Prop :=
  vfilters v' = vfilters v /\ initialized v' = initialized v /\ callbacks v' = callbacks v.

Lemma delete_spec : forall n v, NoDup (vnodes v) ->
  same_but v (vc_delete n v) /\ NoDup (vnodes (vc_delete n v)) /\
  (forall x, In x (vnodes (vc_delete n v)) <-> x <> n /\ In x (vnodes v)) /\
  notified (vc_delete n v) = notified v ++ times (if mem n (vnodes v) then 1 else 0) (callbacks v).
Proof.
  intros n v N. unfold vc_delete, same_but. destruct (mem n (vnodes v)) eqn:E; simpl.
  - repeat split; auto.
    + apply remove1_NoDup; auto.
    + apply remove1_iff in H; tauto.
    + apply remove1_iff in H; tauto.
    + intros [H1 H2]. apply remove1_iff; auto.
    + rewrite app_nil_r. auto.
  - apply mem_false in E. repeat split; auto.
    + intros ->. auto.
    + tauto.
    + rewrite app_nil_r. auto.
Qed.

Lemma add_spec : forall n v, NoDup (vnodes v) ->
  same_but v (vc_add n v) /\ NoDup (vnodes (vc_add n v)) /\
  (forall x, In x (vnodes (vc_add n v)) <-> x = n \/ In x (vnodes v)) /\
  notified (vc_add n v) = notified v ++ times (if mem n (vnodes v) then 0 else 1) (callbacks v).
Proof.
  intros n v N. unfold vc_add, same_but. destruct (mem n (vnodes v)) eqn:E; simpl.
  - apply mem_In in E. repeat split; auto.
    + intros [->|H]; auto.
    + rewrite app_nil_r. auto.
  - apply mem_false in E. repeat split; auto.
    + apply NoDup_snoc; auto.
    + intros H. apply in_app_iff in H. simpl in H. intuition.
    + intros H. apply in_app_iff. simpl. intuition.
    + rewrite app_nil_r. auto.
Qed.

Lemma modify_spec : forall b t n v, NoDup (vnodes v) -> known b (vfilters v) -> has_node t n = true ->
  let v' := fst (vc_modify b t n v) in
  snd (vc_modify b t n v) = Ok tt /\ same_but v v' /\ NoDup (vnodes v') /\
  (forall x, In x (vnodes v') <-> (if String.eqb x n then sat b t (vfilters v) n = true else In x (vnodes v))) /\
  notified v' = notified v ++ times (if xorb (mem n (vnodes v)) (mem n (vnodes v')) then 1 else 0) (callbacks v).
Proof.
  intros b t n v N K Hn v'. subst v'. unfold vc_modify. rewrite displayed_sat; auto.
  destruct (sat b t (vfilters v) n) eqn:E; simpl fst; simpl snd.
  - destruct (add_spec n v N) as (A & B & C & D). split; auto. split; auto. split; auto. split.
    + intros x. rewrite C. deq x n; [tauto|]. intuition.
    + rewrite D. f_equal. f_equal. assert (M : mem n (vnodes (vc_add n v)) = true) by (apply mem_In, C; auto).
      rewrite M. destruct (mem n (vnodes v)); auto.
  - destruct (delete_spec n v N) as (A & B & C & D). split; auto. split; auto. split; auto. split.
    + intros x. rewrite C. deq x n; [|tauto]. split; [tauto|discriminate].
    + rewrite D. f_equal. f_equal. assert (M : mem n (vnodes (vc_delete n v)) = false) by (apply mem_false; rewrite C; tauto).
      rewrite M. destruct (mem n (vnodes v)); auto.
Qed.

Lemma same_but_trans : forall a b c, same_but a b -> same_but b c -> same_but a c.
Proof. unfold same_but. intuition congruence. Qed.

Lemma times_add : forall A (l : list A) a b, times (a + b) l = times a l ++ times b l.
Proof. induction a; simpl; intros; auto. rewrite IHa, app_assoc. auto. Qed.

(** The changes of a set that all happen among the elements of a list. *)
Definition nchanges (l a b : list id) : nat := length (filter (fun x => xorb (mem x a) (mem x b)) l).

Lemma nchanges_ext : forall l a b a' b', (forall x, In x l -> mem x a = mem x a' /\ mem x b = mem x b') ->
  nchanges l a b = nchanges l a' b'.
Proof.
  intros l a b a' b' H. unfold nchanges. f_equal. apply filter_ext_in. intros x Hx. destruct (H x Hx) as [-> ->]. auto.
Qed.

Lemma mem_iff : forall x a b, (In x a <-> In x b) -> mem x a = mem x b.
Proof. intros x a b H. destruct (mem_spec x a), (mem_spec x b); auto; tauto. Qed.

Lemma modify_all_spec : forall b t l v, NoDup l -> NoDup (vnodes v) -> known b (vfilters v) ->
  (forall n, In n l -> has_node t n = true) ->
  let v' := fst (vc_modify_all b t l v) in
  snd (vc_modify_all b t l v) = Ok tt /\ same_but v v' /\ NoDup (vnodes v') /\
  (forall x, In x (vnodes v') <-> (if mem x l then sat b t (vfilters v) x = true else In x (vnodes v))) /\
  notified v' = notified v ++ times (nchanges l (vnodes v) (vnodes v')) (callbacks v).
Proof.
  intros b t l. induction l as [|n l IH]; intros v Nl N K Hl v'; subst v'.
  - simpl. repeat split; auto; try tauto. rewrite app_nil_r. auto.
  - apply NoDup_cons_iff in Nl. destruct Nl as [Nn Nl]. cbn [vc_modify_all].
    destruct (modify_spec b t n v N K) as (A1 & A2 & A3 & A4 & A5); [apply Hl; simpl; auto|].
    destruct (vc_modify b t n v) as [v1 r]. cbn [fst snd] in *. subst r.
    destruct A2 as (F1 & F2 & F3).
    destruct (IH v1 Nl A3) as (B1 & B2 & B3 & B4 & B5); [rewrite F1; auto|intros; apply Hl; simpl; auto|].
    split; auto. split; [eapply same_but_trans; [|exact B2]; repeat split; auto|]. split; auto.
    assert (C : forall x, In x (vnodes (fst (vc_modify_all b t l v1))) <->
                 (if mem x (n :: l) then sat b t (vfilters v) x = true else In x (vnodes v))).
    { intros x. rewrite B4, F1. simpl. destruct (mem x l) eqn:El; [rewrite orb_true_r; tauto|].
      rewrite orb_false_r, A4. deq x n; [subst; tauto|tauto]. }
    split; auto. rewrite B5, A5, <- app_assoc, F3, <- times_add. f_equal. f_equal. unfold nchanges. cbn [filter].
    assert (X1 : mem n (vnodes (fst (vc_modify_all b t l v1))) = mem n (vnodes v1)).
    { apply mem_iff. rewrite B4. apply mem_false in Nn. rewrite Nn. tauto. }
    rewrite X1.
    replace (filter (fun x => xorb (mem x (vnodes v)) (mem x (vnodes (fst (vc_modify_all b t l v1))))) l)
      with (filter (fun x => xorb (mem x (vnodes v1)) (mem x (vnodes (fst (vc_modify_all b t l v1))))) l).
    + destruct (xorb _ _); reflexivity.
    + apply filter_ext_in. intros x Hx. f_equal. apply mem_iff. rewrite A4. deq x n; [subst; tauto|tauto].
Qed.

(** The state of an exact count. *)
Record exact (t : mtree) (b : bank) (v : vcount) : Prop := mkExact {
  ex_nodup : NoDup (vnodes v);
  ex_nodes : forall x, In x (vnodes v) <-> has_node t x = true /\ sat b t (vfilters v) x = true;
  ex_known : known b (vfilters v);
  ex_init : initialized v = true;
  ex_local : local_bank b;
  ex_avail : available b = [];
  ex_keys : NoDup (dkeys (custom b));
  ex_good : good false t
}.

Lemma hears_app1 : forall b e v, hears b [e] v = (fst (vc_event b e v), snd (vc_event b e v)).
Proof. intros. simpl. destruct (vc_event b e v) as [v1 r]. destruct r as [[]| |]; auto. Qed.

(** A list of events that only says what is true of nodes whose data do not change. *)
Lemma hears_told : forall b t0 es ks ks' v, told ks es ks' -> local_bank b -> known b (vfilters v) ->
  (forall e, In e es -> dd (fun _ => False) t0 (ev_tree e)) ->
  NoDup ks -> NoDup (vnodes v) ->
  (forall x, In x (vnodes v) <-> In x ks /\ sat b t0 (vfilters v) x = true) ->
  let v' := fst (hears b es v) in
  snd (hears b es v) = Ok tt /\ same_but v v' /\ NoDup (vnodes v') /\
  (forall x, In x (vnodes v') <-> In x ks' /\ sat b t0 (vfilters v) x = true).
Proof.
  intros b t0 es ks ks' v H. revert v.
  assert (DS : forall n s ks v, local_bank b -> known b (vfilters v) -> dd (fun _ => False) t0 s ->
                 In n ks -> get_all_nodes s = ks -> has_node s n = true /\ sat b s (vfilters v) n = sat b t0 (vfilters v) n).
  { intros n s ks0 v L K D Hn Hs. assert (Hn' : has_node s n = true) by (apply has_node_In; rewrite <- Hs in Hn; auto).
    split; auto. destruct (has_node_get _ _ Hn') as (nd & E). assert (D1 : data_of s n = Some (data nd)) by (unfold data_of; rewrite E; auto).
    eapply sat_data; eauto. }
  induction H as [ks|ks n s es ks' Hn Hs H IH|ks n s es ks' Hn Hs H IH|ks n s es ks' Hn Hs H IH]; intros v L K D Nk N E v'; subst v'.
  - cbn [hears fst snd]. split; auto. split; [repeat split; auto|]. split; auto.
  - cbn [hears vc_event ev_kind ev_id ev_tree].
    destruct (DS n s (ks ++ [n]) v L K) as [Hn' Hsat]; [apply (D (Ev EAdded n s)); left; auto|apply in_app_iff; simpl; auto|auto|].
    destruct (modify_spec b s n v N K Hn') as (A1 & A2 & A3 & A4 & _).
    destruct (vc_modify b s n v) as [v1 r]. cbn [fst snd] in *. subst r. destruct A2 as (F1 & F2 & F3).
    destruct (IH v1) as (B1 & B2 & B3 & B4); auto.
    + rewrite F1. auto.
    + apply NoDup_snoc; auto.
    + intros x. rewrite F1, A4, in_app_iff. simpl. deq x n.
      * subst. rewrite Hsat. tauto.
      * rewrite E. intuition congruence.
    + split; auto. split; [eapply same_but_trans; [|exact B2]; repeat split; auto|]. split; auto. intros x. rewrite B4, F1. tauto.
  - cbn [hears vc_event ev_kind ev_id ev_tree].
    destruct (DS n s ks v L K) as [Hn' Hsat]; [apply (D (Ev EModified n s)); left; auto|auto|auto|].
    destruct (modify_spec b s n v N K Hn') as (A1 & A2 & A3 & A4 & _).
    destruct (vc_modify b s n v) as [v1 r]. cbn [fst snd] in *. subst r. destruct A2 as (F1 & F2 & F3).
    destruct (IH v1) as (B1 & B2 & B3 & B4); auto.
    + rewrite F1. auto.
    + intros x. rewrite F1, A4. deq x n.
      * subst. rewrite Hsat. tauto.
      * rewrite E. tauto.
    + split; auto. split; [eapply same_but_trans; [|exact B2]; repeat split; auto|]. split; auto. intros x. rewrite B4, F1. tauto.
  - cbn [hears vc_event ev_kind ev_id ev_tree].
    destruct (delete_spec n v N) as ((F1 & F2 & F3) & A3 & A4 & _).
    destruct (IH (vc_delete n v)) as (B1 & B2 & B3 & B4); auto.
    + rewrite F1. auto.
    + apply remove1_NoDup; auto.
    + intros x. rewrite F1, A4, E, remove1_iff by auto. tauto.
    + split; auto. split; [eapply same_but_trans; [|exact B2]; repeat split; auto|]. split; auto. intros x. rewrite B4, F1. tauto.
Qed.

Lemma touches_dec : forall o, (forall x, ~ touches o x) \/ exists n, (forall x, touches o x <-> n = x) /\
  ((exists nd p, o = AddNode n nd p) \/ exists v, o = SetData n v).
Proof.
  destruct o; simpl; try (left; intros; tauto); right; exists n; (split; [tauto|]); eauto.
Qed.

Lemma call_exact : forall o t b v, exact t b v -> fresh_add o ->
  (match o with AddNode _ _ _ => outcome o t = Ok tt | SetData n _ => n <> main_root | _ => True end) ->
  snd (hears b (events o t) v) = Ok tt /\ exact (after o t) b (fst (hears b (events o t) v)).
Proof.
  intros o t b v [N E K Hi L Ha Hk G] Hf Ho.
  assert (HX : false = true -> unlisted_add t o) by discriminate.
  destruct (run_op_good false o t G Hf HX) as [G' _].
  pose proof (op_data false o t G) as D. unfold wp in D. destruct D as [D1 D2].
  fold (after o t) in *. fold (events o t) in *. rewrite Forall_forall in D2.
  assert (Ho' : match o with AddNode _ _ _ => outcome o t = Ok tt | _ => True end) by (destruct o; auto).
  pose proof (op_tells false o t G Hf Ho') as T. unfold get_all_nodes in T.
  assert (DX : forall s x w, data_of s x = Some w -> has_node s x = true).
  { intros s x w H. unfold data_of in H. unfold has_node, dmem. destruct (dget x (nodes s)); auto. discriminate. }
  assert (XD : forall s x, has_node s x = true -> exists w, data_of s x = Some w).
  { intros s x H. destruct (has_node_get _ _ H) as (nd & Q). exists (data nd). unfold data_of. rewrite Q. auto. }
  assert (FIN : forall v', same_but v v' -> NoDup (vnodes v') ->
    (forall x, In x (vnodes v') <-> has_node (after o t) x = true /\ sat b (after o t) (vfilters v) x = true) -> exact (after o t) b v').
  { intros v' (F1 & F2 & F3) N' E'. constructor; auto; [|rewrite F1; auto|congruence]. intros x. rewrite E', F1. tauto. }
  destruct (touches_dec o) as [Ht|(n & Ht & Hc)].
  - (* no data change *)
    assert (DF : forall s, dd (touches o) t s -> dd (fun _ => False) t s) by (intros s H x w _; apply H; auto).
    destruct (hears_told b t (events o t) _ _ v T L K) as (A1 & A2 & A3 & A4); auto.
    + apply (ok_keys _ (g_ok _ _ _ G)).
    + intros x. rewrite E, has_node_In. tauto.
    + split; auto. apply FIN; auto. intros x. rewrite A4, has_node_In. split; intros [H1 H2]; split; auto.
      * destruct (XD (after o t) x) as (w & Hw); [apply has_node_In; auto|].
        rewrite <- (sat_data b t (after o t) _ x w); auto; apply (D1 x w); auto.
      * destruct (XD (after o t) x) as (w & Hw); [apply has_node_In; auto|].
        rewrite (sat_data b t (after o t) _ x w); auto; apply (D1 x w); auto.
  - assert (ONE : forall k, events o t = [Ev k n (after o t)] -> k <> EDeleted ->
       has_node (after o t) n = true -> (forall x, x <> n -> has_node (after o t) x = has_node t x) ->
       snd (hears b (events o t) v) = Ok tt /\ exact (after o t) b (fst (hears b (events o t) v))).
    { intros k Hev Hkd Hn Hx. rewrite Hev, hears_app1. cbn [fst snd].
      assert (Q : vc_event b (Ev k n (after o t)) v = vc_modify b (after o t) n v) by (destruct k; auto; congruence).
      rewrite Q. destruct (modify_spec b (after o t) n v N K Hn) as (A1 & A2 & A3 & A4 & _).
      split; auto. apply FIN; auto. intros x. rewrite A4. deq x n; [subst; tauto|].
      rewrite E, Hx by auto. split; intros [H1 H2]; split; auto; destruct (XD (after o t) x) as (w & Hw); try (rewrite Hx by auto; auto; fail).
      * rewrite <- (sat_data b t (after o t) _ x w) ; auto; apply (D1 x w); auto; rewrite Ht; congruence.
      * rewrite (sat_data b t (after o t) _ x w) ; auto; apply (D1 x w); auto; rewrite Ht; congruence. }
    assert (NONE : after o t = t -> events o t = [] ->
       snd (hears b (events o t) v) = Ok tt /\ exact (after o t) b (fst (hears b (events o t) v))).
    { intros Q1 Q2. rewrite Q1, Q2. simpl. split; auto. constructor; auto. }
    destruct Hc as [(nd & p & ->)|(w & ->)].
    + destruct (has_node t n) eqn:Hn.
      * assert (Q : run_op (AddNode n nd p) t = (t, [], Ok tt))
          by (simpl; unfold add_node; rewrite bind_get, Hn; reflexivity).
        apply NONE; unfold after, events; rewrite Q; auto.
      * destruct (add_node_spec false n nd p t G Hn Hf) as
          (t3 & es & r & tg & Q & G3 & Gg & Gr & En & PD & HR); [discriminate|].
        unfold outcome in Ho. cbn [run_op] in Ho. rewrite Q in Ho. cbn [snd] in Ho.
        assert (K3 : forall x, has_node t3 x = true <-> has_node t x = true \/ x = n).
        { intros x. rewrite !has_node_In, En, (grown_keys _ _ _ Gr), dkeys_put by auto. rewrite in_app_iff. simpl. intuition. }
        destruct HR as [(R1 & _)|(R1 & R2 & _)]; [congruence|].
        apply (ONE EAdded); unfold after, events; cbn [run_op]; rewrite ?Q; cbn [fst snd].
        -- rewrite R2. auto.
        -- discriminate.
        -- apply K3. auto.
        -- intros x Hx. specialize (K3 x). destruct (has_node t3 x), (has_node t x); intuition congruence.
    + destruct (has_node t n) eqn:Hn.
      * destruct (has_node_get _ _ Hn) as (nd & Q).
        assert (R : run_op (SetData n w) t = (upd_node n (set_data w) t, [Ev EModified n (upd_node n (set_data w) t)], Ok tt)).
        { simpl. unfold set_node_data, live, bind. rewrite Q. simpl. unfold modify_node, bind, get.
          rewrite has_node_upd, Hn. simpl. rewrite (proj2 (eqb_neq n main_root)) by auto. reflexivity. }
        apply (ONE EModified); unfold after, events; rewrite ?R; cbn [fst snd]; auto; [discriminate|rewrite has_node_upd; auto|].
        intros. apply has_node_upd.
      * assert (R : run_op (SetData n w) t = (t, [], Err ValueError)).
        { simpl. unfold set_node_data, live, bind. apply has_node_none in Hn. rewrite Hn. auto. }
        apply NONE; unfold after, events; rewrite R; auto.
Qed.

Lemma modify_all_exact : forall b t l v, exact t b v -> forall f, known b f -> NoDup l ->
  (forall n, In n l -> has_node t n = true) ->
  (forall x, has_node t x = true -> ~ In x l -> (In x (vnodes v) <-> sat b t f x = true)) ->
  let v0 := mkVC (initialized v) f (vnodes v) (callbacks v) (notified v) in
  snd (vc_modify_all b t l v0) = Ok tt /\ exact t b (fst (vc_modify_all b t l v0)).
Proof.
  intros b t l v [N E K Hi L Ha Hk G] f Kf Nl Hl Hx v0.
  destruct (modify_all_spec b t l v0) as (A1 & (F1 & F2 & F3) & A3 & A4 & _); auto.
  split; auto. constructor; auto; try (rewrite F1; auto); try (rewrite F2; auto).
  intros x. rewrite A4. cbn [vfilters vnodes v0]. destruct (mem_spec x l) as [H|H].
  - rewrite (Hl x H). tauto.
  - destruct (has_node t x) eqn:Hn; [rewrite Hx by auto; tauto|]. rewrite E. rewrite Hn. intuition congruence.
Qed.

Lemma count_call_exact : forall c t b v, exact t b v -> countable (t, b, v) c ->
  snd (count_call c (t, b, v)) = Ok tt /\ let '(t', b', v') := fst (count_call c (t, b, v)) in exact t' b' v'.
Proof.
  intros c t b v X Hc. pose proof X as [N E K Hi L Ha Hk G]. destruct c as [o|n|n|f|c].
  - destruct Hc as [H1 H2]. destruct (call_exact o t b v X H1 H2) as [A B]. cbn [count_call].
    destruct (hears b (events o t) v) as [v1 r]. auto.
  - cbn [count_call].
    assert (P : snd (vc_apply_filter b t n true v) = Ok tt /\ exact t b (fst (vc_apply_filter b t n true v))).
    { unfold vc_apply_filter. destruct (has_filter b n) eqn:Hf; [|auto]. destruct (mem n (vfilters v)) eqn:Hm; [auto|].
      cbn [initialized vnodes]. rewrite Hi. cbv zeta.
      assert (Q : get_filter b n <> None).
      { rewrite get_custom by auto. unfold has_filter in Hf. rewrite Ha in Hf. simpl in Hf. unfold dmem in Hf. destruct (dget n (custom b)); congruence. }
      pose proof (modify_all_exact b t (vnodes v) v X (vfilters v ++ [n])) as P. rewrite Hi in P. apply P; auto.
      + intros x Hx. apply in_app_iff in Hx. destruct Hx as [Hx|[<-|[]]]; auto.
      + intros x Hx. apply E in Hx. tauto.
      + intros x Hx Hnx. split; [tauto|]. intros Hs. exfalso. apply Hnx, E. split; auto. unfold sat in *.
        rewrite forallb_app in Hs. apply andb_true_iff in Hs. tauto. }
    destruct (vc_apply_filter b t n true v). auto.
  - cbn [count_call].
    assert (P : snd (vc_unapply_filter b t n v) = Ok tt /\ exact t b (fst (vc_unapply_filter b t n v))).
    { unfold vc_unapply_filter. destruct (mem n (vfilters v)) eqn:Hm; [|auto].
      apply (modify_all_exact b t (get_all_nodes t) v X (remove1 n (vfilters v))).
      + intros x Hx. apply remove1_In in Hx. auto.
      + apply (ok_keys _ (g_ok _ _ _ G)).
      + intros x Hx. apply has_node_In. auto.
      + intros x Hx Hnx. exfalso. apply Hnx. apply has_node_In in Hx. auto. }
    destruct (vc_unapply_filter b t n v). auto.
  - cbn [count_call fst snd]. split; auto. unfold vc_register. destruct (existsb _ _); auto. constructor; auto.
  - cbn [count_call fst snd]. split; auto.
    assert (S : forall m, In m (vfilters v) -> get_filter (bank_call c b) m = get_filter b m).
    { intros m Hm. pose proof (K m Hm) as Km. destruct c as [n f d|n|n d]; cbn [countable] in Hc.
      - rewrite bank_get by tauto. destruct (get_filter b m); congruence.
      - rewrite bank_get by auto. deq n m; auto. congruence.
      - rewrite bank_get by auto. destruct d; auto. deq n m; auto. congruence. }
    assert (SS : forall x, sat (bank_call c b) t (vfilters v) x = sat b t (vfilters v) x).
    { intros x. unfold sat. apply forallb_ext_in'. intros m Hm. unfold sat1. rewrite S; auto. }
    constructor; auto.
    + intros x. rewrite E, SS. tauto.
    + intros m Hm. rewrite S; auto.
    + intros m f Hf. destruct c as [n g d|n|n d]; cbn [countable] in Hc.
      * rewrite bank_get in Hf by tauto. destruct (get_filter b m) eqn:Em; [inv Hf; eapply L; eauto|]. deq n m; [|discriminate].
        inv Hf. simpl. tauto.
      * rewrite bank_get in Hf by auto. deq n m; [discriminate|]. eapply L; eauto.
      * rewrite bank_get in Hf by auto. destruct d as [d|]; [|eapply L; eauto]. deq n m; [|eapply L; eauto].
        destruct (get_filter b m) as [f0|] eqn:Em; [|discriminate]. inv Hf. simpl. eapply L; eauto.
    + apply bank_available; auto.
    + apply bank_keys; auto.
Qed.

Lemma start_exact : forall t b, reachx any_fresh t -> local_bank b -> available b = [] -> NoDup (list_filters b) ->
  exact t b (fst (vc_refresh b t new_vc)).
Proof.
  intros t b R L Ha Hk. pose proof (reachx_good t R) as G. unfold vc_refresh.
  destruct (modify_all_spec b t (get_all_nodes t) new_vc) as (A1 & (F1 & F2 & F3) & A3 & A4 & _).
  - apply (ok_keys _ (g_ok _ _ _ G)).
  - constructor.
  - intros x [].
  - intros x Hx. apply has_node_In; auto.
  - destruct (vc_modify_all b t (get_all_nodes t) new_vc) as [v1 r]. cbn [fst snd] in *. subst r. cbn [fst].
    constructor; auto; cbn [vnodes set_initialized vfilters initialized].
    + intros x. rewrite A4, F1. cbn [vfilters new_vc vnodes]. destruct (mem_spec x (get_all_nodes t)) as [H|H].
      * apply has_node_In in H. rewrite H. tauto.
      * split; [intros []|]. intros [H1 _]. apply has_node_In in H1. contradiction.
    + rewrite F1. intros x [].
    + unfold list_filters in Hk. rewrite Ha in Hk. exact Hk.
Qed.

Lemma counting_exact : forall x, counting x -> let '(t, b, v) := x in exact t b v.
Proof.
  induction 1 as [t b R L Ha Hk|[[t b] v] c H IH Hc].
  - apply start_exact; auto.
  - apply (count_call_exact c t b v IH Hc).
Qed.

Lemma count_is : forall t b v, counting (t, b, v) ->
  (forall x, In x (vnodes v) <-> In x (satisfying b t (vfilters v))) /\
  vc_n_nodes v = length (satisfying b t (vfilters v)).
Proof.
  intros t b v H. pose proof (counting_exact _ H) as [N E K Hi L Ha Hk G].
  assert (E' : forall x, In x (vnodes v) <-> In x (satisfying b t (vfilters v))) by (intros x; rewrite E, satisfying_In; tauto).
  split; auto. unfold vc_n_nodes. apply Permutation_length. apply NoDup_Permutation; auto.
  unfold satisfying. apply filter_NoDup. apply (ok_keys _ (g_ok _ _ _ G)).
Qed.

Lemma count_silent : forall x c, counting x -> countable x c -> snd (count_call c x) = Ok tt.
Proof. intros [[t b] v] c H Hc. apply count_call_exact; auto. apply (counting_exact _ H). Qed.

(** Notifications. *)
Lemma nchanges_one_sided : forall l a b, NoDup l -> (forall x, mem x a <> mem x b -> In x l) ->
  nchanges l a b = length (one_sided a b).
Proof.
  intros l a b N H. unfold nchanges, one_sided. apply Permutation_length. apply NoDup_Permutation.
  - apply filter_NoDup; auto.
  - apply filter_NoDup, dedup_NoDup.
  - intros x. rewrite !filter_In, dedup_In, in_app_iff. split; intros [H1 H2]; split; auto.
    + destruct (mem_spec x a); auto. destruct (mem_spec x b); auto. discriminate.
    + apply H. destruct (mem x a), (mem x b); discriminate.
Qed.

Lemma tells_event : forall t b v e, counting (t, b, v) ->
  (ev_kind e <> EDeleted -> has_node (ev_tree e) (ev_id e) = true) ->
  let v' := fst (vc_event b e v) in
  notified v' = notified v ++ times (length (one_sided (vnodes v) (vnodes v'))) (callbacks v).
Proof.
  intros t b v e H He v'. subst v'. pose proof (counting_exact _ H) as [N E K _ _ _ _ _].
  assert (Q : forall v', (forall x, x <> ev_id e -> (In x (vnodes v') <-> In x (vnodes v))) ->
     length (one_sided (vnodes v) (vnodes v')) = if xorb (mem (ev_id e) (vnodes v)) (mem (ev_id e) (vnodes v')) then 1 else 0).
  { intros v' Hv. rewrite <- (nchanges_one_sided [ev_id e]).
    - unfold nchanges. simpl. destruct (xorb _ _); auto.
    - repeat constructor; auto.
    - intros x Hx. left. destruct (id_dec (ev_id e) x) as [|Hne]; auto. exfalso. apply Hx. apply mem_iff. rewrite Hv; auto; tauto. }
  destruct e as [k n s]. unfold vc_event in *. cbn [ev_kind ev_id ev_tree] in *. destruct k.
  - destruct (modify_spec b s n v N K) as (A1 & A2 & A3 & A4 & A5); [apply He; discriminate|]. rewrite A5, Q; auto.
    intros x Hx. rewrite A4. apply eqb_neq in Hx. rewrite Hx. tauto.
  - destruct (modify_spec b s n v N K) as (A1 & A2 & A3 & A4 & A5); [apply He; discriminate|]. rewrite A5, Q; auto.
    intros x Hx. rewrite A4. apply eqb_neq in Hx. rewrite Hx. tauto.
  - destruct (delete_spec n v N) as (A2 & A3 & A4 & A5). cbn [fst]. rewrite A5, Q.
    + assert (M : mem n (vnodes (vc_delete n v)) = false) by (apply mem_false; rewrite A4; tauto).
      rewrite M. destruct (mem n (vnodes v)); auto.
    + intros x Hx. rewrite A4. tauto.
Qed.

Lemma tells_filters : forall t b v n, counting (t, b, v) ->
  let v1 := fst (vc_apply_filter b t n true v) in
  let v2 := fst (vc_unapply_filter b t n v) in
  notified v1 = notified v ++ times (length (one_sided (vnodes v) (vnodes v1))) (callbacks v) /\
  notified v2 = notified v ++ times (length (one_sided (vnodes v) (vnodes v2))) (callbacks v).
Proof.
  intros t b v n H v1 v2. subst v1 v2. pose proof (counting_exact _ H) as [N E K Hi L Ha Hk G].
  assert (Z : notified v = notified v ++ times (length (one_sided (vnodes v) (vnodes v))) (callbacks v)).
  { replace (one_sided (vnodes v) (vnodes v)) with (@nil id); [simpl; rewrite app_nil_r; auto|]. unfold one_sided.
    symmetry. apply filter_none. intros x _. apply xorb_nilpotent. }
  split.
  - unfold vc_apply_filter. destruct (has_filter b n) eqn:Hf; [|auto]. destruct (mem n (vfilters v)) eqn:Hm; [auto|].
    cbn [initialized vnodes]. rewrite Hi. cbv zeta.
    match goal with |- context [vc_modify_all b t (vnodes v) ?v0] => destruct (modify_all_spec b t (vnodes v) v0) as (A1 & A2 & A3 & A4 & A5) end; auto.
    + cbn [vfilters]. intros x Hx. apply in_app_iff in Hx. destruct Hx as [Hx|[<-|[]]]; auto.
      rewrite get_custom by auto. unfold has_filter in Hf. rewrite Ha in Hf. simpl in Hf. unfold dmem in Hf. destruct (dget n (custom b)); congruence.
    + intros x Hx. apply E in Hx. tauto.
    + cbn [vnodes notified callbacks] in *. rewrite A5 at 1. f_equal. f_equal. apply nchanges_one_sided; auto.
      intros x Hx. destruct (mem_spec x (vnodes v)) as [|Hn]; auto. exfalso. apply Hx. symmetry. apply mem_false. rewrite A4.
      apply mem_false in Hn. rewrite Hn. apply mem_false in Hn. auto.
  - unfold vc_unapply_filter. destruct (mem n (vfilters v)) eqn:Hm; [|auto].
    match goal with |- context [vc_modify_all b t ?l ?v0] => destruct (modify_all_spec b t l v0) as (A1 & A2 & A3 & A4 & A5) end; auto.
    + apply (ok_keys _ (g_ok _ _ _ G)).
    + cbn [vfilters]. intros x Hx. apply remove1_In in Hx. auto.
    + intros x Hx. apply has_node_In. auto.
    + cbn [vnodes notified callbacks] in *. rewrite A5 at 1. f_equal. f_equal. apply nchanges_one_sided; [apply (ok_keys _ (g_ok _ _ _ G))|].
      intros x Hx. destruct (mem_spec x (get_all_nodes t)) as [|Hn]; auto. exfalso. apply Hx. apply mem_iff. rewrite A4.
      pose proof Hn as Hn'. apply mem_false in Hn'. rewrite Hn'. tauto.
Qed.
