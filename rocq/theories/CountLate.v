(** Lemmas about counts that are refreshed late. *)
From Coq Require Import Permutation.
From Verif Require Import Base BaseFacts MainTree Spec MainFacts MainInv MainEvents MainThm Filters ViewCount SpecApi ApiFacts CountFacts SpecCount.

(** What holds of every count. *)
Record sane (t : mtree) (b : bank) (v : vcount) : Prop := mkSane {
  sn_nodup : NoDup (vnodes v);
  sn_nodes : forall x, In x (vnodes v) -> has_node t x = true;
  sn_known : known b (vfilters v);
  sn_avail : available b = [];
  sn_keys : NoDup (dkeys (custom b));
  sn_reach : reachx any_fresh t
}.

Lemma hears_sane : forall b ks es ks', told ks es ks' -> forall v, known b (vfilters v) -> NoDup (vnodes v) ->
  (forall x, In x (vnodes v) -> In x ks) ->
  let v' := fst (hears b es v) in
  snd (hears b es v) = Ok tt /\ same_but v v' /\ NoDup (vnodes v') /\ (forall x, In x (vnodes v') -> In x ks').
Proof.
  intros b ks es ks' H. induction H as [ks|ks n s es ks' Hn Hs H IH|ks n s es ks' Hn Hs H IH|ks n s es ks' Hn Hs H IH]; intros v K N E v'; subst v'.
  - cbn [hears fst snd]. split; auto. split; [repeat split; auto|]. split; auto.
  - cbn [hears vc_event ev_kind ev_id ev_tree].
    assert (Hn' : has_node s n = true) by (apply has_node_In; fold (get_all_nodes s); rewrite Hs; apply in_app_iff; simpl; auto).
    destruct (modify_spec b s n v N K Hn') as (A1 & A2 & A3 & A4 & _).
    destruct (vc_modify b s n v) as [v1 r]. cbn [fst snd] in *. subst r. destruct A2 as (F1 & F2 & F3).
    destruct (IH v1) as (B1 & B2 & B3 & B4); auto.
    + rewrite F1. auto.
    + intros x Hx. apply A4 in Hx. apply in_app_iff. simpl. destruct (String.eqb_spec x n); auto.
    + split; auto. split; [eapply same_but_trans; [|exact B2]; repeat split; auto|]. auto.
  - cbn [hears vc_event ev_kind ev_id ev_tree].
    assert (Hn' : has_node s n = true) by (apply has_node_In; fold (get_all_nodes s); rewrite Hs; auto).
    destruct (modify_spec b s n v N K Hn') as (A1 & A2 & A3 & A4 & _).
    destruct (vc_modify b s n v) as [v1 r]. cbn [fst snd] in *. subst r. destruct A2 as (F1 & F2 & F3).
    destruct (IH v1) as (B1 & B2 & B3 & B4); auto.
    + rewrite F1. auto.
    + intros x Hx. apply A4 in Hx. destruct (String.eqb_spec x n); subst; auto.
    + split; auto. split; [eapply same_but_trans; [|exact B2]; repeat split; auto|]. auto.
  - cbn [hears vc_event ev_kind ev_id ev_tree].
    destruct (delete_spec n v N) as ((F1 & F2 & F3) & A3 & A4 & _).
    destruct (IH (vc_delete n v)) as (B1 & B2 & B3 & B4); auto.
    + rewrite F1. auto.
    + intros x Hx. apply A4 in Hx. destruct Hx as [Hx Hi]. apply E in Hi. clear - Hx Hi.
      induction ks as [|y ks IH]; simpl in *; auto. destruct (String.eqb_spec n y); [|destruct Hi; [left|right]; auto].
      destruct Hi as [Hi|Hi]; auto. congruence.
    + split; auto. split; [eapply same_but_trans; [|exact B2]; repeat split; auto|]. auto.
Qed.

Lemma all_sane : forall b t l v f i, sane t b v -> known b f -> NoDup l -> (forall n, In n l -> has_node t n = true) ->
  let v0 := mkVC i f (vnodes v) (callbacks v) (notified v) in let v' := fst (vc_modify_all b t l v0) in
  snd (vc_modify_all b t l v0) = Ok tt /\ same_but v0 v' /\ sane t b v' /\
  forall x, In x (vnodes v') <-> (if mem x l then sat b t f x = true else In x (vnodes v)).
Proof.
  intros b t l v f i [N E K Ha Hk R] Kf Nl Hl v0 v'.
  destruct (modify_all_spec b t l v0) as (A1 & A2 & A3 & A4 & _); auto. split; auto. split; auto.
  destruct A2 as (F1 & F2 & F3). split; [|exact A4]. constructor; auto; [|unfold v'; rewrite F1; auto].
  intros x Hx. apply A4 in Hx. destruct (mem_spec x l) as [Hm|Hm]; auto.
Qed.

Lemma apply_sane : forall t b v n rf, sane t b v ->
  snd (vc_apply_filter b t n rf v) = Ok tt /\ sane t b (fst (vc_apply_filter b t n rf v)).
Proof.
  intros t b v n rf X. pose proof X as [N E K Ha Hk R]. unfold vc_apply_filter.
  destruct (has_filter b n) eqn:Hf; [|auto]. destruct (mem n (vfilters v)) eqn:Hm; [auto|]. cbv zeta. cbn [initialized vnodes].
  assert (Q : known b (vfilters v ++ [n])).
  { intros x Hx. apply in_app_iff in Hx. destruct Hx as [Hx|[<-|[]]]; auto.
    rewrite get_custom by auto. unfold has_filter in Hf. rewrite Ha in Hf. simpl in Hf. unfold dmem in Hf. destruct (dget n (custom b)); congruence. }
  destruct rf; [|split; auto; constructor; auto]. destruct (initialized v).
  - destruct (all_sane b t (vnodes v) v (vfilters v ++ [n]) true X Q N E) as (A & _ & B & _). auto.
  - unfold vc_refresh. destruct (all_sane b t (get_all_nodes t) v (vfilters v ++ [n]) false X Q) as (A & _ & B & _).
    + apply (ok_keys _ (g_ok _ _ _ (reachx_good _ R))).
    + intros x Hx. apply has_node_In. auto.
    + destruct (vc_modify_all b t (get_all_nodes t) _) as [v1 r]. cbn [fst snd] in *. subst r. split; auto.
      destruct B. constructor; auto.
Qed.

Lemma unapply_sane : forall t b v n, sane t b v -> let v' := fst (vc_unapply_filter b t n v) in
  snd (vc_unapply_filter b t n v) = Ok tt /\ sane t b v' /\
  (In n (vfilters v) -> vfilters v' = remove1 n (vfilters v) /\ forall x, In x (vnodes v') <-> has_node t x = true /\ sat b t (vfilters v') x = true).
Proof.
  intros t b v n X. pose proof X as [N E K Ha Hk R]. cbv zeta. unfold vc_unapply_filter.
  destruct (mem_spec n (vfilters v)) as [Hm|Hm]; [|split; auto; split; auto; tauto].
  destruct (all_sane b t (get_all_nodes t) v (remove1 n (vfilters v)) (initialized v) X) as (A & (F1 & _) & B & C).
  - intros x Hx. apply remove1_In in Hx. auto.
  - apply (ok_keys _ (g_ok _ _ _ (reachx_good _ R))).
  - intros x Hx. apply has_node_In. auto.
  - split; auto. split; auto. intros _. split; [exact F1|]. intros x. rewrite C, F1. cbn [vfilters].
    destruct (mem_spec x (get_all_nodes t)) as [H|H].
    + apply has_node_In in H. rewrite H. tauto.
    + split.
      * intros Hx. apply E in Hx. apply has_node_In in Hx. contradiction.
      * intros [Hx _]. apply has_node_In in Hx. contradiction.
Qed.

Lemma late_sane : forall c t b v, sane t b v -> tolerable (t, b, v) c ->
  snd (late_call c (t, b, v)) = Ok tt /\ let '(t', b', v') := fst (late_call c (t, b, v)) in sane t' b' v'.
Proof.
  intros c t b v X Hc. pose proof X as [N E K Ha Hk R]. destruct c as [[o|n|n|f|c]|n rf].
  - destruct Hc as [H1 H2]. cbn [late_call count_call].
    destruct (hears_sane b _ _ _ (events_tell t R o H1 H2) v K N) as (A1 & (F1 & F2 & F3) & A3 & A4).
    { intros x Hx. apply has_node_In. auto. }
    destruct (hears b (events o t) v) as [v1 r]. cbn [fst snd] in *. split; auto. constructor; auto.
    + intros x Hx. apply has_node_In. apply A4. auto.
    + rewrite F1. auto.
    + apply reachx_call; auto.
  - cbn [late_call count_call]. pose proof (apply_sane t b v n true X) as [A B]. destruct (vc_apply_filter b t n true v). auto.
  - cbn [late_call count_call]. pose proof (unapply_sane t b v n X) as (A & B & _). destruct (vc_unapply_filter b t n v). auto.
  - cbn [late_call count_call fst snd]. split; auto. unfold vc_register. destruct (existsb _ _); auto. constructor; auto.
  - cbn [late_call count_call fst snd]. split; auto. constructor; auto.
    + intros m Hm. pose proof (K m Hm) as Km. destruct c as [n f d|n|n d]; cbn [tolerable] in Hc.
      * rewrite bank_get by tauto. destruct (get_filter b m); congruence.
      * rewrite bank_get by auto. destruct (String.eqb_spec n m); [subst; tauto|auto].
      * rewrite bank_get by auto. destruct d; auto. destruct (String.eqb_spec n m); auto. destruct (get_filter b m); cbn; congruence.
    + apply bank_available; auto.
    + apply bank_keys; auto.
  - cbn [late_call]. pose proof (apply_sane t b v n rf X) as [A B]. destruct (vc_apply_filter b t n rf v). auto.
Qed.

Lemma any_count_sane : forall x, any_count x -> let '(t, b, v) := x in sane t b v.
Proof.
  induction 1 as [t b R Ha Hk|[[t b] v] c H IH Hc]; [|apply (late_sane c t b v IH Hc)].
  constructor; auto; try (intros x []; fail); [constructor|]. unfold list_filters in Hk. rewrite Ha in Hk. exact Hk.
Qed.

Definition right_count (t : mtree) (b : bank) (v : vcount) : Prop :=
  (forall x, In x (vnodes v) <-> In x (satisfying b t (vfilters v))) /\ vc_n_nodes v = length (satisfying b t (vfilters v)).
Lemma sane_right : forall t b v, sane t b v -> (forall x, In x (vnodes v) <-> has_node t x = true /\ sat b t (vfilters v) x = true) ->
  (forall x, In x (vnodes v) <-> In x (satisfying b t (vfilters v))) /\ vc_n_nodes v = length (satisfying b t (vfilters v)).
Proof.
  intros t b v [N E K Ha Hk R] H.
  assert (E' : forall x, In x (vnodes v) <-> In x (satisfying b t (vfilters v))) by (intros x; rewrite H, satisfying_In; tauto).
  split; auto. unfold vc_n_nodes. apply Permutation_length. apply NoDup_Permutation; auto.
  unfold satisfying. apply filter_NoDup. apply (ok_keys _ (g_ok _ _ _ (reachx_good _ R))).
Qed.

Lemma unapply_right : forall t b v n, any_count (t, b, v) -> In n (vfilters v) ->
  let v' := fst (vc_unapply_filter b t n v) in
  snd (vc_unapply_filter b t n v) = Ok tt /\ vfilters v' = remove1 n (vfilters v) /\
  (forall x, In x (vnodes v') <-> In x (satisfying b t (vfilters v'))) /\ vc_n_nodes v' = length (satisfying b t (vfilters v')).
Proof.
  intros t b v n H Hn v'. pose proof (any_count_sane _ H) as X. destruct (unapply_sane t b v n X) as (A & B & C). destruct (C Hn) as [C1 C2].
  split; auto. split; auto. apply sane_right; auto.
Qed.
Lemma any_silent : forall x c, any_count x -> tolerable x c -> snd (late_call c x) = Ok tt.
Proof. intros [[t b] v] c H Hc. apply late_sane; auto. apply (any_count_sane _ H). Qed.

(** Counts refreshed late contain what an exact count contains. *)
Definition above (v w : vcount) : Prop := vfilters w = vfilters v /\ forall x, In x (vnodes v) -> In x (vnodes w).

Lemma above_modify : forall b t n v w, NoDup (vnodes v) -> NoDup (vnodes w) -> known b (vfilters v) -> has_node t n = true ->
  above v w -> above (fst (vc_modify b t n v)) (fst (vc_modify b t n w)).
Proof.
  intros b t n v w Nv Nw K Hn [F S]. destruct (modify_spec b t n v Nv K Hn) as (_ & (G1 & _) & _ & A & _).
  destruct (modify_spec b t n w Nw) as (_ & (G2 & _) & _ & B & _); auto; [rewrite F; auto|]. split; [congruence|].
  intros x. rewrite A, B, F. destruct (String.eqb x n); auto.
Qed.
Lemma above_hears : forall b ks es ks', told ks es ks' -> forall v w, NoDup (vnodes v) -> NoDup (vnodes w) -> known b (vfilters v) ->
  above v w -> above (fst (hears b es v)) (fst (hears b es w)).
Proof.
  intros b ks es ks' H. induction H as [ks|ks n s es ks' Hn Hs H IH|ks n s es ks' Hn Hs H IH|ks n s es ks' Hn Hs H IH]; intros v w Nv Nw K A; auto;
    cbn [hears vc_event ev_kind ev_id ev_tree].
  - assert (Hn' : has_node s n = true) by (apply has_node_In; fold (get_all_nodes s); rewrite Hs; apply in_app_iff; simpl; auto).
    pose proof (above_modify b s n v w Nv Nw K Hn' A) as M. destruct A as [F S].
    destruct (modify_spec b s n v Nv K Hn') as (A1 & (F1 & _) & A3 & _). destruct (modify_spec b s n w Nw) as (B1 & _ & B3 & _); auto; [rewrite F; auto|].
    destruct (vc_modify b s n v) as [v1 r]. destruct (vc_modify b s n w) as [w1 r']. cbn [fst snd] in *. subst. apply IH; auto. rewrite F1. auto.
  - assert (Hn' : has_node s n = true) by (apply has_node_In; fold (get_all_nodes s); rewrite Hs; auto).
    pose proof (above_modify b s n v w Nv Nw K Hn' A) as M. destruct A as [F S].
    destruct (modify_spec b s n v Nv K Hn') as (A1 & (F1 & _) & A3 & _). destruct (modify_spec b s n w Nw) as (B1 & _ & B3 & _); auto; [rewrite F; auto|].
    destruct (vc_modify b s n v) as [v1 r]. destruct (vc_modify b s n w) as [w1 r']. cbn [fst snd] in *. subst. apply IH; auto. rewrite F1. auto.
  - destruct A as [F S]. destruct (delete_spec n v Nv) as ((F1 & _) & A3 & A4 & _). destruct (delete_spec n w Nw) as ((F2 & _) & B3 & B4 & _).
    apply IH; auto; [rewrite F1; auto|]. split; [congruence|]. intros x. rewrite A4, B4. intuition.
Qed.

Record trailing (t : mtree) (b : bank) (w : vcount) : Prop := mkTrailing {
  tr_sane : sane t b w;
  tr_ghost : exists v, exact t b v /\ vfilters v = vfilters w /\ (initialized w = true -> above v w)
}.

Lemma exact_sat : forall t b v x, exact t b v -> (In x (vnodes v) <-> has_node t x = true /\ sat b t (vfilters v) x = true).
Proof. intros t b v x X. apply (ex_nodes _ _ _ X). Qed.

Lemma apply_trailing : forall t b w n rf, trailing t b w -> trailing t b (fst (vc_apply_filter b t n rf w)) /\
  (rf = true -> has_filter b n = true -> ~ In n (vfilters w) ->
   forall x, In x (vnodes (fst (vc_apply_filter b t n rf w))) <->
     has_node t x = true /\ sat b t (vfilters (fst (vc_apply_filter b t n rf w))) x = true).
Proof.
  intros t b w n rf [X (v & Xv & F & A)]. destruct (apply_sane t b w n rf X) as [Y1 Y2].
  pose proof (count_call_exact (CApply n) t b v Xv I) as [_ G]. cbn [count_call] in G.
  unfold vc_apply_filter in *. rewrite F in G. destruct (has_filter b n) eqn:Hf; [|split; [constructor; eauto|discriminate]].
  destruct (mem_spec n (vfilters w)) as [Hm|Hm]; [split; [constructor; eauto|tauto]|].
  cbv zeta in *. cbn [initialized vnodes] in *. rewrite (ex_init _ _ _ Xv) in G.
  assert (Q : known b (vfilters w ++ [n])).
  { intros x Hx. apply in_app_iff in Hx. destruct Hx as [Hx|[<-|[]]]; [apply (sn_known _ _ _ X); auto|].
    rewrite get_custom by (apply (sn_avail _ _ _ X)). unfold has_filter in Hf. rewrite (sn_avail _ _ _ X) in Hf. simpl in Hf. unfold dmem in Hf. destruct (dget n (custom b)); congruence. }
  assert (Fv : vfilters (fst (vc_modify_all b t (vnodes v) (mkVC true (vfilters w ++ [n]) (vnodes v) (callbacks v) (notified v)))) = vfilters w ++ [n]).
  { destruct (modify_all_spec b t (vnodes v) (mkVC true (vfilters w ++ [n]) (vnodes v) (callbacks v) (notified v))) as (_ & (G1 & _) & _); auto.
    - apply (ex_nodup _ _ _ Xv). - apply (ex_nodup _ _ _ Xv). - intros x Hx. apply (exact_sat t b v x Xv) in Hx; tauto. }
  destruct (vc_modify_all b t (vnodes v) _) as [v1 r]. cbn [fst] in *.
  assert (FIN : forall w', sane t b w' -> vfilters w' = vfilters w ++ [n] ->
     (initialized w' = true -> forall x, has_node t x = true -> sat b t (vfilters w ++ [n]) x = true -> In x (vnodes w')) -> trailing t b w').
  { intros w' S1 S2 S3. constructor; auto. exists v1. split; auto. split; [congruence|]. intros Hi. split; [congruence|]. intros x Hx.
    apply (exact_sat _ _ _ x G) in Hx. rewrite Fv in Hx. apply S3; tauto. }
  assert (SP : forall x, sat b t (vfilters w ++ [n]) x = true -> sat b t (vfilters w) x = true).
  { intros x. unfold sat. rewrite forallb_app, andb_true_iff. tauto. }
  destruct rf.
  - destruct (initialized w) eqn:Hi.
    + destruct (all_sane b t (vnodes w) w (vfilters w ++ [n]) true X Q (sn_nodup _ _ _ X) (sn_nodes _ _ _ X)) as (B1 & (G1 & _) & B3 & B4).
      cbn [vfilters] in G1.
      assert (EX : forall x, In x (vnodes (fst (vc_modify_all b t (vnodes w) (mkVC true (vfilters w ++ [n]) (vnodes w) (callbacks w) (notified w))))) <->
         has_node t x = true /\ sat b t (vfilters w ++ [n]) x = true).
      { intros x. rewrite B4. destruct (mem_spec x (vnodes w)) as [H|H].
        - rewrite (sn_nodes _ _ _ X x H). tauto.
        - split; [tauto|]. intros [H1 H2]. exfalso. apply H. apply A; auto. apply (exact_sat t b v x Xv). rewrite F. auto. }
      split; [|intros _ _ _ x; rewrite G1; apply EX]. apply FIN; auto. intros _ x H1 H2. apply EX. auto.
    + unfold vc_refresh in *. destruct (all_sane b t (get_all_nodes t) w (vfilters w ++ [n]) false X Q) as (B1 & (G1 & _) & B3 & B4).
      { apply (ok_keys _ (g_ok _ _ _ (reachx_good _ (sn_reach _ _ _ X)))). }
      { intros x Hx. apply has_node_In. auto. }
      cbn [vfilters] in G1. destruct (vc_modify_all b t (get_all_nodes t) _) as [w1 r1]. cbn [fst snd] in *. subst r1. cbn [fst vnodes set_initialized vfilters] in *.
      assert (EX : forall x, In x (vnodes w1) <-> has_node t x = true /\ sat b t (vfilters w ++ [n]) x = true).
      { intros x. rewrite B4. destruct (mem_spec x (get_all_nodes t)) as [H|H].
        - apply has_node_In in H. rewrite H. tauto.
        - split; [intros Hx; apply (sn_nodes _ _ _ X), has_node_In in Hx; contradiction|intros [Hx _]; apply has_node_In in Hx; contradiction]. }
      split; [|intros _ _ _ x; rewrite G1; apply EX]. apply FIN; auto. intros _ x H1 H2. apply EX. auto.
  - split; [|discriminate]. apply FIN; auto. cbn [initialized vnodes fst]. intros Hi x H1 H2. apply A; auto. apply (exact_sat t b v x Xv). rewrite F. auto.
Qed.

Lemma init_unapply : forall t b v n, sane t b v -> initialized (fst (vc_unapply_filter b t n v)) = initialized v.
Proof.
  intros t b v n X. unfold vc_unapply_filter. destruct (mem n (vfilters v)); auto.
  destruct (all_sane b t (get_all_nodes t) v (remove1 n (vfilters v)) (initialized v) X) as (A & (F1 & F2 & _) & _); auto.
  - intros x Hx. apply remove1_In in Hx. apply (sn_known _ _ _ X). auto.
  - apply (ok_keys _ (g_ok _ _ _ (reachx_good _ (sn_reach _ _ _ X)))).
  - intros x Hx. apply has_node_In. auto.
Qed.

Lemma late_trailing : forall c t b w, trailing t b w -> relaxed (t, b, w) c ->
  let '(t', b', w') := fst (late_call c (t, b, w)) in trailing t' b' w'.
Proof.
  intros c t b w T Hc. pose proof T as [X (v & Xv & F & A)]. pose proof X as [N E K Ha Hk R].
  assert (TO : tolerable (t, b, w) c).
  { destruct c as [[o|n|n|f|[n g d|n|n d]]|n rf]; cbn in *; auto; try tauto. destruct Hc as [H1 H2]. split; auto. destruct o; auto. }
  pose proof (late_sane c t b w X TO) as [_ S].
  destruct c as [[o|n|n|f|c]|n rf].
  - destruct Hc as [H1 H2]. assert (H2' : match o with AddNode _ _ _ => outcome o t = Ok tt | _ => True end) by (destruct o; auto).
    destruct (call_exact o t b v Xv H1 H2) as [_ B]. cbn [late_call count_call] in *.
    pose proof (above_hears b _ _ _ (events_tell t R o H1 H2') v w (ex_nodup _ _ _ Xv) N (ex_known _ _ _ Xv)) as AH.
    destruct (hears_sane b _ _ _ (events_tell t R o H1 H2') w K N) as (_ & (F1 & F2 & _) & _).
    { intros x Hx. apply has_node_In. auto. }
    destruct (hears_sane b _ _ _ (events_tell t R o H1 H2') v (ex_known _ _ _ Xv) (ex_nodup _ _ _ Xv)) as (_ & (F3 & _) & _).
    { intros x Hx. apply has_node_In. apply (exact_sat t b v x Xv) in Hx; tauto. }
    destruct (hears b (events o t) w) as [w1 r]. destruct (hears b (events o t) v) as [v1 r']. cbn [fst snd] in *.
    constructor; auto. exists v1. split; auto. split; [congruence|]. intros Hi. apply AH. apply A. congruence.
  - cbn [late_call count_call]. pose proof (apply_trailing t b w n true T) as [B _]. destruct (vc_apply_filter b t n true w). auto.
  - pose proof (count_call_exact (CUnapply n) t b v Xv I) as [_ G]. cbn [late_call count_call] in *.
    destruct (unapply_sane t b w n X) as (_ & _ & C). pose proof (init_unapply t b w n X) as IU.
    destruct (mem_spec n (vfilters w)) as [Hm|Hm].
    + destruct (C Hm) as [C1 C2].
      assert (Xs : sane t b v).
      { destruct Xv as [Nv Ev Kv Iv Lv Av Hv Gv]. constructor; auto. intros x Hx. apply Ev in Hx. tauto. }
      destruct (unapply_sane t b v n Xs) as (_ & _ & D). destruct D as [D1 D2]; [rewrite F; auto|].
      destruct (vc_unapply_filter b t n w) as [w1 r]. destruct (vc_unapply_filter b t n v) as [v1 r']. cbn [fst snd] in *.
      constructor; auto. exists v1. split; auto. split; [congruence|]. intros _. split; [congruence|]. intros x. rewrite C2, D2, D1, C1, F. auto.
    + unfold vc_unapply_filter. destruct (mem_spec n (vfilters w)); [tauto|]. auto.
  - cbn [late_call count_call fst snd] in *. constructor; auto. exists v. split; auto. unfold vc_register in *. destruct (existsb _ _); auto.
  - assert (Hc' : countable (t, b, v) (CBank c)). { cbn in *. destruct c; rewrite ?F; auto. }
    pose proof (count_call_exact (CBank c) t b v Xv Hc') as [_ G]. cbn [late_call count_call fst snd] in *. constructor; auto. exists v. auto.
  - cbn [late_call]. pose proof (apply_trailing t b w n rf T) as [B _]. destruct (vc_apply_filter b t n rf w). auto.
Qed.

Lemma exact_sane : forall t b v, reachx any_fresh t -> exact t b v -> sane t b v.
Proof. intros t b v R [Nv Ev Kv Iv Lv Av Hv Gv]. constructor; auto. intros x Hx. apply Ev in Hx. tauto. Qed.

Lemma late_count_trailing : forall x, late_count x -> let '(t, b, v) := x in trailing t b v.
Proof.
  induction 1 as [t b rf R L Ha Hk|[[t b] v] c H IH Hc]; [|apply (late_trailing c t b v IH Hc)].
  pose proof (start_exact t b R L Ha Hk) as S. destruct rf.
  - constructor; [apply exact_sane; auto|]. exists (fst (vc_refresh b t new_vc)). split; auto. split; auto. split; auto.
  - constructor; [apply (any_count_sane (t, b, new_vc)); constructor; auto|]. exists (fst (vc_refresh b t new_vc)). split; auto. split; [|discriminate].
    unfold vc_refresh. destruct (all_sane b t (get_all_nodes t) new_vc [] false) as (A & (F1 & _) & _).
    + apply (any_count_sane (t, b, new_vc)); constructor; auto.
    + intros x [].
    + apply (ok_keys _ (g_ok _ _ _ (reachx_good _ R))).
    + intros x Hx. apply has_node_In. auto.
    + cbn [vnodes callbacks notified new_vc] in *. change (mkVC false [] [] [] []) with new_vc in *.
      destruct (vc_modify_all b t (get_all_nodes t) new_vc) as [v1 r]. cbn [fst snd] in *. subst r. cbn. exact F1.
Qed.

Lemma apply_right : forall t b v n, late_count (t, b, v) -> has_filter b n = true -> ~ In n (vfilters v) ->
  let v' := fst (vc_apply_filter b t n true v) in
  (forall x, In x (vnodes v') <-> In x (satisfying b t (vfilters v'))) /\ vc_n_nodes v' = length (satisfying b t (vfilters v')).
Proof.
  intros t b v n H Hf Hn v'. pose proof (late_count_trailing _ H) as T. destruct (apply_trailing t b v n true T) as [T' EX].
  apply sane_right; [apply T'|]. apply EX; auto.
Qed.

Lemma late_contains : forall t b v, late_count (t, b, v) -> initialized v = true ->
  forall x, In x (satisfying b t (vfilters v)) -> In x (vnodes v).
Proof.
  intros t b v H Hi x Hx. pose proof (late_count_trailing _ H) as [_ (w & Xw & F & A)]. apply satisfying_In in Hx. apply A; auto.
  apply (exact_sat t b w x Xw). rewrite F. auto.
Qed.
