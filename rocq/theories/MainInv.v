(** Every call preserves the invariant, ends, and only shows good trees to the
    callbacks. *)
From Verif Require Import Base BaseFacts MainTree Spec MainFacts.
Open Scope m_scope.

(** [before l x y]: [x] comes before [y] in [l]. *)
Definition before (l : list id) (x y : id) : Prop := exists a b c, l = a ++ x :: b ++ y :: c.

Lemma before_app : forall l m x y, before l x y -> before (l ++ m) x y.
Proof.
  intros l m x y (a & b & c & E). subst. exists a, b, (c ++ m).
  rewrite <- !app_assoc. simpl. rewrite <- app_assoc. auto.
Qed.

Lemma before_last : forall l x y, In x l -> before (l ++ [y]) x y.
Proof.
  intros. apply in_split in H. destruct H as (a & b & E). subst.
  exists a, b, []. rewrite <- app_assoc. auto.
Qed.

Lemma before_sub : forall l n x y, before (remove1 n l) x y -> before l x y.
Proof.
  induction l; simpl; auto. intros. deq n a.
  - destruct H as (u & v & w & E'). subst. exists (a :: u), v, w. auto.
  - destruct H as (u & v & w & E'). destruct u as [|u0 u]; simpl in E'.
    + inv E'.
      assert (In y (remove1 n l)) by (rewrite H1; apply in_app_iff; auto).
      apply remove1_In in H. apply in_split in H. destruct H as (c1 & c2 & E2). subst.
      exists [], c1, c2. auto.
    + inv E'. destruct (IHl n x y) as (u' & v' & w' & E2).
      * exists u, v, w. auto.
      * subst. exists (u0 :: u'), v', w'. auto.
Qed.

Lemma before_remove : forall l n x y, n <> x -> n <> y -> before l x y -> before (remove1 n l) x y.
Proof.
  intros l n x y Hx Hy (a & b & c & E). subst.
  destruct (In_dec_id n a).
  - rewrite remove1_app_l by auto. exists (remove1 n a), b, c. auto.
  - rewrite remove1_app_r by auto. simpl. deq n x; [congruence|].
    destruct (In_dec_id n b).
    + rewrite remove1_app_l by auto. exists a, (remove1 n b), c. auto.
    + rewrite remove1_app_r by auto. simpl. deq n y; [congruence|]. exists a, b, (remove1 n c). auto.
Qed.

Definition pos (l : list id) (x : id) : nat := match index_of x l with Some i => i | None => 0 end.

Lemma index_of_app_l : forall x a b, In x a -> index_of x (a ++ b) = index_of x a.
Proof.
  induction a; simpl; [tauto|]. intros. deq x a; auto. rewrite IHa; auto. destruct H; congruence || auto.
Qed.

Lemma index_of_app_r : forall x a b, ~ In x a -> index_of x (a ++ b) = option_map (fun i => length a + i) (index_of x b).
Proof.
  induction a; simpl; intros.
  - destruct (index_of x b); auto.
  - deq x a; [subst; tauto|]. rewrite IHa by tauto. destruct (index_of x b); auto.
Qed.

Lemma before_pos : forall l x y, NoDup l -> before l x y -> pos l x < pos l y.
Proof.
  intros l x y ND (a & b & c & E). subst. unfold pos.
  assert (~ In x a) by (intro Hi; apply (NoDup_app_disj _ _ x ND Hi); left; auto).
  assert (~ In y a).
  { intro Hi. apply (NoDup_app_disj _ _ y ND Hi). right. apply in_app_iff. right. left. auto. }
  rewrite !index_of_app_r by auto. simpl. rewrite eqb_refl. simpl.
  apply NoDup_app_r in ND. inv ND. deq y x; [subst; exfalso; apply H3; apply in_app_iff; right; left; auto|].
  assert (~ In y b) by (intro Hi; apply (NoDup_app_disj _ _ y H4 Hi); left; auto).
  rewrite index_of_app_r by auto. simpl. rewrite eqb_refl. simpl. lia.
Qed.

Lemma pos_lt : forall l x, In x l -> pos l x < length l.
Proof.
  intros. unfold pos. destruct (index_of_In _ _ H) as [i Hi]. rewrite Hi.
  apply index_of_nth in Hi. apply nth_error_Some. congruence.
Qed.

Ltac kp := split; [auto|split; [auto|discriminate]].

Section Strict.
(** [strict]: no exception at all to "a listed child lists the node as parent";
    otherwise the weaker rule below. *)
Variable strict : bool.

(** Listed children that do not list the node as parent (left by the deletion of
    a node with several parents) are younger than the node (except for the empty
    id, which new_relationship ignores); [ex] is an exception
    used inside some calls. *)
Definition imp (ex : id -> id -> Prop) (t : mtree) : Prop :=
  forall x c, x <> "" -> c <> "" -> ~ ex x c -> In c (childs t x) -> has_node t c = true -> ~ In x (parents t c) ->
    strict = false /\ before (dkeys (nodes t)) x c.

Definition no_ex : id -> id -> Prop := fun _ _ => False.
Definition one_ex (p q : id) : id -> id -> Prop := fun x c => x = p /\ c = q.

Record goodx (ex : id -> id -> Prop) (t : mtree) : Prop := {
  g_ok : ok t;
  g_imp : imp ex t
}.
Definition good := goodx no_ex.

Lemma goodx_weaken : forall ex t, good t -> goodx ex t.
Proof.
  intros ex t H. constructor; [apply (g_ok _ _ H)|]. intros x c Nx Nc Hx. apply (g_imp _ _ H); auto.
Qed.

Lemma goodx_falsy : forall p c t, p = "" \/ c = "" -> goodx (one_ex p c) t -> good t.
Proof.
  intros p c t E H. constructor; [apply (g_ok _ _ H)|]. intros x y Nx Ny _. apply (g_imp _ _ H); auto.
  intros [E1 E2]. subst. tauto.
Qed.

Lemma goodx_same : forall ex t t', nodes t' = nodes t ->
  (forall p c, In (Some p, c) (pend t') -> p <> c) -> goodx ex t -> goodx ex t'.
Proof.
  intros ex t t' E HP H. constructor.
  - eapply ok_same; eauto. apply H.
  - intros x c Nx Nc He Hc Hl Hn. unfold childs, has_node, parents in *. rewrite E in *. apply (g_imp _ _ H); auto.
Qed.

Lemma goodx_set_rootc : forall ex l t, goodx ex t -> goodx ex (set_rootc l t).
Proof. intros. eapply goodx_same with (t := t); auto. apply (ok_pend _ (g_ok _ _ H)). Qed.

Lemma goodx_set_pend : forall ex l t, (forall p c, In (Some p, c) l -> p <> c) -> goodx ex t -> goodx ex (set_pend l t).
Proof. intros. eapply goodx_same with (t := t); auto. Qed.

Lemma goodx_set_pend_sub : forall ex l t, (forall r, In r l -> In r (pend t)) -> goodx ex t -> goodx ex (set_pend l t).
Proof. intros. apply goodx_set_pend; auto. intros. apply (ok_pend _ (g_ok _ _ H0)). auto. Qed.

Lemma good_add_edge : forall p c t, goodx (one_ex p c) t -> has_node t p = true -> has_node t c = true ->
  ~ anc t c p -> good (add_edge p c t).
Proof.
  intros p c t H Hp Hc Hn. constructor.
  - apply ok_add_edge; auto. apply H.
  - intros x y Nx Ny _ Hy Hl Hx. rewrite has_node_add_edge in Hl. rewrite dkeys_add_edge.
    rewrite childs_add_edge in Hy by auto. rewrite parents_add_edge in Hx by auto.
    assert (Hxy : ~ one_ex p c x y).
    { intros [E1 E2]. subst. rewrite eqb_refl in Hx. simpl in Hx.
      destruct (mem_spec p (parents t c)); simpl in Hx; auto. apply Hx. apply in_app_iff; auto. }
    apply (g_imp _ _ H); auto.
    + deq x p; simpl in Hy; auto. destruct (mem_spec c (childs t x)); simpl in Hy; auto.
      apply in_app_iff in Hy. destruct Hy as [Hy|[Hy|[]]]; auto. subst. exfalso. apply Hxy. split; auto.
    + intro Hin. apply Hx. destruct (String.eqb y c && negb (mem p (parents t y))); auto.
      apply in_app_iff; auto.
Qed.

Lemma good_del_edge : forall p c t, goodx (one_ex p c) t -> good (del_edge p c t).
Proof.
  intros p c t H. constructor.
  - apply ok_del_edge. apply H.
  - intros x y Nx Ny _ Hy Hl Hx. rewrite has_node_del_edge in Hl. rewrite dkeys_del_edge.
    rewrite childs_del_edge in Hy. rewrite parents_del_edge in Hx.
    assert (Hxy : ~ one_ex p c x y).
    { intros [E1 E2]. subst. rewrite eqb_refl in Hy. apply remove1_iff in Hy; [tauto|].
      apply (ok_ndc _ (g_ok _ _ H)). }
    apply (g_imp _ _ H); auto.
    + deq x p; auto. apply remove1_In in Hy. auto.
    + intro Hin. apply Hx. deq y c; auto. apply remove1_In_neq; auto.
      intro; subst; apply Hxy; split; auto.
Qed.

(** A new node, with no relations. *)
Lemma dget_put : forall n nd t x,
  dget x (nodes (set_nodes (dset n nd (nodes t)) t)) = if String.eqb x n then Some nd else dget x (nodes t).
Proof. intros. simpl. apply dget_dset. Qed.

Lemma good_put : forall n nd t, good t -> has_node t n = false -> par nd = [] -> chi nd = [] ->
  (strict = true -> forall p, ~ In n (childs t p)) ->
  good (set_nodes (dset n nd (nodes t)) t).
Proof.
  intros n nd t H Hn Ep Ec Hs.
  set (t' := set_nodes (dset n nd (nodes t)) t).
  assert (HP : forall x, parents t' x = parents t x).
  { intros. unfold parents, t'. rewrite dget_put. deq x n; auto. subst. rewrite (has_node_none _ _ Hn). auto. }
  assert (HC : forall x, childs t' x = childs t x).
  { intros. unfold childs, t'. rewrite dget_put. deq x n; auto. subst. rewrite (has_node_none _ _ Hn). auto. }
  assert (HL : forall x, has_node t' x = String.eqb x n || has_node t x).
  { intros. unfold has_node, dmem, t'. rewrite dget_put. deq x n; auto. }
  assert (HK : dkeys (nodes t') = dkeys (nodes t) ++ [n]).
  { unfold t'. simpl. apply dkeys_dset_notin. intro. apply has_node_In in H0. congruence. }
  constructor; [constructor|..].
  - unfold t'. simpl. apply dset_NoDup. apply (ok_keys _ (g_ok _ _ H)).
  - intros c p Hp. rewrite HP in Hp. rewrite HC, HL. destruct (ok_sym _ (g_ok _ _ H) _ _ Hp).
    rewrite H0. rewrite orb_true_r. auto.
  - intros. rewrite HP. apply (ok_ndp _ (g_ok _ _ H)).
  - intros. rewrite HC. apply (ok_ndc _ (g_ok _ _ H)).
  - apply (ok_pend _ (g_ok _ _ H)).
  - destruct (ok_rank _ (g_ok _ _ H)) as [r Hr]. exists r. intros. rewrite HP in H0. auto.
  - intros x c Nx Nc _ Hc Hl Hx. rewrite HC in Hc. rewrite HP in Hx. rewrite HL in Hl. rewrite HK.
    deq c n.
    + subst. split.
      * destruct strict; auto. exfalso. eapply Hs; eauto.
      * apply before_last. apply has_node_In. eapply In_childs_live; eauto.
    + destruct (g_imp _ _ H x c); auto. split; auto. apply before_app. auto.
Qed.

(** Taking out a node that is nobody's parent. *)
Lemma has_node_pop : forall n t t0 x, NoDup (dkeys (nodes t)) ->
  has_node (set_nodes (ddel n (nodes t)) t0) x = negb (String.eqb x n) && has_node t x.
Proof. intros. unfold has_node. simpl. apply dmem_ddel; auto. Qed.

Lemma parents_pop : forall n t t0 x, NoDup (dkeys (nodes t)) ->
  parents (set_nodes (ddel n (nodes t)) t0) x = if String.eqb x n then [] else parents t x.
Proof. intros. unfold parents. simpl. rewrite dget_ddel by auto. deq x n; auto. Qed.

Lemma childs_pop : forall n t t0 x, NoDup (dkeys (nodes t)) ->
  childs (set_nodes (ddel n (nodes t)) t0) x = if String.eqb x n then [] else childs t x.
Proof. intros. unfold childs. simpl. rewrite dget_ddel by auto. deq x n; auto. Qed.

Lemma good_pop : forall n t, good t -> (forall c, ~ In n (parents t c) \/ c = n) ->
  good (set_nodes (ddel n (nodes t)) t).
Proof.
  intros n t H Hn. pose proof (ok_keys _ (g_ok _ _ H)) as NDK.
  constructor; [constructor|..].
  - simpl. apply ddel_NoDup. auto.
  - intros c p Hp. rewrite parents_pop in Hp by auto. deq c n; [destruct Hp|].
    destruct (ok_sym _ (g_ok _ _ H) _ _ Hp) as [Hl Hc].
    rewrite has_node_pop, childs_pop by auto. deq p n; simpl; auto.
    subst. destruct (Hn c); tauto.
  - intros. rewrite parents_pop by auto. deq x n; [constructor|]. apply (ok_ndp _ (g_ok _ _ H)).
  - intros. rewrite childs_pop by auto. deq x n; [constructor|]. apply (ok_ndc _ (g_ok _ _ H)).
  - apply (ok_pend _ (g_ok _ _ H)).
  - destruct (ok_rank _ (g_ok _ _ H)) as [r Hr]. exists r. intros p c Hp.
    rewrite parents_pop in Hp by auto. deq c n; [destruct Hp|auto].
  - intros x c Nx Nc _ Hc Hl Hx. rewrite childs_pop in Hc by auto. deq x n; [destruct Hc|].
    rewrite has_node_pop in Hl by auto. rewrite parents_pop in Hx by auto.
    deq c n; [discriminate|]. simpl. rewrite ddel_dkeys.
    destruct (g_imp _ _ H x c); auto. split; auto. apply before_remove; auto.
Qed.

Lemma wp_get : forall B (k : mtree -> M B) (Q : mtree -> list event -> res B -> Prop) t,
  wp (k t) Q t -> wp (bind get k) Q t.
Proof. intros. unfold wp. rewrite bind_get. auto. Qed.

Lemma wp_modify : forall B f (k : unit -> M B) (Q : mtree -> list event -> res B -> Prop) t,
  wp (k tt) Q (f t) -> wp (bind (modify f) k) Q t.
Proof. intros. unfold wp. rewrite bind_modify. auto. Qed.

Lemma wp_Ok_nil : forall A B (m : M A) (k : A -> M B) (Q : mtree -> list event -> res B -> Prop) t t1 a,
  m t = (t1, [], Ok a) -> wp (k a) Q t1 -> wp (bind m k) Q t.
Proof. intros. unfold wp. erewrite bind_Ok_nil by eauto. auto. Qed.

(** What every call guarantees: good tree, good snapshots, an end. *)
Definition keeps_post {A} (t' : mtree) (es : list event) (r : res A) : Prop :=
  good t' /\ Forall (fun e => good (ev_tree e)) es /\ r <> Diverge.

Definition keeps {A} (m : M A) : Prop := forall t, good t -> wp m keeps_post t.

Lemma keeps_ret : forall A (a : A), keeps (ret a).
Proof. intros A a t H. unfold wp, keeps_post; simpl. kp. Qed.

Lemma keeps_raise : forall A e, keeps (@raise A e).
Proof. intros A e t H. unfold wp, keeps_post; simpl. kp. Qed.

Lemma keeps_bind_wp : forall A B (m : M A) (k : A -> M B) t,
  wp m keeps_post t ->
  (forall a t1 e1, m t = (t1, e1, Ok a) -> good t1 -> wp (k a) keeps_post t1) ->
  wp (bind m k) keeps_post t.
Proof.
  intros A B m k t Hm Hk. apply wp_bind. unfold wp in *.
  destruct (m t) as [[t1 e1] r]. simpl in *. destruct Hm as (G & F & D).
  destruct r as [a|e|]; simpl in *.
  - destruct (Hk a t1 e1 eq_refl G) as (G2 & F2 & D2).
    unfold keeps_post. split; [|split]; auto. apply Forall_app; auto.
  - unfold keeps_post. kp.
  - congruence.
Qed.

Lemma keeps_bind : forall A B (m : M A) (k : A -> M B),
  keeps m -> (forall a, keeps (k a)) -> keeps (bind m k).
Proof. intros A B m k Hm Hk t H. apply keeps_bind_wp; auto. intros. apply Hk; auto. Qed.

Lemma keeps_get : keeps get.
Proof. intros t H. unfold wp, keeps_post; simpl. kp. Qed.

Lemma keeps_modify : forall f, (forall t, good t -> good (f t)) -> keeps (modify f).
Proof. intros f Hf t H. unfold wp, keeps_post; simpl. kp. Qed.

Lemma keeps_callback : forall k n, keeps (callback k n).
Proof.
  intros k n t H. unfold wp, keeps_post; simpl. kp.
Qed.

Lemma keeps_for_each : forall X (l : list X) body, (forall x, keeps (body x)) -> keeps (for_each l body).
Proof.
  induction l; simpl; intros.
  - apply keeps_ret.
  - apply keeps_bind; auto.
Qed.

Lemma keeps_live : forall n, keeps (live n).
Proof.
  intros n t H. unfold wp, live, keeps_post. destruct (dget n (nodes t)); simpl; kp.
Qed.

Lemma keeps_node_at : forall n, keeps (node_at n).
Proof.
  intros n t H. unfold wp, node_at, keeps_post. destruct (dget n (nodes t)); simpl; kp.
Qed.

Lemma keeps_eq : forall A (m : M A) t t' r, m t = (t', [], r) -> good t' -> r <> Diverge -> wp m keeps_post t.
Proof. intros. eapply wp_intro; eauto. split; auto. Qed.

Lemma keeps_pend_append : forall p c, (forall x, p = Some x -> x <> c) -> keeps (pend_append (p, c)).
Proof.
  intros p c Hp. apply keeps_modify. intros t H. apply goodx_set_pend; auto.
  intros q d Hq. apply in_app_iff in Hq. destruct Hq as [Hq|[Hq|[]]].
  - apply (ok_pend _ (g_ok _ _ H)); auto.
  - inv Hq. apply Hp; auto.
Qed.

Lemma rel_eqb_eq : forall a b, rel_eqb a b = true <-> a = b.
Proof.
  intros [p c] [q d]. unfold rel_eqb. simpl. destruct p, q; rewrite ?andb_true_iff, ?eqb_eq;
  split; intros; try discriminate; intuition congruence.
Qed.

Lemma rel_mem_In : forall r l, rel_mem r l = true <-> In r l.
Proof.
  intros. unfold rel_mem. rewrite existsb_exists. split.
  - intros (x & H1 & H2). apply rel_eqb_eq in H2. subst; auto.
  - intros. exists r. split; auto. apply rel_eqb_eq; auto.
Qed.

Lemma rel_remove1_In : forall r x l, In x (rel_remove1 r l) -> In x l.
Proof. induction l; simpl; auto. destruct (rel_eqb r a); simpl; intuition. Qed.

(** [is_circular] then [create_relationship] *)
Lemma circ_cases : forall t p c, good t ->
  (is_circular p c t = (t, [], Ok true) /\ anc t c p) \/ (is_circular p c t = (t, [], Ok false) /\ ~ anc t c p).
Proof.
  intros t p c H. destruct (is_circular_spec t p c (g_ok _ _ H)) as (b & E & Hb).
  destruct b; [left|right]; split; auto.
  - apply Hb; auto.
  - intro Ha. apply Hb in Ha. discriminate.
Qed.

Lemma circ_cases_x : forall ex t p c, goodx ex t ->
  (is_circular p c t = (t, [], Ok true) /\ anc t c p) \/ (is_circular p c t = (t, [], Ok false) /\ ~ anc t c p).
Proof.
  intros ex t p c H. destruct (is_circular_spec t p c (g_ok _ _ H)) as (b & E & Hb).
  destruct b; [left|right]; split; auto.
  - apply Hb; auto.
  - intro Ha. apply Hb in Ha. discriminate.
Qed.

Lemma create_keeps : forall t p c, good t -> has_node t p = true -> has_node t c = true -> ~ anc t c p ->
  wp (create_relationship p c) keeps_post t.
Proof.
  intros. eapply keeps_eq; [apply create_eq; auto| |discriminate].
  apply good_add_edge; auto. apply goodx_weaken; auto.
Qed.

Lemma destroy_keeps : forall p c, keeps (destroy_relationship p c).
Proof.
  intros p c t H. destruct (has_node t p && has_node t c) eqn:E.
  - apply andb_true_iff in E. destruct E. eapply keeps_eq; [apply destroy_eq; auto| |discriminate].
    apply good_del_edge. apply goodx_weaken. auto.
  - eapply keeps_eq; [apply destroy_err; auto|auto|discriminate].
Qed.

Lemma pend_remove_keeps : forall r, keeps (pend_remove r).
Proof.
  intros r t H. unfold wp, pend_remove.
  destruct (rel_mem r (pend t)); simpl.
  - split; [|split; auto; discriminate]. apply goodx_set_pend_sub; auto.
    intros. eapply rel_remove1_In; eauto.
  - split; auto. split; auto. discriminate.
Qed.

(** tree.py:263-291, also when the relation is already half written. *)
Lemma new_relationship_keeps_x : forall p c t, goodx (one_ex p c) t ->
  (good t \/ (has_node t p = true /\ has_node t c = true /\ p <> c)) ->
  wp (new_relationship p c) keeps_post t.
Proof.
  intros p c t H Hor. unfold new_relationship. apply wp_modify.
  set (t0 := set_pend (rel_remove1 (Some p, c) (pend t)) t).
  assert (H0 : goodx (one_ex p c) t0).
  { apply goodx_set_pend_sub; auto. intros. eapply rel_remove1_In; eauto. }
  assert (G0 : good t \/ False -> good t0).
  { intros [G|[]]. apply goodx_set_pend_sub; auto. intros. eapply rel_remove1_In; eauto. }
  destruct (negb (truthy p) || negb (truthy c) || String.eqb p c) eqn:Eguard.
  - apply keeps_ret. destruct Hor as [G|(Hp & Hc & Hn)]; auto.
    apply goodx_falsy with (p := p) (c := c); auto.
    rewrite (proj2 (eqb_neq _ _) Hn), orb_false_r in Eguard.
    unfold truthy in Eguard. rewrite !negb_involutive in Eguard.
    apply orb_true_iff in Eguard. rewrite !eqb_eq in Eguard. auto.
  - apply orb_false_iff in Eguard. destruct Eguard as [_ Hne]. apply eqb_neq in Hne.
    apply wp_get.
    destruct (negb (has_node t0 p) || negb (has_node t0 c)) eqn:El.
    + apply keeps_pend_append.
      * intros x Hx. inv Hx. auto.
      * destruct Hor as [G|(Hp & Hc & Hn)]; auto.
        change (has_node t0 p) with (has_node t p) in El. change (has_node t0 c) with (has_node t c) in El.
        rewrite Hp, Hc in El. discriminate.
    + apply orb_false_iff in El. destruct El as [Ep Ec]. apply negb_false_iff in Ep, Ec.
      destruct (circ_cases_x _ t0 p c H0) as [[E A]|[E A]].
      * eapply wp_Ok_nil; [eauto|]. eapply wp_Ok_nil; [apply destroy_eq; auto|].
        apply wp_raise. split; [|split; auto; discriminate]. apply good_del_edge; auto.
      * eapply wp_Ok_nil; [eauto|]. eapply wp_Ok_nil; [apply create_eq; auto|]. apply wp_modify.
              apply keeps_bind; [apply keeps_callback|intros; apply keeps_callback|].
        apply goodx_set_rootc. apply good_add_edge; auto.
Qed.

Lemma new_relationship_keeps : forall p c, keeps (new_relationship p c).
Proof. intros p c t H. apply new_relationship_keeps_x; auto. apply goodx_weaken; auto. Qed.

Lemma root_add_child_keeps : forall c, keeps (root_add_child c).
Proof.
  intros c t H. unfold root_add_child. deq c main_root; [apply keeps_ret; auto|].
  apply wp_get.
  destruct (mem c (rootc t)); [apply keeps_ret; auto|].
  destruct (dget c (nodes t)) as [cn|] eqn:Ec.
  - destruct (pen cn); [|apply keeps_ret; auto].
    apply keeps_bind; auto.
    + apply keeps_modify. intros. apply goodx_set_rootc; auto.
    + intros. apply new_relationship_keeps.
  - apply keeps_pend_append; auto. intros x Hx. inv Hx. auto.
Qed.

(** tree.py:293-314, also when the parent was already taken out of the list. *)
Lemma break_relationship_keeps_x : forall p c t, goodx (one_ex p c) t ->
  (good t \/ (has_node t p = true /\ has_node t c = true /\ p <> c)) ->
  wp (break_relationship p c) keeps_post t.
Proof.
  intros p c t H Hor. unfold break_relationship. apply wp_modify.
  set (t0 := set_pend (filter (fun r => negb (rel_eqb (Some p, c) r)) (pend t)) t).
  assert (H0 : goodx (one_ex p c) t0).
  { apply goodx_set_pend_sub; auto. intros r Hr. apply filter_In in Hr. tauto. }
  assert (G0 : good t -> good t0).
  { intros G. apply goodx_set_pend_sub; auto. intros r Hr. apply filter_In in Hr. tauto. }
  destruct (negb (truthy p) || negb (truthy c) || String.eqb p c) eqn:Eguard.
  - apply keeps_ret. destruct Hor as [G|(Hp & Hc & Hn)]; auto.
    apply goodx_falsy with (p := p) (c := c); auto.
    rewrite (proj2 (eqb_neq _ _) Hn), orb_false_r in Eguard.
    unfold truthy in Eguard. rewrite !negb_involutive in Eguard.
    apply orb_true_iff in Eguard. rewrite !eqb_eq in Eguard. auto.
  - apply wp_get.
    destruct (negb (has_node t0 p) || negb (has_node t0 c)) eqn:El.
    + apply keeps_ret. destruct Hor as [G|(Hp & Hc & Hn)]; auto.
      change (has_node t0 p) with (has_node t p) in El. change (has_node t0 c) with (has_node t c) in El.
      rewrite Hp, Hc in El. discriminate.
    + apply orb_false_iff in El. destruct El as [Ep Ec]. apply negb_false_iff in Ep, Ec.
      eapply wp_Ok_nil; [apply destroy_eq; auto|]. apply wp_get.
          assert (G1 : good (del_edge p c t0)) by (apply good_del_edge; auto).
      apply keeps_bind; auto.
      * destruct (get_parents (del_edge p c t0) c); [apply root_add_child_keeps|apply keeps_ret].
      * intros. apply keeps_bind; [apply keeps_callback|intros; apply keeps_callback].
Qed.

Lemma break_relationship_keeps : forall p c, keeps (break_relationship p c).
Proof. intros p c t H. apply break_relationship_keeps_x; auto. apply goodx_weaken; auto. Qed.

(** Calls on the node objects. *)
Lemma dget_upd_other : forall t n f x, x <> n -> dget x (nodes (upd_node n f t)) = dget x (nodes t).
Proof. intros. rewrite dget_upd. rewrite (proj2 (eqb_neq _ _)); auto. Qed.

Lemma oid_eqb_neq : forall p n, negb (oid_eqb p n) = true -> forall x, p = Some x -> x <> n.
Proof. intros. subst. simpl in H. apply negb_true_iff in H. apply eqb_neq in H. auto. Qed.

Lemma add_parent_keeps : forall n p, keeps (add_parent n p).
Proof.
  intros n p. apply keeps_bind; [apply keeps_live|]. intros nd.
  destruct (negb (oid_eqb p n) && pen nd && _) eqn:E; [|apply keeps_ret].
  apply andb_true_iff in E. destruct E as [E _]. apply andb_true_iff in E. destruct E as [E _].
  pose proof (oid_eqb_neq _ _ E). apply keeps_bind; [apply keeps_get|]. intros t.
  destruct p as [x|].
  - destruct (dget x (nodes t)) as [pn|].
    + destruct (cen pn); [apply new_relationship_keeps|apply keeps_ret].
    + apply keeps_pend_append; auto.
  - apply keeps_pend_append; auto.
Qed.

Lemma remove_parent_keeps : forall n p, keeps (remove_parent n p).
Proof.
  intros n p t H. unfold remove_parent. apply keeps_bind_wp; [apply keeps_live; auto|].
  intros nd t1 e1 E _. unfold live in E. destruct (dget n (nodes t)) as [nd'|] eqn:En; inv E.
  destruct (pen nd && mem p (par nd)) eqn:Eg; [|apply keeps_ret; auto].
  apply andb_true_iff in Eg. destruct Eg as [_ Hin]. apply mem_In in Hin.
  assert (Hp : In p (parents t1 n)) by (unfold parents; rewrite En; auto).
  destruct (ok_sym _ (g_ok _ _ H) _ _ Hp) as [Hl Hc].
  assert (Hn : has_node t1 n = true) by (eapply get_has_node; eauto).
  assert (Hne : p <> n).
  { intro; subst. destruct (ok_rank _ (g_ok _ _ H)) as [r Hr]. specialize (Hr _ _ Hp). lia. }
  apply wp_modify.
  set (t2 := upd_node n _ t1).
  assert (HP : forall x, parents t2 x = if String.eqb x n then remove1 p (parents t1 x) else parents t1 x).
  { intros. unfold parents, t2. rewrite dget_upd. deq x n; auto. subst. rewrite En. auto. }
  assert (HC : forall x, childs t2 x = childs t1 x).
  { intros. unfold childs, t2. rewrite dget_upd. deq x n; auto. subst. rewrite En. auto. }
  assert (HL : forall x, has_node t2 x = has_node t1 x) by (intros; apply has_node_upd).
  apply break_relationship_keeps_x; [|right; rewrite !HL; auto].
  constructor; [constructor|..].
  - unfold t2. rewrite dkeys_upd. apply (ok_keys _ (g_ok _ _ H)).
  - intros c q Hq. rewrite HP in Hq. rewrite HC, HL. apply (ok_sym _ (g_ok _ _ H)).
    deq c n; auto. eapply remove1_In; eauto.
  - intros. rewrite HP. deq x n; [apply remove1_NoDup|]; apply (ok_ndp _ (g_ok _ _ H)).
  - intros. rewrite HC. apply (ok_ndc _ (g_ok _ _ H)).
  - unfold t2. rewrite pend_upd. apply (ok_pend _ (g_ok _ _ H)).
  - destruct (ok_rank _ (g_ok _ _ H)) as [r Hr]. exists r. intros q c Hq. rewrite HP in Hq. apply Hr.
    deq c n; auto. eapply remove1_In; eauto.
  - intros x c Nx Nc Hex Hx Hlc Hnx. rewrite HC in Hx. rewrite HL in Hlc. unfold t2. rewrite dkeys_upd.
    apply (g_imp _ _ H); auto. intro Hin'. apply Hnx. rewrite HP. deq c n; auto.
    apply remove1_In_neq; auto. intro. apply Hex. split; congruence.
Qed.

Lemma add_child_keeps : forall n c, keeps (add_child n c).
Proof.
  intros n c t H. unfold add_child. apply keeps_bind_wp; [apply keeps_live; auto|].
  intros nd t1 e1 E _. unfold live in E. destruct (dget n (nodes t)) as [nd'|] eqn:En; inv E.
  destruct (cen nd && negb (String.eqb c n)) eqn:Eg; [|apply keeps_ret; auto].
  apply andb_true_iff in Eg. destruct Eg as [_ Hne]. apply negb_true_iff, eqb_neq in Hne.
  destruct (mem_spec c (chi nd)) as [|Hnc]; [apply keeps_ret; auto|].
  apply wp_get.
  destruct (dget c (nodes t1)) as [cn|] eqn:Ec.
  - destruct (pen cn); [|apply keeps_ret; auto].
    apply wp_modify.
      set (t2 := upd_node n _ t1).
    assert (Hn : has_node t1 n = true) by (eapply get_has_node; eauto).
    assert (Hc : has_node t1 c = true) by (eapply get_has_node; eauto).
    assert (HP : forall x, parents t2 x = parents t1 x).
    { intros. unfold parents, t2. rewrite dget_upd. deq x n; auto. subst. rewrite En. auto. }
    assert (HC : forall x, childs t2 x = if String.eqb x n then childs t1 x ++ [c] else childs t1 x).
    { intros. unfold childs, t2. rewrite dget_upd. deq x n; auto. subst. rewrite En. auto. }
    assert (HL : forall x, has_node t2 x = has_node t1 x) by (intros; apply has_node_upd).
    apply new_relationship_keeps_x; [|right; rewrite !HL; auto].
    constructor; [constructor|..].
    + unfold t2. rewrite dkeys_upd. apply (ok_keys _ (g_ok _ _ H)).
    + intros d q Hq. rewrite HP in Hq. rewrite HC, HL. destruct (ok_sym _ (g_ok _ _ H) _ _ Hq).
      split; auto. deq q n; auto. apply in_app_iff; auto.
    + intros. rewrite HP. apply (ok_ndp _ (g_ok _ _ H)).
    + intros. rewrite HC. deq x n; [|apply (ok_ndc _ (g_ok _ _ H))]. subst. apply NoDup_snoc.
      * apply (ok_ndc _ (g_ok _ _ H)).
      * unfold childs. rewrite En. auto.
    + unfold t2. rewrite pend_upd. apply (ok_pend _ (g_ok _ _ H)).
    + destruct (ok_rank _ (g_ok _ _ H)) as [r Hr]. exists r. intros q d Hq. rewrite HP in Hq. auto.
    + intros x d Nx Nc Hex Hx Hld Hnx. rewrite HC in Hx. rewrite HL in Hld. rewrite HP in Hnx.
      unfold t2. rewrite dkeys_upd. apply (g_imp _ _ H); auto.
      deq x n; auto. apply in_app_iff in Hx. destruct Hx as [Hx|[Hx|[]]]; auto.
      exfalso. apply Hex. split; auto.
  - apply keeps_pend_append; auto. intros x Hx. inv Hx. auto.
Qed.

(** A change of a node that touches neither of its lists. *)
Lemma good_upd_other : forall n f t, good t -> (forall nd, par (f nd) = par nd) -> (forall nd, chi (f nd) = chi nd) ->
  good (upd_node n f t).
Proof.
  intros n f t H Hp Hc.
  assert (HP : forall x, parents (upd_node n f t) x = parents t x).
  { intros. unfold parents. rewrite dget_upd. deq x n; auto. subst. destruct (dget n (nodes t)); simpl; auto. }
  assert (HC : forall x, childs (upd_node n f t) x = childs t x).
  { intros. unfold childs. rewrite dget_upd. deq x n; auto. subst. destruct (dget n (nodes t)); simpl; auto. }
  assert (HL : forall x, has_node (upd_node n f t) x = has_node t x) by (intros; apply has_node_upd).
  constructor; [constructor|..].
  - rewrite dkeys_upd. apply (ok_keys _ (g_ok _ _ H)).
  - intros d q Hq. rewrite HP in Hq. rewrite HC, HL. apply (ok_sym _ (g_ok _ _ H)); auto.
  - intros. rewrite HP. apply (ok_ndp _ (g_ok _ _ H)).
  - intros. rewrite HC. apply (ok_ndc _ (g_ok _ _ H)).
  - rewrite pend_upd. apply (ok_pend _ (g_ok _ _ H)).
  - destruct (ok_rank _ (g_ok _ _ H)) as [r Hr]. exists r. intros q d Hq. rewrite HP in Hq. auto.
  - intros x d Nx Nc Hex Hx Hld Hnx. rewrite HC in Hx. rewrite HL in Hld. rewrite HP in Hnx. rewrite dkeys_upd.
    apply (g_imp _ _ H); auto.
Qed.

Lemma set_parents_enabled_keeps : forall n b, keeps (set_parents_enabled n b).
Proof.
  intros. apply keeps_bind; [apply keeps_live|]. intros nd.
  apply keeps_bind; [apply keeps_get|]. intros t.
  apply keeps_bind; [destruct b; [apply keeps_ret|apply keeps_for_each; intros; apply remove_parent_keeps]|].
  intros _. apply keeps_modify. intros. apply good_upd_other; auto.
Qed.

Lemma set_children_enabled_keeps : forall n b, keeps (set_children_enabled n b).
Proof.
  intros. apply keeps_bind; [apply keeps_live|]. intros nd.
  apply keeps_bind; [apply keeps_get|]. intros t.
  apply keeps_bind; [destruct b; [apply keeps_ret|apply keeps_for_each; intros; apply break_relationship_keeps]|].
  intros _. apply keeps_modify. intros. apply good_upd_other; auto.
Qed.

Lemma modify_node_keeps : forall n, keeps (modify_node n).
Proof.
  intros. apply keeps_bind; [apply keeps_get|]. intros t.
  destruct (negb (String.eqb n main_root) && has_node t n); [apply keeps_callback|apply keeps_ret].
Qed.

Lemma set_node_data_keeps : forall n v, keeps (set_node_data n v).
Proof.
  intros. apply keeps_bind; [apply keeps_live|]. intros nd.
  apply keeps_bind; [apply keeps_modify; intros; apply good_upd_other; auto|].
  intros. apply modify_node_keeps.
Qed.

Lemma refresh_all_keeps : keeps refresh_all.
Proof.
  apply keeps_bind; [apply keeps_get|]. intros t. apply keeps_for_each. intros. apply modify_node_keeps.
Qed.

End Strict.
