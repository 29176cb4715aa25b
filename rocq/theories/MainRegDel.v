(** Exact effect of deletions, and additions and deletions in ordinary trees. *)
From Verif Require Import Base BaseFacts MainTree Spec MainFacts MainInv MainOps MainDel MainRun MainAdd MainEff MainReg.
Open Scope m_scope.

(** ** Non-recursive deletion *)
Definition orphan_root (c : id) (t : mtree) : mtree :=
  match parents t c with [] => set_rootc (rootc t ++ [c]) t | _ => t end.
Definition shed1 (n c : id) (t : mtree) : mtree := orphan_root c (del_edge n c t).
Fixpoint shed (n : id) (l : list id) (t : mtree) : mtree :=
  match l with [] => t | c :: r => shed n r (shed1 n c t) end.
Fixpoint shed_events (n : id) (l : list id) (t : mtree) : list event :=
  match l with [] => [] | c :: r => Ev EModified c (del_edge n c t) :: shed_events n r (shed1 n c t) end.

Lemma nodes_shed1 : forall n c t, nodes (shed1 n c t) = nodes (del_edge n c t).
Proof. intros. unfold shed1, orphan_root. destruct (parents (del_edge n c t) c); auto. Qed.

Lemma remove_child_shed : forall n c t, has_node t n = true -> has_node t c = true ->
  remove_child n c t = (shed1 n c t, [Ev EModified c (del_edge n c t)], Ok tt).
Proof.
  intros n c t Hn Hc. unfold remove_child. erewrite bind_Ok_nil by (apply destroy_eq; auto).
  rewrite bind_callback. assert (Hc2 : has_node (del_edge n c t) c = true) by (rewrite has_node_del_edge; auto).
  destruct (has_node_get _ _ Hc2) as [nd En]. erewrite bind_Ok_nil by (apply node_at_Some; eauto).
  unfold shed1, orphan_root, parents. rewrite En. destruct (par nd); reflexivity.
Qed.

Lemma dkeys_shed : forall n l t, dkeys (nodes (shed n l t)) = dkeys (nodes t).
Proof. induction l; simpl; intros; auto. rewrite IHl, nodes_shed1. apply dkeys_del_edge. Qed.

Lemma has_node_shed1 : forall n c t x, has_node (shed1 n c t) x = has_node t x.
Proof. intros. rewrite (has_node_nodes (del_edge n c t) (shed1 n c t)) by apply nodes_shed1. apply has_node_del_edge. Qed.

Lemma has_node_shed : forall n l t x, has_node (shed n l t) x = has_node t x.
Proof. intros. apply has_node_keys. apply dkeys_shed. Qed.

Lemma pend_shed : forall n l t, pend (shed n l t) = pend t.
Proof.
  induction l; simpl; intros; auto. rewrite IHl. unfold shed1, orphan_root.
  destruct (parents (del_edge n a t) a); simpl; apply pend_del_edge.
Qed.

Lemma shed_ok : forall n l t, has_node t n = true -> (forall c, In c l -> has_node t c = true) ->
  for_each l (fun c => remove_child n c) t = (shed n l t, shed_events n l t, Ok tt).
Proof.
  induction l as [|c l IH]; simpl; intros t Hn Hl; auto.
  erewrite bind_prefix by (apply remove_child_shed; auto). rewrite IH.
  - reflexivity.
  - rewrite has_node_shed1; auto.
  - intros. rewrite has_node_shed1; auto.
Qed.

Lemma shed_err : forall n l t, has_node t n = true -> (exists c, In c l /\ has_node t c = false) ->
  snd (for_each l (fun c => remove_child n c) t) = Err KeyError.
Proof.
  induction l as [|c l IH]; simpl; intros t Hn (d & Hd & Ld); [tauto|].
  destruct (has_node t c) eqn:Hc.
  - erewrite bind_prefix by (apply remove_child_shed; auto). unfold prefix. simpl. apply IH.
    + rewrite has_node_shed1; auto.
    + exists d. rewrite has_node_shed1. split; auto. destruct Hd as [Hd|]; auto. congruence.
  - erewrite bind_Err by (apply remove_child_err; rewrite Hc, andb_false_r; auto). auto.
Qed.

Lemma parents_shed1 : forall n c t x, parents (shed1 n c t) x = if String.eqb x c then remove1 n (parents t x) else parents t x.
Proof. intros. rewrite (parents_nodes (del_edge n c t) (shed1 n c t)) by apply nodes_shed1. apply parents_del_edge. Qed.

Lemma childs_shed1 : forall n c t x, childs (shed1 n c t) x = if String.eqb x n then remove1 c (childs t x) else childs t x.
Proof. intros. rewrite (childs_nodes (del_edge n c t) (shed1 n c t)) by apply nodes_shed1. apply childs_del_edge. Qed.

Lemma parents_shed : forall n l t x, NoDup l ->
  parents (shed n l t) x = if mem x l then remove1 n (parents t x) else parents t x.
Proof.
  induction l as [|c l IH]; simpl; intros t x ND; auto. inv ND. rewrite IH by auto. rewrite parents_shed1.
  deq x c; simpl; auto. subst. destruct (mem_spec c l); [contradiction|auto].
Qed.

Lemma childs_shed_other : forall n l t x, x <> n -> childs (shed n l t) x = childs t x.
Proof.
  induction l as [|c l IH]; simpl; intros t x H; auto. rewrite IH by auto. rewrite childs_shed1.
  rewrite (proj2 (eqb_neq x n)) by auto. auto.
Qed.

Lemma childs_shed_self : forall n l t, (forall c, In c l -> In c (childs t n)) -> NoDup (childs t n) -> NoDup l ->
  forall d, In d (childs (shed n l t) n) <-> In d (childs t n) /\ ~ In d l.
Proof.
  induction l as [|c l IH]; simpl; intros t Hl ND NDl d; [tauto|]. inv NDl.
  assert (E : childs (shed1 n c t) n = remove1 c (childs t n)) by (rewrite childs_shed1, eqb_refl; auto).
  rewrite IH; auto.
  - rewrite E, remove1_iff by auto. intuition.
  - intros e He. rewrite E. apply remove1_iff; auto. split; auto. intro; subst. auto.
  - rewrite E. apply remove1_NoDup; auto.
Qed.

Lemma rootc_shed : forall n l t, NoDup l ->
  rootc (shed n l t) = rootc t ++ filter (fun c => match parents (shed n l t) c with [] => true | _ => false end) l.
Proof.
  induction l as [|c l IH]; intros t ND; [simpl; rewrite app_nil_r; auto|]. inv ND.
  cbn [shed filter]. rewrite IH by auto.
  assert (E : parents (shed n l (shed1 n c t)) c = parents (del_edge n c t) c).
  { rewrite parents_shed by auto. destruct (mem_spec c l); [contradiction|].
    rewrite (parents_nodes (del_edge n c t) (shed1 n c t)) by apply nodes_shed1. auto. }
  rewrite E. unfold shed1 at 1, orphan_root. destruct (parents (del_edge n c t) c).
  - simpl. rewrite rootc_del_edge, <- app_assoc. auto.
  - rewrite rootc_del_edge. auto.
Qed.

(** The tree after a non-recursive deletion and the events sent. *)
Definition shedded (n : id) (t : mtree) : mtree := shed n (childs t n) (detached n t).
Definition without (n : id) (t : mtree) : mtree :=
  set_nodes (ddel n (nodes t)) (set_rootc (remove1 n (rootc t)) t).

Lemma del_dead : forall n b t, has_node t n = false -> del_node n b t = (t, [], Ok tt).
Proof.
  intros n b t Hn. unfold del_node. rewrite bind_get. unfold remove_budget. cbn [remove_node].
  rewrite bind_get, Hn. reflexivity.
Qed.

Lemma del_one : forall s n t, good s t -> has_node t n = true -> (forall c, In c (childs t n) -> has_node t c = true) ->
  del_node n false t =
  (without n (shedded n t),
   cut_events (evens (parents t n)) n (unmention n t) ++ shed_events n (childs t n) (detached n t) ++
   [Ev EDeleted n (without n (shedded n t))], Ok tt).
Proof.
  intros s n t G Hn Hl. unfold del_node. rewrite bind_get. unfold remove_budget.
  rewrite (remove_node_unfold s) by auto. unfold children_part.
  erewrite bind_prefix.
  2:{ apply shed_ok; [rewrite has_node_detached; auto|intros; rewrite has_node_detached; auto]. }
  fold (shedded n t).
  rewrite tail_Ok by (unfold shedded; rewrite has_node_shed, has_node_detached; auto).
  unfold prefix. simpl. reflexivity.
Qed.

Lemma del_one_err : forall s n t, good s t -> has_node t n = true -> (exists c, In c (childs t n) /\ has_node t c = false) ->
  snd (del_node n false t) = Err KeyError.
Proof.
  intros s n t G Hn (c & Hc & Lc). unfold del_node. rewrite bind_get. unfold remove_budget.
  rewrite (remove_node_unfold s) by auto. unfold children_part, prefix. cbn [snd].
  assert (E : snd (for_each (childs t n) (fun c => remove_child n c) (detached n t)) = Err KeyError).
  { apply shed_err; [rewrite has_node_detached; auto|]. exists c. rewrite has_node_detached. auto. }
  unfold bind at 1. cbv beta iota. destruct (for_each (childs t n) _ (detached n t)) as [[t1 e1] r1]. simpl in E. subst. auto.
Qed.

Lemma has_node_without : forall n t x, NoDup (dkeys (nodes t)) ->
  has_node (without n t) x = negb (String.eqb x n) && has_node t x.
Proof. intros. unfold without. apply has_node_pop; auto. Qed.
Lemma parents_without : forall n t x, NoDup (dkeys (nodes t)) ->
  parents (without n t) x = if String.eqb x n then [] else parents t x.
Proof. intros. unfold without. apply parents_pop; auto. Qed.
Lemma childs_without : forall n t x, NoDup (dkeys (nodes t)) ->
  childs (without n t) x = if String.eqb x n then [] else childs t x.
Proof. intros. unfold without. apply childs_pop; auto. Qed.

Lemma parents_shedded : forall s n t x, good s t -> x <> n -> has_node t x = true ->
  parents (shedded n t) x = remove1 n (parents t x).
Proof.
  intros s n t x G Hx Hl. unfold shedded. rewrite parents_shed by apply (ok_ndc _ (g_ok _ _ _ G)).
  rewrite parents_detached_other by auto. destruct (mem_spec x (childs t n)) as [|N]; auto.
  symmetry. apply remove1_notin. intro H. apply N. apply (ok_sym _ (g_ok _ _ _ G)); auto.
Qed.

Lemma childs_detached : forall s n t x, good s t ->
  childs (detached n t) x = if mem x (evens (parents t n)) then remove1 n (childs t x) else childs t x.
Proof.
  intros s n t x G. unfold detached. rewrite childs_cut by (apply evens_NoDup; apply (ok_ndp _ (g_ok _ _ _ G))). auto.
Qed.

Lemma dkeys_shedded : forall n t, dkeys (nodes (shedded n t)) = dkeys (nodes t).
Proof. intros. unfold shedded. rewrite dkeys_shed, dkeys_detached. auto. Qed.

(** ** Flags and data of the nodes that stay; lists only lose elements *)
Inductive subseq : list id -> list id -> Prop :=
| ss_nil : subseq [] []
| ss_keep : forall x a b, subseq a b -> subseq (x :: a) (x :: b)
| ss_drop : forall x a b, subseq a b -> subseq a (x :: b).

Lemma subseq_refl : forall l, subseq l l.
Proof. induction l; constructor; auto. Qed.
Lemma subseq_trans : forall b c, subseq b c -> forall a, subseq a b -> subseq a c.
Proof.
  intros b c H. induction H; intros l Hl.
  - auto.
  - inv Hl; [apply ss_keep|apply ss_drop]; auto.
  - apply ss_drop; auto.
Qed.
Lemma subseq_In : forall a b x, subseq a b -> In x a -> In x b.
Proof. intros a b x H. induction H; simpl; tauto. Qed.
Lemma subseq_remove1 : forall x l, subseq (remove1 x l) l.
Proof.
  induction l; simpl; [constructor|]. destruct (String.eqb x a); [apply ss_drop, subseq_refl|apply ss_keep; auto].
Qed.
Lemma subseq_filter : forall a b f, subseq a b -> subseq (filter f a) (filter f b).
Proof. intros a b f H. induction H; simpl; [constructor| |]; destruct (f x); auto; constructor; auto. Qed.
Lemma subseq_same : forall a b, subseq a b -> NoDup b -> (forall x, In x b -> In x a) -> a = b.
Proof.
  intros a b H. induction H; intros ND Hi; auto.
  - inv ND. f_equal. apply IHsubseq; auto. intros y Hy. destruct (Hi y (or_intror Hy)); [subst; contradiction|auto].
  - inv ND. exfalso. match goal with H : ~ In x b |- _ => apply H end. eapply subseq_In; [eassumption|]. apply Hi. left; auto.
Qed.

Definition frame (t t' : mtree) : Prop := forall x nd', dget x (nodes t') = Some nd' ->
  exists nd, dget x (nodes t) = Some nd /\ pen nd' = pen nd /\ cen nd' = cen nd /\ data nd' = data nd /\
    subseq (par nd') (par nd) /\ subseq (chi nd') (chi nd).

Lemma frame_refl : forall t, frame t t.
Proof. intros t x nd E. exists nd. auto 10 using subseq_refl. Qed.
Lemma frame_trans : forall a b c, frame a b -> frame b c -> frame a c.
Proof.
  intros a b c H1 H2 x nd E. destruct (H2 _ _ E) as (nd1 & E1 & A1 & B1 & C1 & P1 & Q1).
  destruct (H1 _ _ E1) as (nd2 & E2 & A2 & B2 & C2 & P2 & Q2). exists nd2.
  split; auto. repeat (split; [congruence|]). split; eapply subseq_trans; eauto.
Qed.
Lemma frame_nodes : forall t t', nodes t' = nodes t -> frame t t'.
Proof. intros t t' E x nd H. rewrite E in H. exists nd. auto 10 using subseq_refl. Qed.
Lemma frame_del_edge : forall p c t, frame t (del_edge p c t).
Proof.
  intros p c t x nd E. rewrite dget_del_edge in E. destruct (dget x (nodes t)) as [nd'|]; [inv E|discriminate].
  exists nd'. simpl. split; auto. split; auto. split; auto. split; auto.
  split; [destruct (String.eqb x c)|destruct (String.eqb x p)]; auto using subseq_refl, subseq_remove1.
Qed.
Lemma frame_pop : forall n t t0, NoDup (dkeys (nodes t)) -> nodes t0 = nodes t -> frame t (set_nodes (ddel n (nodes t0)) t0).
Proof.
  intros n t t0 ND E x nd H. simpl in H. rewrite E, dget_ddel in H by auto.
  destruct (String.eqb x n); [discriminate|]. exists nd. auto 10 using subseq_refl.
Qed.
Lemma frame_parents : forall t t' x, frame t t' -> has_node t' x = true -> subseq (parents t' x) (parents t x).
Proof.
  intros t t' x F H. destruct (has_node_get _ _ H) as [nd' E]. destruct (F _ _ E) as (nd & E2 & _ & _ & _ & P & _).
  unfold parents. rewrite E, E2. auto.
Qed.
Lemma frame_childs : forall t t' x, frame t t' -> has_node t' x = true -> subseq (childs t' x) (childs t x).
Proof.
  intros t t' x F H. destruct (has_node_get _ _ H) as [nd' E]. destruct (F _ _ E) as (nd & E2 & _ & _ & _ & _ & P).
  unfold childs. rewrite E, E2. auto.
Qed.
Lemma frame_parents_In : forall t t' x p, frame t t' -> In p (parents t' x) -> In p (parents t x).
Proof. intros t t' x p F H. eapply subseq_In; [apply frame_parents; eauto|auto]. eapply In_parents_live; eauto. Qed.
Lemma frame_childs_In : forall t t' x p, frame t t' -> In p (childs t' x) -> In p (childs t x).
Proof. intros t t' x p F H. eapply subseq_In; [apply frame_childs; eauto|auto]. eapply In_childs_live; eauto. Qed.
Lemma frame_has : forall t t' x, frame t t' -> has_node t' x = true -> has_node t x = true.
Proof. intros t t' x F H. destruct (has_node_get _ _ H) as [nd' E]. destruct (F _ _ E) as (nd & E2 & _). eapply get_has_node; eauto. Qed.

Definition framed {A} (m : M A) : Prop := forall t, NoDup (dkeys (nodes t)) ->
  wp m (fun t' es _ => NoDup (dkeys (nodes t')) /\ frame t t' /\ Forall (fun e => frame t (ev_tree e) /\ frame (ev_tree e) t') es) t.

Lemma framed_bind : forall A B (m : M A) (k : A -> M B), framed m -> (forall a, framed (k a)) -> framed (bind m k).
Proof.
  intros A B m k Hm Hk t ND. specialize (Hm t ND). unfold wp, bind in *.
  destruct (m t) as [[t1 e1] [a|e|]]; simpl in *; auto. destruct Hm as (N1 & F1 & E1).
  specialize (Hk a t1 N1). unfold wp in Hk. destruct (k a t1) as [[t2 e2] r]; simpl in *. destruct Hk as (N2 & F2 & E2).
  split; auto. split; [eapply frame_trans; eauto|]. apply Forall_app. split.
  - eapply Forall_impl; [|apply E1]. intros e [H1 H2]. split; auto. eapply frame_trans; eauto.
  - eapply Forall_impl; [|apply E2]. intros e [H1 H2]. split; auto. eapply frame_trans; eauto.
Qed.

Lemma framed_const : forall A (m : M A), (forall t, exists r, m t = (t, [], r)) -> framed m.
Proof. intros A m H t ND. destruct (H t) as (r & E). eapply wp_intro; [apply E|]. split; auto. split; auto using frame_refl. Qed.

Lemma framed_ret : forall A (a : A), framed (ret a).
Proof. intros. apply framed_const. intros. eexists; reflexivity. Qed.
Lemma framed_get : framed get.
Proof. apply framed_const. intros. eexists; reflexivity. Qed.
Lemma framed_node_at : forall n, framed (node_at n).
Proof. intros. apply framed_const. intros. unfold node_at. destruct (dget n (nodes t)); eexists; reflexivity. Qed.
Lemma framed_diverge : forall A, framed (@diverge A).
Proof. intros. apply framed_const. intros. eexists; reflexivity. Qed.
Lemma framed_callback : forall k n, framed (callback k n).
Proof. intros k n t ND. eapply wp_intro; [reflexivity|]. split; auto. split; [apply frame_refl|]. constructor; auto. split; apply frame_refl. Qed.
Lemma framed_modify_nodes : forall f, (forall t, nodes (f t) = nodes t) -> framed (modify f).
Proof.
  intros f H t ND. eapply wp_intro; [reflexivity|]. rewrite H. split; auto. split; auto. apply frame_nodes; auto.
Qed.
Lemma framed_for_each : forall X (l : list X) body, (forall x, framed (body x)) -> framed (for_each l body).
Proof. induction l; simpl; intros; [apply framed_ret|]. apply framed_bind; auto. Qed.
Lemma framed_destroy : forall p c, framed (destroy_relationship p c).
Proof.
  intros p c t ND. destruct (has_node t p && has_node t c) eqn:E.
  - apply andb_true_iff in E. destruct E. eapply wp_intro; [apply destroy_eq; auto|]. rewrite dkeys_del_edge. split; auto.
    split; auto. apply frame_del_edge.
  - eapply wp_intro; [apply destroy_err; auto|]. split; auto. split; auto. apply frame_refl.
Qed.
Lemma framed_remove_parents : forall f n i, framed (remove_parents f n i).
Proof.
  induction f; simpl; intros n i; (apply framed_bind; [apply framed_node_at|]); intros nd; destruct (nth_error (par nd) i);
    try apply framed_ret; try apply framed_diverge.
  apply framed_bind; [apply framed_destroy|]. intros _. apply framed_bind; [apply framed_callback|]. auto.
Qed.
Lemma framed_remove_child : forall n c, framed (remove_child n c).
Proof.
  intros. unfold remove_child. apply framed_bind; [apply framed_destroy|]. intros _.
  apply framed_bind; [apply framed_callback|]. intros _. apply framed_bind; [apply framed_node_at|]. intros nd.
  destruct (par nd); [apply framed_modify_nodes; auto|apply framed_ret].
Qed.
Lemma framed_tail : forall n, framed (tail n).
Proof.
  intros. unfold tail. apply framed_bind; [apply framed_modify_nodes; auto|]. intros _.
  apply framed_bind; [apply framed_node_at|]. intros nd. apply framed_bind; [|intros _; apply framed_callback].
  intros t ND. eapply wp_intro; [reflexivity|]. split; [simpl; apply ddel_NoDup; auto|]. split; auto.
  apply frame_pop; auto.
Qed.
Lemma framed_remove_node : forall f n b, framed (remove_node f n b).
Proof.
  induction f; intros n b; cbn [remove_node];
    (apply framed_bind; [apply framed_get|]); intros t0; destruct (negb (has_node t0 n)); try apply framed_ret;
    (apply framed_bind; [apply framed_modify_nodes; auto|]; intros _);
    (apply framed_bind; [apply framed_node_at|]; intros nd);
    (apply framed_bind; [apply framed_remove_parents|]; intros _);
    (apply framed_bind; [apply framed_node_at|]; intros nd');
    (apply framed_bind; [|intros _; apply framed_tail]).
  - apply framed_diverge.
  - apply framed_for_each. intros c. destruct b; auto. apply framed_remove_child.
Qed.
Lemma framed_del_node : forall n b, framed (del_node n b).
Proof. intros. unfold del_node. apply framed_bind; [apply framed_get|]. intros. apply framed_remove_node. Qed.

(** ** Root children under recursive deletion *)
Definition root_shrinks (t t' : mtree) : Prop :=
  NoDup (dkeys (nodes t')) /\ NoDup (rootc t') /\
  (forall x, has_node t' x = true -> has_node t x = true) /\
  (forall x, In x (rootc t') -> In x (rootc t)) /\
  (forall x, In x (rootc t) -> has_node t' x = true -> In x (rootc t')) /\
  (forall x, In x (rootc t') -> has_node t x = true -> has_node t' x = true).

Lemma root_shrinks_trans : forall a b c, root_shrinks a b -> root_shrinks b c -> root_shrinks a c.
Proof. unfold root_shrinks. intros a b c H1 H2. intuition. Qed.

Definition rooted {A} (m : M A) : Prop := forall t, NoDup (dkeys (nodes t)) -> NoDup (rootc t) ->
  wp m (fun t' _ _ => root_shrinks t t') t.

Lemma root_shrinks_same : forall t t', dkeys (nodes t') = dkeys (nodes t) -> rootc t' = rootc t ->
  NoDup (dkeys (nodes t)) -> NoDup (rootc t) -> root_shrinks t t'.
Proof.
  intros t t' E1 E2 N1 N2. unfold root_shrinks. rewrite E1, E2. split; auto. split; auto.
  split; [intros x Hx; rewrite <- (has_node_keys t' t); auto|]. split; auto. split; auto.
  intros x _ Hx. rewrite (has_node_keys t' t); auto.
Qed.

Lemma rooted_bind : forall A B (m : M A) (k : A -> M B), rooted m -> (forall a, rooted (k a)) -> rooted (bind m k).
Proof.
  intros A B m k Hm Hk t ND NR. specialize (Hm t ND NR). unfold wp, bind in *.
  destruct (m t) as [[t1 e1] [a|e|]]; simpl in *; auto.
  specialize (Hk a t1 (proj1 Hm) (proj1 (proj2 Hm))). unfold wp in Hk. destruct (k a t1) as [[t2 e2] r]; simpl in *.
  eapply root_shrinks_trans; eauto.
Qed.

Lemma rooted_same : forall A (m : M A), (forall t, dkeys (nodes (fst (fst (m t)))) = dkeys (nodes t) /\ rootc (fst (fst (m t))) = rootc t) -> rooted m.
Proof. intros A m H t ND NR. unfold wp. destruct (H t). apply root_shrinks_same; auto. Qed.
Lemma rooted_ret : forall A (a : A), rooted (ret a).
Proof. intros. apply rooted_same. auto. Qed.
Lemma rooted_get : rooted get.
Proof. intros. apply rooted_same. auto. Qed.
Lemma rooted_diverge : forall A, rooted (@diverge A).
Proof. intros. apply rooted_same. auto. Qed.
Lemma rooted_node_at : forall n, rooted (node_at n).
Proof. intros. apply rooted_same. intros. unfold node_at. destruct (dget n (nodes t)); auto. Qed.
Lemma rooted_callback : forall k n, rooted (callback k n).
Proof. intros. apply rooted_same. auto. Qed.
Lemma rooted_destroy : forall p c, rooted (destroy_relationship p c).
Proof.
  intros p c. apply rooted_same. intros t. destruct (has_node t p && has_node t c) eqn:E.
  - apply andb_true_iff in E. destruct E. rewrite destroy_eq by auto. simpl. rewrite dkeys_del_edge, rootc_del_edge. auto.
  - rewrite destroy_err by auto. auto.
Qed.
Lemma rooted_remove_parents : forall f n i, rooted (remove_parents f n i).
Proof.
  induction f; simpl; intros n i; (apply rooted_bind; [apply rooted_node_at|]); intros nd; destruct (nth_error (par nd) i);
    try apply rooted_ret; try apply rooted_diverge.
  apply rooted_bind; [apply rooted_destroy|]. intros _. apply rooted_bind; [apply rooted_callback|]. auto.
Qed.
Lemma rooted_for_each : forall X (l : list X) body, (forall x, rooted (body x)) -> rooted (for_each l body).
Proof. induction l; simpl; intros; [apply rooted_ret|]. apply rooted_bind; auto. Qed.

Lemma rooted_tail : forall n, rooted (tail n).
Proof.
  intros n t ND NR. destruct (has_node t n) eqn:Hn.
  - eapply wp_intro; [apply tail_Ok; auto|]. cbv zeta.
    fold (without n t). unfold root_shrinks.
    split; [unfold without; simpl; apply ddel_NoDup; auto|].
    split; [unfold without; simpl; apply remove1_NoDup; auto|].
    split; [intros x Hx; rewrite has_node_without in Hx by auto; apply andb_true_iff in Hx; tauto|].
    split; [intros x Hx; unfold without in Hx; simpl in Hx; eapply remove1_In; eauto|].
    split; intros x H1 H2.
    + rewrite has_node_without in H2 by auto. apply andb_true_iff in H2. destruct H2 as [H2 _].
      rewrite negb_true_iff, eqb_neq in H2. unfold without. simpl. apply remove1_iff; auto.
    + rewrite has_node_without by auto. unfold without in H1. simpl in H1. apply remove1_iff in H1; auto.
      rewrite H2, (proj2 (eqb_neq x n)) by tauto. auto.
  - eapply wp_intro; [apply tail_Err; auto|]. unfold root_shrinks. simpl. split; auto.
    split; [apply remove1_NoDup; auto|]. split; auto. split; [intros x Hx; eapply remove1_In; eauto|]. split; auto.
    intros x Hx Hl. apply remove1_iff; auto. split; auto. intros ->. change (has_node t n = true) in Hl. congruence.
Qed.

Lemma rooted_remove_node : forall f n, rooted (remove_node f n true).
Proof.
  induction f; intros n; cbn [remove_node];
    (apply rooted_bind; [apply rooted_get|]); intros t0; destruct (negb (has_node t0 n)); try apply rooted_ret;
    (apply rooted_bind; [apply rooted_same; auto|]; intros _);
    (apply rooted_bind; [apply rooted_node_at|]; intros nd);
    (apply rooted_bind; [apply rooted_remove_parents|]; intros _);
    (apply rooted_bind; [apply rooted_node_at|]; intros nd');
    (apply rooted_bind; [|intros _; apply rooted_tail]).
  - apply rooted_diverge.
  - apply rooted_for_each. intros c. auto.
Qed.

(** ** Ordinary trees after additions and deletions *)
Lemma flags_frame : forall t t', frame t t' -> flags_on t -> flags_on t'.
Proof. intros t t' F H. apply (flags_on_attrs t); auto. intros x nd E. destruct (F _ _ E) as (nd' & E' & A & B & _). eauto. Qed.

Lemma reg_del : forall n b t, reg t -> outcome (DelNode n b) t = Ok tt -> reg (after (DelNode n b) t).
Proof.
  intros n b t R HO. destruct (has_node t n) eqn:Hn.
  2:{ unfold after. cbn [run_op]. rewrite del_dead by auto. auto. }
  pose proof (r_good _ R) as G. pose proof (ok_keys _ (reg_ok _ R)) as ND.
  pose proof (framed_del_node n b t ND) as HF. pose proof (del_node_good true n b t G) as HG.
  unfold wp in HF, HG. unfold after, outcome in *. cbn [run_op] in *.
  destruct HF as (_ & HF & _). destruct HG as (HG & _ & (HS & _) & _).
  constructor; auto.
  - eapply flags_frame; eauto. apply R.
  - destruct (has_node (fst (fst (del_node n b t))) "") eqn:E; auto. apply HS in E. rewrite (r_empty _ R) in E. discriminate.
  - destruct (has_node (fst (fst (del_node n b t))) main_root) eqn:E; auto. apply HS in E. rewrite (r_main _ R) in E. discriminate.
  - destruct (r_root _ R) as (A & B & C). destruct b.
    + pose proof (rooted_remove_node (remove_budget t) n t ND A) as HR.
      pose proof (remove_node_rec_rm true (remove_budget t) n t G) as HP. unfold wp in HR, HP.
      unfold del_node in *. rewrite bind_get in *. destruct HR as (_ & R2 & R3 & R4 & R5 & R6).
      destruct HP as (_ & _ & _ & HP). destruct (HP HO) as [_ SP].
      split; auto. split; [intros x Hx; apply R6; auto|]. intros x _ Hx. rewrite (SP x Hx).
      rewrite <- C by auto. split; [apply R4|intros; apply R5; auto].
    + destruct (existsb (fun c => negb (has_node t c)) (childs t n)) eqn:Ed.
      { apply existsb_exists in Ed. destruct Ed as (c & Hc & Lc). apply negb_true_iff in Lc.
        rewrite (del_one_err true n t G Hn) in HO by eauto. discriminate. }
      assert (HL : forall c, In c (childs t n) -> has_node t c = true).
      { intros c Hc. destruct (has_node t c) eqn:E; auto. exfalso.
        assert (existsb (fun c => negb (has_node t c)) (childs t n) = true); [|congruence].
        apply existsb_exists. exists c. rewrite E. auto. }
      rewrite (del_one true n t G Hn HL). cbn [fst].
      assert (ND2 : NoDup (dkeys (nodes (shedded n t)))) by (rewrite dkeys_shedded; auto).
      assert (NDc : NoDup (childs t n)) by apply (ok_ndc _ (reg_ok _ R)).
      assert (Hnc : ~ In n (childs t n)).
      { intros H. eapply ok_not_own_parent; [apply (reg_ok _ R)|]. eapply reg_sym; eauto. }
      assert (HRC : forall x, In x (rootc (shedded n t)) <-> In x (rootc t) \/ (In x (childs t n) /\ parents (shedded n t) x = [])).
      { intros x. unfold shedded at 1. rewrite rootc_shed by auto. fold (shedded n t). unfold detached. rewrite rootc_cut, in_app_iff, filter_In.
        change (rootc (unmention n t)) with (rootc t).
        destruct (parents (shedded n t) x); intuition discriminate. }
      assert (HNR : forall x, In x (childs t n) -> ~ In x (rootc t)).
      { intros x Hx Hr. apply (C x) in Hr; auto. assert (Hp : In n (parents t x)) by (eapply reg_sym; eauto).
        rewrite Hr in Hp. destruct Hp. }
      assert (NDR : NoDup (rootc (shedded n t))).
      { unfold shedded. rewrite rootc_shed by auto. unfold detached. rewrite rootc_cut.
        apply NoDup_app_intro; auto.
        - apply NoDup_filter; auto.
        - intros x H1 H2. apply filter_In in H2. apply (HNR x); tauto. }
      assert (HLs : forall x, has_node (shedded n t) x = has_node t x).
      { intros. apply has_node_keys. apply dkeys_shedded. }
      split; [unfold without; simpl; apply remove1_NoDup; auto|]. split.
      * intros x Hx. unfold without in Hx. simpl in Hx. apply remove1_iff in Hx; auto. destruct Hx as [Hx Hx'].
        rewrite has_node_without by auto. rewrite (proj2 (eqb_neq x n)), HLs by auto. simpl. apply HRC in Hx.
        destruct Hx as [Hx|[Hx _]]; auto.
      * intros x _ Hx. rewrite has_node_without, HLs in Hx by auto. apply andb_true_iff in Hx. destruct Hx as [Hxn Hx].
        rewrite negb_true_iff, eqb_neq in Hxn. rewrite parents_without by auto. rewrite (proj2 (eqb_neq x n)) by auto.
        rewrite (parents_shedded true) by auto.
        transitivity (In x (rootc (shedded n t))).
        { unfold without. simpl. rewrite remove1_iff by auto. tauto. }
        rewrite HRC, C by auto. rewrite (parents_shedded true) by auto. split.
        -- intros [H|[_ H]]; auto. rewrite H. auto.
        -- intros H. destruct (In_dec_id x (childs t n)) as [Hc|Hc]; auto. left.
           rewrite remove1_notin in H; auto. intros Hp. apply Hc. apply (ok_sym _ (reg_ok _ R)); auto.
Qed.

(** Additions. *)
Definition plain (nd : node) : Prop := pen nd = true /\ cen nd = true.

Lemma grown_root_ok : forall n t t', grown n t t' -> root_ok (eq n) t -> root_ok (eq n) t'.
Proof.
  intros n t t' H. induction H; intros RO.
  - destruct H as [E1 E2]. eapply root_ok_nodes; eauto.
  - specialize (IHgrown RO). destruct H4 as [E1 E2].
    apply (root_ok_add_edge (eq n) p c t1 t'); auto.
    + rewrite (grown_has n t t1); auto.
    + rewrite (grown_has n t t1); auto.
    + rewrite E2. apply rootc_add_edge.
Qed.

Lemma grown_rootc_In : forall n t t' x, grown n t t' -> In x (rootc t') -> In x (rootc t).
Proof.
  intros n t t' x H. induction H; intros Hx.
  - destruct H as [_ E]. rewrite E in Hx. auto.
  - apply IHgrown. destruct H4 as [_ E]. rewrite E, rootc_add_edge in Hx. eapply remove1_In; eauto.
Qed.

Lemma reg_add : forall n nd po t, reg t -> app_node n nd -> plain nd -> n <> "" -> n <> main_root ->
  unlisted_add t (AddNode n nd po) -> outcome (AddNode n nd po) t = Ok tt -> reg (after (AddNode n nd po) t).
Proof.
  intros n nd po t R An [Pp Pc] N1 N2 Hu HO. destruct (has_node t n) eqn:Hn.
  { unfold after. cbn [run_op]. unfold add_node. rewrite bind_get, Hn. auto. }
  destruct (add_node_spec true n nd po t (r_good _ R) Hn An (fun _ => Hu Hn)) as (t3 & es & r & tg & E & G3 & Gg & Gr & En & _ & [D|D]).
  { unfold outcome in HO. cbn [run_op] in HO. rewrite E in HO. cbn [snd] in HO. destruct D as (D & _). congruence. }
  destruct D as (_ & _ & Er & _). unfold after. cbn [run_op]. rewrite E. cbn [fst].
  assert (HP : forall x, has_node t3 x = String.eqb x n || has_node t x).
  { intros x. rewrite (has_node_nodes tg t3) by auto. rewrite (grown_has _ _ _ x Gr). unfold put, has_node, dmem. simpl.
    rewrite dget_dset. destruct (String.eqb x n); auto. }
  destruct (r_root _ R) as (A & B & C).
  assert (Hnr : ~ In n (rootc tg)).
  { intros H. apply (grown_rootc_In _ _ _ _ Gr) in H. unfold put in H. simpl in H. apply B in H. congruence. }
  assert (RO : root_ok (eq n) tg).
  { eapply grown_root_ok; [apply Gr|]. unfold root_ok. unfold put at 1 2. simpl. split; auto.
    assert (HQ : forall x, has_node (put n nd t) x = String.eqb x n || has_node t x).
    { intros x. rewrite <- HP. rewrite (has_node_nodes tg t3) by auto. symmetry. apply (grown_has _ _ _ x Gr). }
    split.
    - intros x Hx. rewrite HQ, (B x Hx). apply orb_true_r.
    - intros x Hx Hl. rewrite HQ, (proj2 (eqb_neq x n)) in Hl by auto. simpl in Hl. change (rootc (put n nd t)) with (rootc t).
      rewrite C by auto. unfold parents, put. simpl. rewrite dget_dset, (proj2 (eqb_neq x n)) by auto. tauto. }
  constructor; auto.
  - intros x ndx Ex. rewrite En in Ex. pose proof (grown_attrs _ _ _ x Gr) as Ha. unfold attrs in Ha. rewrite Ex in Ha.
    unfold put in Ha. simpl in Ha. rewrite dget_dset in Ha. deq x n.
    + inv Ha. split; congruence.
    + destruct (dget x (nodes t)) as [ndx'|] eqn:Ex'; [|discriminate]. inv Ha. destruct (r_flags _ R x ndx' Ex'). split; congruence.
  - rewrite HP, (r_empty _ R), (proj2 (eqb_neq "" n)) by auto. auto.
  - rewrite HP, (r_main _ R), (proj2 (eqb_neq main_root n)) by auto. auto.
  - destruct RO as (A1 & B1 & C1). assert (HR : forall x, In x (rootc t3) <-> In x (rootc tg) \/ (x = n /\ parents t3 n = [])).
    { intros x. rewrite Er. destruct (parents t3 n); [rewrite in_app_iff; simpl|]; split; intros; intuition (subst; auto; discriminate). }
    split; [|split].
    + rewrite Er. destruct (parents t3 n); auto. apply NoDup_snoc; auto.
    + intros x Hx. apply HR in Hx. rewrite (has_node_nodes tg t3) by auto. destruct Hx as [Hx|[-> _]]; auto.
      rewrite <- (has_node_nodes tg t3) by auto. rewrite HP, eqb_refl. auto.
    + intros x _ Hl. rewrite HR. destruct (id_dec x n) as [->|Nx].
      * tauto.
      * rewrite (has_node_nodes tg t3) in Hl by auto. rewrite C1 by auto. rewrite (parents_nodes tg t3 x) by auto. tauto.
Qed.

(** ** What recursive deletion removes *)
Lemma frame_detached : forall s n t, good s t -> frame t (detached n t).
Proof.
  intros s n t G. unfold detached.
  assert (H : forall ps t1, frame t t1 -> frame t (cut ps n t1)).
  { induction ps; simpl; intros; auto. apply IHps. eapply frame_trans; eauto. apply frame_del_edge. }
  apply H. apply frame_nodes. reflexivity.
Qed.

Lemma listed_parent : forall t p c, good true t -> has_node t "" = false -> In c (childs t p) -> has_node t c = true -> In p (parents t c).
Proof.
  intros t p c G He Hc Hl. destruct (In_dec_id p (parents t c)) as [|N]; auto.
  assert (Hp : has_node t p = true) by (eapply In_childs_live; eauto).
  assert (P : p <> "" /\ c <> "") by (split; intros ->; congruence).
  destruct (g_imp _ _ _ G p c) as [H _]; try tauto; try discriminate.
Qed.

Definition below (t : mtree) (l : list id) (x : id) : Prop := exists c, In c l /\ has_node t c = true /\ anc t c x.

Lemma lost_loop : forall f t L l t1,
  (forall c t1, good true t1 -> frame t t1 ->
     wp (remove_node f c true) (fun t' _ _ => forall x, has_node t1 x = true -> has_node t' x = false -> anc t1 c x) t1) ->
  good true t1 -> frame t t1 -> (forall c, In c l -> In c L) ->
  wp (for_each l (fun c => remove_node f c true))
     (fun t' _ _ => good true t' /\ frame t t' /\ NoDup (dkeys (nodes t')) /\
        forall x, has_node t1 x = true -> has_node t' x = false -> below t L x) t1.
Proof.
  intros f t L l. induction l as [|c l IHl]; intros t1 HH G1 F1 Hl.
  - apply wp_ret. split; auto. split; auto. split; [apply (ok_keys _ (g_ok _ _ _ G1))|]. intros; congruence.
  - simpl. pose proof (HH c t1 G1 F1) as H1. pose proof (remove_node_rec_rm true f c t1 G1) as H2.
    pose proof (framed_remove_node f c true t1 (ok_keys _ (g_ok _ _ _ G1))) as H3.
    assert (HA : forall x, has_node t1 x = true -> anc t1 c x -> below t L x).
    { intros x Hl1 Hx. assert (Hc : has_node t1 c = true).
      { destruct (id_dec x c) as [->|Hne]; auto. clear -Hx Hne G1. induction Hx; [congruence|].
        destruct (id_dec p c) as [->|]; [|auto]. apply (ok_sym _ (g_ok _ _ _ G1) _ _ H). }
      exists c. split; [apply Hl; simpl; auto|]. split; [eapply frame_has; eauto|].
      eapply anc_incl; [|apply Hx]. intros; eapply frame_parents_In; eauto. }
    unfold wp, bind in *. destruct (remove_node f c true t1) as [[t2 e1] r]. simpl in H1, H2, H3.
    destruct H2 as (G2 & _ & _). destruct H3 as (N2 & F2 & _).
    assert (F3 : frame t t2) by (eapply frame_trans; eauto).
    destruct r as [[]|e|]; simpl; auto 10.
    specialize (IHl t2 HH G2 F3 (fun c0 H0 => Hl c0 (or_intror H0))).
    destruct (for_each l _ t2) as [[t3 e2] r2]. simpl in *. destruct IHl as (A & B & C & D).
    split; auto. split; auto. split; auto.
    intros x Hx Hx2. destruct (has_node t2 x) eqn:E; auto.
Qed.

Lemma lost_children : forall f n t,
  (forall c t1, good true t1 -> has_node t1 "" = false ->
     wp (remove_node f c true) (fun t' _ _ => forall x, has_node t1 x = true -> has_node t' x = false -> anc t1 c x) t1) ->
  good true t -> has_node t "" = false ->
  wp (children_part (S f) n true (childs t n))
     (fun t' _ _ => good true t' /\ frame t t' /\ NoDup (dkeys (nodes t')) /\
        forall x, has_node t x = true -> has_node t' x = false -> below t (childs t n) x) (detached n t).
Proof.
  intros f n t IH G He. unfold children_part.
  eapply wp_mono; [apply (lost_loop f t (childs t n))|].
  - intros c t1 G1 F1. apply IH; auto. destruct (has_node t1 "") eqn:E1; auto. apply (frame_has _ _ _ F1) in E1. congruence.
  - apply good_detached; auto.
  - eapply frame_detached; eauto.
  - auto.
  - simpl. intros t' _ _ (A & B & C & D). split; auto. split; auto. split; auto. intros x Hx. apply D. rewrite has_node_detached; auto.
Qed.

Lemma below_anc : forall t n x, good true t -> has_node t "" = false -> below t (childs t n) x -> anc t n x.
Proof.
  intros t n x G He (c & Hc & Lc & A). apply anc_trans with (b := c); auto.
  eapply anc_step; [eapply listed_parent; eauto|apply anc_refl].
Qed.

Lemma below_not_self : forall t n, good true t -> has_node t "" = false -> ~ below t (childs t n) n.
Proof.
  intros t n G He (c & Hc & Lc & A). pose proof (listed_parent _ _ _ G He Hc Lc) as P.
  assert (n = c). { eapply (anc_antisym t); [apply (g_ok _ _ _ G)| |apply A]. eapply anc_step; [apply P|apply anc_refl]. }
  subst. eapply ok_not_own_parent; [apply (g_ok _ _ _ G)|eauto].
Qed.

Lemma remove_lost : forall f n t, good true t -> has_node t "" = false ->
  wp (remove_node f n true) (fun t' _ _ => forall x, has_node t x = true -> has_node t' x = false -> anc t n x) t.
Proof.
  induction f as [|f IH]; intros n t G He; (destruct (has_node t n) eqn:Hn;
    [|unfold wp; cbn [remove_node]; rewrite bind_get, Hn; simpl; intros; congruence]).
  - unfold wp. rewrite (remove_node_unfold true) by auto. unfold prefix, children_part, bind, diverge; cbn [fst snd].
    intros x H1 H2. rewrite has_node_detached in H2. congruence.
  - unfold wp. rewrite (remove_node_unfold true) by auto. unfold prefix. cbn [fst snd].
    pose proof (lost_children f n t IH G He) as HE.
    unfold wp in HE. unfold bind at 1. destruct (children_part (S f) n true (childs t n) (detached n t)) as [[t1 e1] r1]. simpl in HE.
    destruct HE as (G1 & F1 & N1 & HL).
    assert (HL' : forall x, has_node t x = true -> has_node t1 x = false -> anc t n x) by (intros; eapply below_anc; eauto).
    destruct r1 as [[]|e|]; simpl; auto.
    destruct (has_node t1 n) eqn:Hn1.
    + rewrite tail_Ok by auto. simpl. intros x Hx Hx1. fold (without n t1) in Hx1.
      rewrite has_node_without in Hx1 by auto. deq x n; [subst; apply anc_refl|]. simpl in Hx1. auto.
    + rewrite tail_Err by auto. simpl. auto.
Qed.

Lemma remove_no_error : forall f n t, good true t -> has_node t "" = false ->
  forall e, snd (remove_node f n true t) <> Err e.
Proof.
  induction f as [|f IH]; intros n t G He e; (destruct (has_node t n) eqn:Hn;
    [|cbn [remove_node]; rewrite bind_get, Hn; simpl; discriminate]); rewrite (remove_node_unfold true) by auto; unfold prefix; cbn [snd].
  - discriminate.
  - pose proof (lost_children f n t (fun c t1 G1 H1 => remove_lost f c t1 G1 H1) G He) as HE.
    assert (HX : forall l t1, good true t1 -> has_node t1 "" = false ->
      forall e, snd (for_each l (fun c => remove_node f c true) t1) <> Err e).
    { induction l as [|c l IHl]; intros t1 G1 H1 e'; [discriminate|]. simpl.
      pose proof (IH c t1 G1 H1) as HI. pose proof (remove_node_rec_rm true f c t1 G1) as H2.
      pose proof (framed_remove_node f c true t1 (ok_keys _ (g_ok _ _ _ G1))) as H3. unfold wp, bind in *.
      destruct (remove_node f c true t1) as [[t2 e2] r2]. simpl in *. destruct r2 as [[]|e3|]; simpl; try discriminate.
      - assert (E2 : has_node t2 "" = false).
        { destruct (has_node t2 "") eqn:E2; auto. destruct H3 as (_ & F & _). apply (frame_has _ _ _ F) in E2. congruence. }
        specialize (IHl t2 (proj1 H2) E2 e'). destruct (for_each l _ t2) as [[t3 e3] r3]; auto.
      - exfalso. eapply HI; reflexivity. }
    unfold wp in HE. specialize (HX (childs t n) (detached n t)).
    assert (HD : has_node (detached n t) "" = false) by (rewrite has_node_detached; auto).
    specialize (HX (good_detached _ _ _ G) HD). change (for_each (childs t n) (fun c => remove_node f c true)) with (children_part (S f) n true (childs t n)) in HX.
    unfold bind at 1. destruct (children_part (S f) n true (childs t n) (detached n t)) as [[t1 e1] r1]. simpl in HE, HX.
    destruct r1 as [[]|e0|]; simpl; try discriminate; [|exfalso; eapply HX; reflexivity].
    destruct HE as (_ & _ & _ & HL). destruct (has_node t1 n) eqn:Hn1.
    + rewrite tail_Ok by auto. simpl. discriminate.
    + exfalso. apply (below_not_self t n G He). auto.
Qed.

(** Recursive deletion of a node of a strict tree. *)
Lemma del_rec_ok : forall n t, good true t -> has_node t "" = false -> outcome (DelNode n true) t = Ok tt.
Proof.
  intros n t G He. unfold outcome. cbn [run_op]. unfold del_node. rewrite bind_get.
  pose proof (remove_no_error (remove_budget t) n t G He) as H1.
  pose proof (remove_node_total true (remove_budget t) n (dkeys (nodes t)) t G He (ok_keys _ (g_ok _ _ _ G))) as H2.
  destruct (snd (remove_node (remove_budget t) n true t)) as [[]|e|]; auto.
  - exfalso. eapply H1; eauto.
  - exfalso. apply H2; auto; [intros x Hx; apply has_node_In; auto|]. eapply mu_budget; eauto.
Qed.

Lemma del_rec_nodes : forall n t, good true t -> has_node t "" = false ->
  forall x, has_node (after (DelNode n true) t) x = true <-> has_node t x = true /\ ~ anc t n x.
Proof.
  intros n t G He x. pose proof (del_rec_ok n t G He) as HO. unfold outcome, after in *. cbn [run_op] in *.
  unfold del_node in *. rewrite bind_get in *.
  pose proof (remove_lost (remove_budget t) n t G He) as H1.
  pose proof (framed_remove_node (remove_budget t) n true t (ok_keys _ (g_ok _ _ _ G))) as H2.
  pose proof (remove_node_rec_rm true (remove_budget t) n t G) as H3. unfold wp in *.
  destruct (remove_node (remove_budget t) n true t) as [[t' es] r]. simpl in *. subst r.
  destruct H2 as (_ & F & _). destruct H3 as (G' & _ & _ & H3). destruct (H3 eq_refl) as [Hn SP].
  split.
  - intros Hx. split; [eapply frame_has; eauto|]. intros A.
    assert (HT : has_node t' n = true); [|rewrite (Hn n (or_introl eq_refl)) in HT; discriminate].
    induction A; auto. apply IHA. rewrite <- (SP x Hx) in H. apply (ok_sym _ (g_ok _ _ _ G') _ _ H).
  - intros [Hx A]. destruct (has_node t' x) eqn:E; auto.
Qed.

Lemma del_rec_parents : forall n t, good true t -> has_node t "" = false ->
  forall x, has_node (after (DelNode n true) t) x = true -> parents (after (DelNode n true) t) x = parents t x.
Proof.
  intros n t G He x Hx. pose proof (del_rec_ok n t G He) as HO. unfold outcome, after in *. cbn [run_op] in *.
  unfold del_node in *. rewrite bind_get in *.
  pose proof (remove_node_rec_rm true (remove_budget t) n t G) as H3. unfold wp in *.
  destruct (remove_node (remove_budget t) n true t) as [[t' es] r]. simpl in *. subst r.
  destruct H3 as (G' & _ & _ & H3). destruct (H3 eq_refl) as [_ SP]. auto.
Qed.

(** In a strict tree the reported children that stay are the same, in the same order. *)
Lemma survivors_children : forall t t' x, good true t -> good true t' -> has_node t "" = false -> frame t t' ->
  (forall c p, has_node t' c = true -> has_node t' p = true -> In p (parents t c) -> In p (parents t' c)) ->
  has_node t' x = true -> get_children t' x = filter (has_node t') (get_children t x).
Proof.
  intros t t' x G G' He F HP Hx. destruct (has_node_get _ _ Hx) as [nd' E'].
  destruct (F _ _ E') as (nd & E & _ & Ec & _ & _ & Hs). unfold get_children. rewrite E', E, Ec.
  destruct (cen nd); auto.
  assert (HI : forall c, In c (chi nd) -> has_node t' c = true -> In c (chi nd')).
  { intros c Hc Lc. assert (P : In x (parents t c)).
    { apply (listed_parent t x c G He); [unfold childs; rewrite E; auto|eapply frame_has; eauto]. }
    apply HP in P; auto. apply (ok_sym _ (g_ok _ _ _ G')) in P. destruct P as [_ P]. unfold childs in P. rewrite E' in P. auto. }
  assert (ND : NoDup (chi nd)).
  { pose proof (ok_ndc _ (g_ok _ _ _ G) x) as ND. unfold childs in ND. rewrite E in ND. auto. }
  assert (E1 : filter (has_node t') (filter (has_node t) (chi nd)) = filter (has_node t') (chi nd)).
  { clear -F. induction (chi nd) as [|c l IH]; auto. simpl. destruct (has_node t c) eqn:Hc; simpl; rewrite IH; auto.
    destruct (has_node t' c) eqn:Hc'; auto. apply (frame_has _ _ _ F) in Hc'. congruence. }
  rewrite E1. apply subseq_same.
  - apply subseq_filter; auto.
  - apply NoDup_filter; auto.
  - intros c Hc. apply filter_In in Hc. apply filter_In. split; [apply HI|]; tauto.
Qed.
