(** Lemmas about the model of the main tree. *)
From Verif Require Import Base BaseFacts MainTree Spec.
Open Scope m_scope.

Lemma anc_trans : forall t a b c, anc t a b -> anc t b c -> anc t a c.
Proof. intros. induction H0; auto. eapply anc_step; eauto. Qed.

(** Weakest precondition of a call. *)
Definition wp {A} (m : M A) (Q : mtree -> list event -> res A -> Prop) (t : mtree) : Prop :=
  Q (fst (fst (m t))) (snd (fst (m t))) (snd (m t)).

Lemma wp_intro : forall A (m : M A) (Q : mtree -> list event -> res A -> Prop) t t' es r, m t = (t', es, r) -> Q t' es r -> wp m Q t.
Proof. unfold wp. intros. rewrite H. auto. Qed.

Lemma wp_ret : forall A (a : A) (Q : mtree -> list event -> res A -> Prop) t, Q t [] (Ok a) -> wp (ret a) Q t.
Proof. auto. Qed.

Lemma wp_raise : forall A e (Q : _ -> _ -> res A -> Prop) t, Q t [] (Err e) -> wp (raise e) Q t.
Proof. auto. Qed.

Lemma wp_bind : forall A B (m : M A) (k : A -> M B) (Q : mtree -> list event -> res B -> Prop) t,
  wp m (fun t1 e1 r => match r with
                       | Ok a => wp (k a) (fun t2 e2 r2 => Q t2 (e1 ++ e2) r2) t1
                       | Err e => Q t1 e1 (Err e)
                       | Diverge => Q t1 e1 Diverge
                       end) t ->
  wp (bind m k) Q t.
Proof.
  unfold wp, bind. intros. destruct (m t) as [[t1 e1] r]. simpl in *.
  destruct r; simpl in *; auto. destruct (k a t1) as [[t2 e2] r2]. simpl in *. auto.
Qed.

Lemma wp_mono : forall A (m : M A) (Q Q' : _ -> _ -> res A -> Prop) t,
  wp m Q t -> (forall t' es r, Q t' es r -> Q' t' es r) -> wp m Q' t.
Proof. unfold wp. auto. Qed.

(** Equations of [bind]. *)
Lemma bind_Ok : forall A B (m : M A) (k : A -> M B) t t1 e1 a,
  m t = (t1, e1, Ok a) -> bind m k t = (let '(t2, e2, r) := k a t1 in (t2, e1 ++ e2, r)).
Proof. unfold bind. intros. rewrite H. destruct (k a t1) as [[? ?] ?]. auto. Qed.

Lemma bind_Ok_nil : forall A B (m : M A) (k : A -> M B) t t1 a,
  m t = (t1, [], Ok a) -> bind m k t = k a t1.
Proof. unfold bind. intros. rewrite H. destruct (k a t1) as [[? ?] ?]. auto. Qed.

Lemma bind_Err : forall A B (m : M A) (k : A -> M B) t t1 e1 e,
  m t = (t1, e1, Err e) -> bind m k t = (t1, e1, Err e).
Proof. unfold bind. intros. rewrite H. auto. Qed.

Lemma bind_get : forall B (k : mtree -> M B) t, bind get k t = k t t.
Proof. intros. unfold bind, get. destruct (k t t) as [[? ?] ?]. auto. Qed.

Lemma bind_modify : forall B f (k : unit -> M B) t, bind (modify f) k t = k tt (f t).
Proof. intros. unfold bind, modify. destruct (k tt (f t)) as [[? ?] ?]. auto. Qed.

Lemma bind_ret : forall A B (a : A) (k : A -> M B) t, bind (ret a) k t = k a t.
Proof. intros. unfold bind, ret. destruct (k a t) as [[? ?] ?]. auto. Qed.

Lemma bind_callback : forall B kd n (k : unit -> M B) t,
  bind (callback kd n) k t = (let '(t2, e2, r) := k tt t in (t2, Ev kd n t :: e2, r)).
Proof. intros. unfold bind, callback. destruct (k tt t) as [[? ?] ?]. auto. Qed.

Lemma has_node_In : forall t x, has_node t x = true <-> In x (dkeys (nodes t)).
Proof. intros. apply dmem_In. Qed.

Lemma has_node_get : forall t x, has_node t x = true -> exists nd, dget x (nodes t) = Some nd.
Proof. unfold has_node, dmem. intros. destruct (dget x (nodes t)); eauto. discriminate. Qed.

Lemma get_has_node : forall t x nd, dget x (nodes t) = Some nd -> has_node t x = true.
Proof. unfold has_node, dmem. intros. rewrite H. auto. Qed.

Lemma has_node_none : forall t x, has_node t x = false -> dget x (nodes t) = None.
Proof. unfold has_node, dmem. intros. destruct (dget x (nodes t)); auto. discriminate. Qed.

Lemma node_at_Some : forall t n nd, dget n (nodes t) = Some nd -> node_at n t = (t, [], Ok nd).
Proof. unfold node_at. intros. rewrite H. auto. Qed.

Lemma node_at_None : forall t n, dget n (nodes t) = None -> node_at n t = (t, [], Err KeyError).
Proof. unfold node_at. intros. rewrite H. auto. Qed.

(** [upd_node] *)
Lemma dget_upd : forall t n f x,
  dget x (nodes (upd_node n f t)) = if String.eqb x n then option_map f (dget n (nodes t)) else dget x (nodes t).
Proof.
  intros. unfold upd_node. destruct (dget n (nodes t)) eqn:E.
  - simpl. rewrite dget_dset. deq x n; auto.
  - deq x n; auto. subst; auto.
Qed.

Lemma dkeys_upd : forall t n f, dkeys (nodes (upd_node n f t)) = dkeys (nodes t).
Proof.
  intros. unfold upd_node. destruct (dget n (nodes t)) eqn:E; auto.
  simpl. apply dkeys_dset_in. eapply dget_Some_In; eauto.
Qed.

Lemma has_node_upd : forall t n f x, has_node (upd_node n f t) x = has_node t x.
Proof.
  intros. unfold has_node, dmem. rewrite dget_upd. deq x n; auto. subst.
  destruct (dget n (nodes t)); auto.
Qed.

Lemma rootc_upd : forall t n f, rootc (upd_node n f t) = rootc t.
Proof. intros. unfold upd_node. destruct (dget n (nodes t)); auto. Qed.

Lemma pend_upd : forall t n f, pend (upd_node n f t) = pend t.
Proof. intros. unfold upd_node. destruct (dget n (nodes t)); auto. Qed.

(** Adding and removing an edge, as functions. *)
Definition add_edge (p c : id) (t : mtree) : mtree :=
  let t1 := upd_node p (fun nd => if mem c (chi nd) then nd else set_chi (chi nd ++ [c]) nd) t in
  let t2 := upd_node c (fun nd => if mem p (par nd) then nd else set_par (par nd ++ [p]) nd) t1 in
  set_rootc (remove1 c (rootc t2)) t2.

Definition del_edge (p c : id) (t : mtree) : mtree :=
  upd_node c (fun nd => set_par (remove1 p (par nd)) nd)
    (upd_node p (fun nd => set_chi (remove1 c (chi nd)) nd) t).

Lemma create_eq : forall p c t, has_node t p = true -> has_node t c = true ->
  create_relationship p c t = (add_edge p c t, [], Ok tt).
Proof.
  intros. apply has_node_get in H. apply has_node_get in H0. destruct H as [pn Hp], H0 as [cn Hc].
  unfold create_relationship.
  erewrite bind_Ok_nil by (apply node_at_Some; eauto).
  erewrite bind_Ok_nil by (apply node_at_Some; eauto). reflexivity.
Qed.

Lemma destroy_eq : forall p c t, has_node t p = true -> has_node t c = true ->
  destroy_relationship p c t = (del_edge p c t, [], Ok tt).
Proof.
  intros. apply has_node_get in H. apply has_node_get in H0. destruct H as [pn Hp], H0 as [cn Hc].
  unfold destroy_relationship.
  erewrite bind_Ok_nil by (apply node_at_Some; eauto).
  erewrite bind_Ok_nil by (apply node_at_Some; eauto). reflexivity.
Qed.

Lemma destroy_err : forall p c t, has_node t p && has_node t c = false ->
  destroy_relationship p c t = (t, [], Err KeyError).
Proof.
  intros. unfold destroy_relationship. destruct (has_node t p) eqn:Ep.
  - simpl in H. apply has_node_get in Ep. destruct Ep as [pn Ep]. apply has_node_none in H.
    erewrite bind_Ok_nil by (apply node_at_Some; eauto).
    erewrite bind_Err by (apply node_at_None; auto). auto.
  - apply has_node_none in Ep. erewrite bind_Err by (apply node_at_None; auto). auto.
Qed.

(** The record of a node after the change of an edge. *)
Lemma dget_add_edge : forall p c t x,
  dget x (nodes (add_edge p c t)) =
  option_map (fun nd => mkNode
    (if String.eqb x c && negb (mem p (par nd)) then par nd ++ [p] else par nd)
    (if String.eqb x p && negb (mem c (chi nd)) then chi nd ++ [c] else chi nd)
    (pen nd) (cen nd) (npend nd) (data nd)) (dget x (nodes t)).
Proof.
  intros. unfold add_edge. cbv zeta. change (nodes (set_rootc ?a ?b)) with (nodes b).
  rewrite dget_upd, dget_upd. rewrite dget_upd.
  deq x c.
  - subst. deq c p.
    + subst. destruct (dget p (nodes t)) as [nd|]; simpl; auto. f_equal.
      destruct (mem p (chi nd)) eqn:E1; simpl; destruct (mem p (par nd)) eqn:E2; simpl; destruct nd; auto.
    + destruct (dget c (nodes t)) as [nd|]; simpl; auto. f_equal.
      destruct (mem p (par nd)) eqn:E2; simpl; destruct nd; auto.
  - deq x p.
    + subst. destruct (dget p (nodes t)) as [nd|]; simpl; auto. f_equal.
      destruct (mem c (chi nd)) eqn:E2; simpl; destruct nd; auto.
    + destruct (dget x (nodes t)) as [nd|]; simpl; auto. f_equal. destruct nd; auto.
Qed.

Lemma dget_del_edge : forall p c t x,
  dget x (nodes (del_edge p c t)) =
  option_map (fun nd => mkNode
    (if String.eqb x c then remove1 p (par nd) else par nd)
    (if String.eqb x p then remove1 c (chi nd) else chi nd)
    (pen nd) (cen nd) (npend nd) (data nd)) (dget x (nodes t)).
Proof.
  intros. unfold del_edge. rewrite dget_upd, dget_upd. rewrite dget_upd.
  deq x c.
  - subst. deq c p.
    + subst. destruct (dget p (nodes t)) as [nd|]; simpl; auto.
    + destruct (dget c (nodes t)) as [nd|]; simpl; auto.
  - deq x p.
    + subst. destruct (dget p (nodes t)) as [nd|]; simpl; auto.
    + destruct (dget x (nodes t)) as [nd|]; simpl; auto. f_equal. destruct nd; auto.
Qed.

Lemma parents_add_edge : forall p c t x, has_node t c = true ->
  parents (add_edge p c t) x =
  if String.eqb x c && negb (mem p (parents t x)) then parents t x ++ [p] else parents t x.
Proof.
  intros. unfold parents. rewrite dget_add_edge. destruct (dget x (nodes t)) eqn:E; simpl; auto.
  deq x c; simpl; auto. subst. apply has_node_get in H. destruct H. congruence.
Qed.

Lemma childs_add_edge : forall p c t x, has_node t p = true ->
  childs (add_edge p c t) x =
  if String.eqb x p && negb (mem c (childs t x)) then childs t x ++ [c] else childs t x.
Proof.
  intros. unfold childs. rewrite dget_add_edge. destruct (dget x (nodes t)) eqn:E; simpl; auto.
  deq x p; simpl; auto. subst. apply has_node_get in H. destruct H. congruence.
Qed.

Lemma parents_del_edge : forall p c t x,
  parents (del_edge p c t) x = if String.eqb x c then remove1 p (parents t x) else parents t x.
Proof.
  intros. unfold parents. rewrite dget_del_edge. destruct (dget x (nodes t)) eqn:E; simpl; auto.
  deq x c; auto.
Qed.

Lemma childs_del_edge : forall p c t x,
  childs (del_edge p c t) x = if String.eqb x p then remove1 c (childs t x) else childs t x.
Proof.
  intros. unfold childs. rewrite dget_del_edge. destruct (dget x (nodes t)) eqn:E; simpl; auto.
  deq x p; auto.
Qed.

Lemma dkeys_add_edge : forall p c t, dkeys (nodes (add_edge p c t)) = dkeys (nodes t).
Proof.
  intros. unfold add_edge. cbv zeta. change (nodes (set_rootc ?a ?b)) with (nodes b).
  rewrite !dkeys_upd. auto.
Qed.

Lemma dkeys_del_edge : forall p c t, dkeys (nodes (del_edge p c t)) = dkeys (nodes t).
Proof. intros. unfold del_edge. rewrite !dkeys_upd. auto. Qed.

Lemma has_node_keys : forall t t', dkeys (nodes t) = dkeys (nodes t') -> forall x, has_node t x = has_node t' x.
Proof.
  intros. destruct (has_node t x) eqn:E; destruct (has_node t' x) eqn:E'; auto.
  - apply has_node_In in E. rewrite H in E. apply has_node_In in E. congruence.
  - apply has_node_In in E'. rewrite <- H in E'. apply has_node_In in E'. congruence.
Qed.

Lemma has_node_add_edge : forall p c t x, has_node (add_edge p c t) x = has_node t x.
Proof. intros. apply has_node_keys. apply dkeys_add_edge. Qed.

Lemma has_node_del_edge : forall p c t x, has_node (del_edge p c t) x = has_node t x.
Proof. intros. apply has_node_keys. apply dkeys_del_edge. Qed.

Lemma rootc_add_edge : forall p c t, rootc (add_edge p c t) = remove1 c (rootc t).
Proof. intros. unfold add_edge. simpl. rewrite !rootc_upd. auto. Qed.

Lemma rootc_del_edge : forall p c t, rootc (del_edge p c t) = rootc t.
Proof. intros. unfold del_edge. rewrite !rootc_upd. auto. Qed.

Lemma pend_add_edge : forall p c t, pend (add_edge p c t) = pend t.
Proof. intros. unfold add_edge. simpl. rewrite !pend_upd. auto. Qed.

Lemma pend_del_edge : forall p c t, pend (del_edge p c t) = pend t.
Proof. intros. unfold del_edge. rewrite !pend_upd. auto. Qed.

(** The invariant that every history of calls preserves, exceptions included. *)
Record ok (t : mtree) : Prop := {
  ok_keys : NoDup (dkeys (nodes t));
  ok_sym : forall c p, In p (parents t c) -> has_node t p = true /\ In c (childs t p);
  ok_ndp : forall x, NoDup (parents t x);
  ok_ndc : forall x, NoDup (childs t x);
  ok_pend : forall p c, In (Some p, c) (pend t) -> p <> c;
  ok_rank : exists r : id -> nat, forall p c, In p (parents t c) -> r p < r c
}.

Lemma parents_live : forall t x, parents t x <> [] -> has_node t x = true.
Proof.
  unfold parents, has_node, dmem. intros. destruct (dget x (nodes t)); auto.
Qed.

Lemma In_parents_live : forall t x p, In p (parents t x) -> has_node t x = true.
Proof. intros. apply parents_live. intro E. rewrite E in H. destruct H. Qed.

Lemma In_childs_live : forall t x p, In p (childs t x) -> has_node t x = true.
Proof.
  unfold childs, has_node, dmem. intros. destruct (dget x (nodes t)); auto.
Qed.

Lemma filter_length_lt : forall {A} (f g : A -> bool) l p,
  (forall x, f x = true -> g x = true) -> In p l -> f p = false -> g p = true ->
  length (filter f l) < length (filter g l).
Proof.
  assert (L : forall {A} (f g : A -> bool) l, (forall x, f x = true -> g x = true) ->
    length (filter f l) <= length (filter g l)).
  { induction l; simpl; auto. intros. specialize (IHl H). pose proof (H a).
    destruct (f a) eqn:E1; destruct (g a) eqn:E2; simpl; try lia; try (rewrite H0 in E2; auto; discriminate). }
  induction l; simpl; [tauto|]. intros p Hfg [E|Hin] Hf Hg.
  - subst. rewrite Hf, Hg. simpl. pose proof (L _ f g l Hfg). lia.
  - pose proof (IHl p Hfg Hin Hf Hg). pose proof (Hfg a).
    destruct (f a) eqn:E1; destruct (g a) eqn:E2; simpl; try lia; try (rewrite H0 in E2; auto; discriminate).
Qed.

(** A rank bounded by the number of nodes. *)
Lemma bounded_rank : forall t, ok t ->
  exists r : id -> nat, (forall p c, In p (parents t c) -> r p < r c) /\ forall x, r x <= length (nodes t).
Proof.
  intros t H. destruct (ok_rank _ H) as [r Hr].
  exists (fun x => length (filter (fun y => Nat.ltb (r y) (r x)) (dkeys (nodes t)))). split.
  - intros p c Hp. apply filter_length_lt with (p := p).
    + intros x Hx. apply Nat.ltb_lt in Hx. apply Nat.ltb_lt. specialize (Hr _ _ Hp). lia.
    + apply has_node_In. apply (ok_sym _ H _ _ Hp).
    + apply Nat.ltb_irrefl.
    + apply Nat.ltb_lt. auto.
  - intros x. rewrite <- dkeys_length.
    generalize (dkeys (nodes t)) as l. induction l; simpl; auto. destruct (r a <? r x); simpl; lia.
Qed.

Lemma parents_length : forall t x, ok t -> length (parents t x) <= length (nodes t).
Proof.
  intros. rewrite <- dkeys_length. apply NoDup_incl_length.
  - apply (ok_ndp _ H).
  - intros y Hy. apply has_node_In. apply (ok_sym _ H _ _ Hy).
Qed.

Lemma anc_rank : forall t r, (forall p c, In p (parents t c) -> r p < r c) ->
  forall a x, anc t a x -> a = x \/ r a < r x.
Proof.
  intros t r Hr a x H. induction H; auto. right. specialize (Hr _ _ H). destruct IHanc; [subst|]; lia.
Qed.

Lemma anc_antisym : forall t a b, ok t -> anc t a b -> anc t b a -> a = b.
Proof.
  intros t a b H H1 H2. destruct (ok_rank _ H) as [r Hr].
  apply (anc_rank t r Hr) in H1. apply (anc_rank t r Hr) in H2. destruct H1, H2; auto; lia.
Qed.

(** [_is_circular_relation] terminates and decides ancestry. *)
Lemma is_circular_spec : forall t p c, ok t ->
  exists b, is_circular p c t = (t, [], Ok b) /\ (b = true <-> anc t c p).
Proof.
  intros t p c H. destruct (bounded_rank _ H) as (r & Hr & Hb).
  set (b := length (nodes t)).
  pose (I := fun l : list id => anc t c p <-> exists x, In x l /\ anc t c x).
  destruct (loop_total (circ_step t c) I (sum (fun y => (S b) ^ (r y)))) with
    (k := walk_budget b) (s := [p]) as (l & res & E & Il & El).
  - intros l l' Il E. destruct l as [|x rest]; simpl in E; [discriminate|].
    deq x c; [discriminate|].
    destruct (dget x (nodes t)) as [nd|] eqn:Ed; inv E.
    + assert (P : parents t x = par nd) by (unfold parents; rewrite Ed; auto). split.
      * unfold I in *. rewrite Il. split; intros (y & Hy & Ha).
        -- destruct Hy as [Hy|Hy].
           ++ subst. inv Ha; [congruence|]. rewrite P in H0. exists p0. rewrite in_app_iff. auto.
           ++ exists y. rewrite in_app_iff. auto.
        -- apply in_app_iff in Hy. destruct Hy as [Hy|Hy].
           ++ exists y. auto.
           ++ exists x. split; auto. eapply anc_step; eauto. rewrite P; auto.
      * rewrite sum_app. simpl.
        pose proof (weight_dec b r (par nd) x) as W. rewrite <- P in *.
        specialize (W (parents_length _ _ H) (fun y Hy => Hr _ _ Hy)). lia.
    + split.
      * unfold I in *. rewrite Il. split; intros (y & Hy & Ha).
        -- destruct Hy as [Hy|Hy]; [|eauto]. subst. inv Ha; [congruence|].
           unfold parents in H0. rewrite Ed in H0. destruct H0.
        -- eauto.
      * simpl. pose proof (pow_pos b (r x)). simpl in *. lia.
  - unfold I. split; intros.
    + exists p. auto.
    + destruct H0 as (x & [Hx|[]] & Ha). subst. auto.
  - simpl. rewrite Nat.add_0_r. apply weight_bound. apply Hb.
  - unfold is_circular. fold b. rewrite E. exists res. split; auto.
    destruct l as [|x rest]; simpl in El.
    + inv El. unfold I in Il. split; [discriminate|]. intros Ha. apply Il in Ha.
      destruct Ha as (y & [] & _).
    + deq x c.
      * inv El. split; auto. intros _. apply Il. exists c. split; auto. constructor.
      * destruct (dget x (nodes t)); discriminate.
Qed.

(** Boolean ancestry, used to shift ranks. *)
Fixpoint reachb (fuel : nat) (t : mtree) (a x : id) : bool :=
  String.eqb x a ||
  match fuel with
  | 0 => false
  | S f => existsb (reachb f t a) (parents t x)
  end.

Lemma reachb_spec : forall t r, (forall p c, In p (parents t c) -> r p < r c) ->
  forall a f x, r x <= f -> (reachb f t a x = true <-> anc t a x).
Proof.
  intros t r Hr a. induction f; simpl; intros x Hx; rewrite orb_true_iff, eqb_eq.
  - split.
    + intros [E|E]; [subst; constructor|discriminate].
    + intros Ha. inv Ha; auto. specialize (Hr _ _ H). lia.
  - rewrite existsb_exists. split.
    + intros [E|(p & Hp & E)]; [subst; constructor|]. eapply anc_step; eauto.
      apply IHf; auto. specialize (Hr _ _ Hp). lia.
    + intros Ha. inv Ha; auto. right. exists p. split; auto. apply IHf; auto.
      specialize (Hr _ _ H). lia.
Qed.

(** Adding an edge that closes no cycle. *)
Lemma ok_add_edge : forall p c t, ok t -> has_node t p = true -> has_node t c = true ->
  ~ anc t c p -> ok (add_edge p c t).
Proof.
  intros p c t H Hp Hc Hn.
  assert (HP : forall q x, In q (parents (add_edge p c t) x) <-> In q (parents t x) \/ (x = c /\ q = p)).
  { intros. rewrite parents_add_edge by auto. deq x c; simpl; [|intuition].
    subst. destruct (mem_spec p (parents t c)); simpl.
    - intuition; subst; auto.
    - rewrite in_app_iff. simpl. intuition. }
  assert (HC : forall q x, In q (childs (add_edge p c t) x) <-> In q (childs t x) \/ (x = p /\ q = c)).
  { intros. rewrite childs_add_edge by auto. deq x p; simpl; [|intuition].
    subst. destruct (mem_spec c (childs t p)); simpl.
    - intuition; subst; auto.
    - rewrite in_app_iff. simpl. intuition. }
  constructor.
  - rewrite dkeys_add_edge. apply (ok_keys _ H).
  - intros x q Hq. apply HP in Hq. rewrite has_node_add_edge, HC. destruct Hq as [Hq|[E1 E2]].
    + destruct (ok_sym _ H _ _ Hq). auto.
    + subst. auto.
  - intros x. rewrite parents_add_edge by auto. deq x c; simpl; [|apply (ok_ndp _ H)].
    destruct (mem_spec p (parents t x)); simpl; [apply (ok_ndp _ H)|].
    apply NoDup_snoc; auto. apply (ok_ndp _ H).
  - intros x. rewrite childs_add_edge by auto. deq x p; simpl; [|apply (ok_ndc _ H)].
    destruct (mem_spec c (childs t x)); simpl; [apply (ok_ndc _ H)|].
    apply NoDup_snoc; auto. apply (ok_ndc _ H).
  - rewrite pend_add_edge. apply (ok_pend _ H).
  - destruct (ok_rank _ H) as [r Hr].
    exists (fun x => r x + if reachb (r x) t c x then S (r p) else 0).
    intros q x Hq. apply HP in Hq. destruct Hq as [Hq|[E1 E2]].
    + specialize (Hr _ _ Hq) as L.
      destruct (reachb (r q) t c q) eqn:Eq; destruct (reachb (r x) t c x) eqn:Ex; try lia.
      assert (reachb (r x) t c x = true); [|congruence].
      rewrite (reachb_spec t r Hr) in * by auto. eapply anc_step; eauto.
    + subst.
      assert (reachb (r c) t c c = true) by (rewrite (reachb_spec t r Hr); auto; constructor).
      destruct (reachb (r p) t c p) eqn:Ep.
      * rewrite (reachb_spec t r Hr) in Ep by auto. contradiction.
      * rewrite H0. lia.
Qed.

Lemma ok_del_edge : forall p c t, ok t -> ok (del_edge p c t).
Proof.
  intros p c t H. constructor.
  - rewrite dkeys_del_edge. apply (ok_keys _ H).
  - intros x q Hq. rewrite parents_del_edge in Hq. rewrite has_node_del_edge, childs_del_edge.
    deq x c.
    + subst. apply remove1_iff in Hq; [|apply (ok_ndp _ H)]. destruct Hq as [Hq Hn].
      destruct (ok_sym _ H _ _ Hq). split; auto. deq q p; [congruence|auto].
    + destruct (ok_sym _ H _ _ Hq). split; auto. deq q p; auto. apply remove1_In_neq; auto.
  - intros x. rewrite parents_del_edge. deq x c; [apply remove1_NoDup|]; apply (ok_ndp _ H).
  - intros x. rewrite childs_del_edge. deq x p; [apply remove1_NoDup|]; apply (ok_ndc _ H).
  - rewrite pend_del_edge. apply (ok_pend _ H).
  - destruct (ok_rank _ H) as [r Hr]. exists r. intros q x Hq. rewrite parents_del_edge in Hq.
    deq x c; apply Hr; auto. eapply remove1_In; eauto.
Qed.

(** Changes outside the graph. *)
Lemma ok_same : forall t t', nodes t' = nodes t ->
  (forall p c, In (Some p, c) (pend t') -> p <> c) -> ok t -> ok t'.
Proof.
  intros t t' E HP H.
  assert (E1 : forall x, parents t' x = parents t x) by (intros; unfold parents; rewrite E; auto).
  assert (E2 : forall x, childs t' x = childs t x) by (intros; unfold childs; rewrite E; auto).
  constructor; intros.
  - rewrite E. apply (ok_keys _ H).
  - rewrite E1 in H0. rewrite E2. unfold has_node. rewrite E. apply (ok_sym _ H); auto.
  - rewrite E1. apply (ok_ndp _ H).
  - rewrite E2. apply (ok_ndc _ H).
  - eapply HP; eauto.
  - destruct (ok_rank _ H) as [r Hr]. exists r. intros. rewrite E1 in H0. auto.
Qed.

Lemma ok_set_rootc : forall l t, ok t -> ok (set_rootc l t).
Proof. intros. eapply ok_same with (t := t); auto. apply (ok_pend _ H). Qed.

Lemma ok_set_pend : forall l t, (forall p c, In (Some p, c) l -> p <> c) -> ok t -> ok (set_pend l t).
Proof. intros. eapply ok_same with (t := t); auto. Qed.

Lemma ok_empty : ok empty_tree.
Proof.
  constructor; simpl; intros; try constructor; try contradiction.
  exists (fun _ => 0). intros. destruct H.
Qed.
