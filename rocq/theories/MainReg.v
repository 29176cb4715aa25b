(** The trees of ordinary applications (parents and children never disabled, no
    id that collides with the root) and the elementary steps of the calls on
    them. *)
From Verif Require Import Base BaseFacts MainTree Spec MainFacts MainInv MainOps MainDel MainRun MainAdd MainEff.
Open Scope m_scope.

Definition flags_on (t : mtree) : Prop := forall x nd, dget x (nodes t) = Some nd -> pen nd = true /\ cen nd = true.

(** [x] is a child of the root exactly when it has no parent; [ex] is exempted. *)
Definition root_ok (ex : id -> Prop) (t : mtree) : Prop :=
  NoDup (rootc t) /\ (forall x, In x (rootc t) -> has_node t x = true) /\
  forall x, ~ ex x -> has_node t x = true -> (In x (rootc t) <-> parents t x = []).

Record reg (t : mtree) : Prop := {
  r_good : good true t;
  r_flags : flags_on t;
  r_empty : has_node t "" = false;
  r_main : has_node t main_root = false;
  r_root : root_ok (fun _ => False) t
}.

Definition pend_ok (t : mtree) : Prop := forall p c, In (Some p, c) (pend t) -> p <> c.

(** Elementary steps, with the events they send. *)
Inductive atom (t : mtree) : mtree -> list event -> Prop :=
| at_pend : forall t', nodes t' = nodes t -> rootc t' = rootc t -> pend_ok t' -> atom t t' []
| at_mod : forall n, has_node t n = true -> atom t t [Ev EModified n t]
| at_data : forall n v t', has_node t n = true -> t' = upd_node n (set_data v) t -> atom t t' [Ev EModified n t']
| at_rel : forall p c t', has_node t p = true -> has_node t c = true -> ~ anc t c p ->
    nodes t' = nodes (add_edge p c t) -> rootc t' = remove1 c (rootc t) -> pend_ok t' ->
    atom t t' [Ev EModified p t'; Ev EModified c t']
| at_brk : forall p c t', has_node t p = true -> has_node t c = true -> p <> c ->
    nodes t' = nodes (del_edge p c t) ->
    rootc t' = (match parents t' c with
                | [] => if mem c (rootc t) then rootc t else rootc t ++ [c]
                | _ => rootc t end) -> pend_ok t' ->
    atom t t' [Ev EModified p t'; Ev EModified c t'].

Inductive atoms (t : mtree) : mtree -> list event -> Prop :=
| as_nil : atoms t t []
| as_step : forall t1 e1 t2 e2, atoms t t1 e1 -> atom t1 t2 e2 -> atoms t t2 (e1 ++ e2).

Lemma atoms_one : forall t t' es, atom t t' es -> atoms t t' es.
Proof. intros. change es with ([] ++ es). eapply as_step; [apply as_nil|auto]. Qed.

Lemma atoms_trans : forall t t1 e1 t2 e2, atoms t t1 e1 -> atoms t1 t2 e2 -> atoms t t2 (e1 ++ e2).
Proof.
  intros t t1 e1 t2 e2 H1 H2. induction H2; [rewrite app_nil_r; auto|].
  rewrite app_assoc. eapply as_step; eauto.
Qed.

(** Under [reg] the reported parents and children are the stored ones (children
    that are not in the tree left out). *)
Lemma get_parents_reg : forall t x, ok t -> flags_on t -> get_parents t x = parents t x.
Proof.
  intros t x O F. unfold get_parents. pose proof (ok_sym _ O x) as S. unfold parents in *.
  destruct (dget x (nodes t)) as [nd|] eqn:E; auto. destruct (F _ _ E) as [-> _].
  apply filter_id. intros p Hp. apply S; auto.
Qed.

Lemma get_children_reg : forall t x, flags_on t -> get_children t x = filter (has_node t) (childs t x).
Proof.
  intros t x F. unfold get_children, childs. destruct (dget x (nodes t)) as [nd|] eqn:E; auto.
  destruct (F _ _ E) as [_ ->]. auto.
Qed.

Lemma flags_on_attrs : forall t t', (forall x nd, dget x (nodes t') = Some nd ->
   exists nd', dget x (nodes t) = Some nd' /\ pen nd = pen nd' /\ cen nd = cen nd') -> flags_on t -> flags_on t'.
Proof. intros t t' H F x nd E. destruct (H x nd E) as (nd' & E' & -> & ->). eapply F; eauto. Qed.

Lemma flags_on_nodes : forall t t', nodes t' = nodes t -> flags_on t -> flags_on t'.
Proof. intros t t' E F x nd H. rewrite E in H. eapply F; eauto. Qed.

Lemma flags_on_add_edge : forall p c t, flags_on t -> flags_on (add_edge p c t).
Proof.
  intros p c t. apply flags_on_attrs. intros x nd. rewrite dget_add_edge.
  destruct (dget x (nodes t)) as [nd'|]; simpl; intros E; [inv E|discriminate]. exists nd'. auto.
Qed.

Lemma flags_on_del_edge : forall p c t, flags_on t -> flags_on (del_edge p c t).
Proof.
  intros p c t. apply flags_on_attrs. intros x nd. rewrite dget_del_edge.
  destruct (dget x (nodes t)) as [nd'|]; simpl; intros E; [inv E|discriminate]. exists nd'. auto.
Qed.

Lemma live_id : forall t x, reg t -> has_node t x = true -> x <> "" /\ x <> main_root.
Proof. intros t x R H. split; intro; subst; [rewrite (r_empty _ R) in H|rewrite (r_main _ R) in H]; discriminate. Qed.

Lemma good_nodes : forall s t t', nodes t' = nodes t -> pend_ok t' -> good s t -> good s t'.
Proof. intros. eapply goodx_same; eauto. Qed.

Lemma reg_pend : forall t, reg t -> pend_ok t.
Proof. intros t R p c. apply (ok_pend _ (g_ok _ _ _ (r_good _ R))). Qed.

Lemma reg_ok : forall t, reg t -> ok t.
Proof. intros t R. apply (g_ok _ _ _ (r_good _ R)). Qed.

(** Under [reg] a listed child that is in the tree has the lister as a parent. *)
Lemma reg_sym : forall t p c, reg t -> In c (childs t p) -> has_node t c = true -> In p (parents t c).
Proof.
  intros t p c R Hc Hl. destruct (In_dec_id p (parents t c)) as [|N]; auto. exfalso.
  pose proof (In_childs_live _ _ _ Hc) as Hp.
  destruct (live_id _ _ R Hp). destruct (live_id _ _ R Hl).
  destruct (g_imp _ _ _ (r_good _ R) p c) as [E _]; auto. discriminate.
Qed.

Lemma root_ok_nodes : forall ex t t', nodes t' = nodes t -> rootc t' = rootc t -> root_ok ex t -> root_ok ex t'.
Proof.
  intros ex t t' E1 E2 (A & B & C). unfold root_ok. rewrite E2. split; auto. split.
  - intros x Hx. rewrite (has_node_nodes t t'); auto.
  - intros x Hx Hl. rewrite (has_node_nodes t t') in Hl by auto. rewrite (parents_nodes t t') by auto. auto.
Qed.

(** Adding a relation. *)
Lemma root_ok_add_edge : forall ex p c t t', root_ok ex t -> has_node t p = true -> has_node t c = true ->
  nodes t' = nodes (add_edge p c t) -> rootc t' = remove1 c (rootc t) -> root_ok ex t'.
Proof.
  intros ex p c t t' (A & B & C) Hp Hc En Er.
  assert (HL : forall x, has_node t' x = has_node t x).
  { intros. rewrite (has_node_nodes (add_edge p c t) t') by auto. apply has_node_add_edge. }
  unfold root_ok. rewrite Er. split; [apply remove1_NoDup; auto|]. split.
  - intros x Hx. rewrite HL. apply B. eapply remove1_In; eauto.
  - intros x Hx Hl. rewrite HL in Hl. rewrite remove1_iff by auto. rewrite C by auto.
    rewrite (parents_nodes (add_edge p c t) t') by auto. rewrite parents_add_edge by auto.
    deq x c; simpl.
    + subst. split; [tauto|]. intros E1. destruct (mem_spec p (parents t c)) as [Hin|Hin]; simpl in E1.
      * rewrite E1 in Hin. destruct Hin.
      * destruct (parents t c); discriminate.
    + tauto.
Qed.

Lemma reg_rel : forall t p c t', reg t -> has_node t p = true -> has_node t c = true -> ~ anc t c p ->
  nodes t' = nodes (add_edge p c t) -> rootc t' = remove1 c (rootc t) -> pend_ok t' -> reg t'.
Proof.
  intros t p c t' R Hp Hc Ha En Er Hpd.
  assert (HL : forall x, has_node t' x = has_node t x).
  { intros. rewrite (has_node_nodes (add_edge p c t) t') by auto. apply has_node_add_edge. }
  constructor.
  - eapply good_nodes; eauto. apply good_add_edge; auto. apply goodx_weaken. apply R.
  - eapply flags_on_nodes; [apply En|]. apply flags_on_add_edge. apply R.
  - rewrite HL. apply R.
  - rewrite HL. apply R.
  - apply (root_ok_add_edge _ p c t t'); auto. apply R.
Qed.

Lemma root_ok_brk : forall p c t t', root_ok (fun _ => False) t -> has_node t c = true -> NoDup (parents t c) ->
  nodes t' = nodes (del_edge p c t) ->
  rootc t' = (match parents t' c with
              | [] => if mem c (rootc t) then rootc t else rootc t ++ [c]
              | _ => rootc t end) -> root_ok (fun _ => False) t'.
Proof.
  intros p c t t' (A & B & C) Hc ND En Er.
  assert (HL : forall x, has_node t' x = has_node t x).
  { intros. rewrite (has_node_nodes (del_edge p c t) t') by auto. apply has_node_del_edge. }
  assert (HP : forall x, parents t' x = if String.eqb x c then remove1 p (parents t x) else parents t x).
  { intros. rewrite (parents_nodes (del_edge p c t) t') by auto. apply parents_del_edge. }
  assert (HR : forall x, In x (rootc t') <-> In x (rootc t) \/ (x = c /\ parents t' c = [])).
  { intros x. rewrite Er. destruct (parents t' c); [|split; [auto|intros [H|[_ H]]; [auto|discriminate]]].
    destruct (mem_spec c (rootc t)); [|rewrite in_app_iff; simpl]; split; intros; intuition (subst; auto). }
  split; [|split].
  - rewrite Er. destruct (parents t' c); auto. destruct (mem_spec c (rootc t)); auto. apply NoDup_snoc; auto.
  - intros x Hx. rewrite HL. apply HR in Hx. destruct Hx as [Hx|[-> _]]; auto.
  - intros x _ Hl. rewrite HL in Hl. rewrite HR, C by auto. rewrite (HP x). deq x c.
    + subst x. rewrite (HP c), eqb_refl. split; [|tauto]. intros [H|[_ H]]; auto. rewrite H. auto.
    + split; [intros [H|[H _]]; [auto|contradiction]|auto].
Qed.

Lemma reg_atom : forall t t' es, reg t -> atom t t' es -> reg t'.
Proof.
  intros t t' es R H. destruct H as [t' En Er Hp|n Hn|n v t' Hn E|p c t' Hp Hc Ha En Er Hpd|p c t' Hp Hc Hpc En Er Hpd]; auto.
  - constructor.
    + eapply good_nodes; eauto. apply R.
    + eapply flags_on_nodes; eauto. apply R.
    + rewrite (has_node_nodes t t') by auto. apply R.
    + rewrite (has_node_nodes t t') by auto. apply R.
    + eapply root_ok_nodes; eauto. apply R.
  - subst t'. constructor.
    + apply good_upd_other; auto. apply R.
    + intros x nd E. rewrite dget_upd in E. deq x n; [|apply (r_flags _ R x); auto]. subst.
      destruct (dget n (nodes t)) as [nd'|] eqn:E'; [|discriminate]. inv E. simpl. apply (r_flags _ R n); auto.
    + rewrite has_node_upd. apply R.
    + rewrite has_node_upd. apply R.
    + destruct (r_root _ R) as (A & B & C). unfold root_ok. rewrite rootc_upd. split; auto.
      split; [intros; rewrite has_node_upd; auto|]. intros x Hx Hl. rewrite has_node_upd in Hl. rewrite C by auto.
      unfold parents. rewrite dget_upd. deq x n; [|tauto]. subst. destruct (dget n (nodes t)); simpl; tauto.
  - apply (reg_rel t p c t'); auto.
  - assert (HL : forall x, has_node t' x = has_node t x).
    { intros. rewrite (has_node_nodes (del_edge p c t) t') by auto. apply has_node_del_edge. }
    constructor.
    + eapply good_nodes; eauto. apply good_del_edge. apply goodx_weaken. apply R.
    + eapply flags_on_nodes; [apply En|]. apply flags_on_del_edge. apply R.
    + rewrite HL. apply R.
    + rewrite HL. apply R.
    + apply (root_ok_brk p c t t'); auto; [apply R|]. apply (ok_ndp _ (reg_ok _ R)).
Qed.

Lemma reg_atoms : forall t t' es, reg t -> atoms t t' es -> reg t'.
Proof. intros t t' es R H. induction H; auto. eapply reg_atom; eauto. Qed.

(** Calls made of elementary steps. *)
Definition steps {A} (m : M A) : Prop := forall t, reg t -> wp m (fun t' es _ => atoms t t' es) t.

Lemma steps_bind_wp : forall A B (m : M A) (k : A -> M B) t, reg t ->
  wp m (fun t' es _ => atoms t t' es) t ->
  (forall a t1 e1, m t = (t1, e1, Ok a) -> reg t1 -> wp (k a) (fun t' es _ => atoms t1 t' es) t1) ->
  wp (bind m k) (fun t' es _ => atoms t t' es) t.
Proof.
  intros A B m k t R Hm Hk. apply wp_bind. unfold wp in *.
  destruct (m t) as [[t1 e1] r] eqn:Em. simpl in *.
  destruct r as [a|e|]; simpl in *; auto.
  eapply atoms_trans; [eassumption|]. apply (Hk a t1 e1 eq_refl). eapply reg_atoms; eauto.
Qed.

Lemma steps_bind : forall A B (m : M A) (k : A -> M B), steps m -> (forall a, steps (k a)) -> steps (bind m k).
Proof. intros A B m k Hm Hk t R. apply steps_bind_wp; auto. intros. apply Hk; auto. Qed.

Lemma steps_const : forall A (m : M A), (forall t, exists r, m t = (t, [], r)) -> steps m.
Proof. intros A m H t R. destruct (H t) as (r & E). eapply wp_intro; eauto. apply as_nil. Qed.

Lemma steps_ret : forall A (a : A), steps (ret a).
Proof. intros. apply steps_const. intros. eexists; reflexivity. Qed.
Lemma steps_raise : forall A e, steps (@raise A e).
Proof. intros. apply steps_const. intros. eexists; reflexivity. Qed.
Lemma steps_get : steps get.
Proof. intros. apply steps_const. intros. eexists; reflexivity. Qed.
Lemma steps_live : forall n, steps (live n).
Proof. intros. apply steps_const. intros. unfold live. destruct (dget n (nodes t)); eexists; reflexivity. Qed.

Lemma steps_for_each : forall X (l : list X) body, (forall x, steps (body x)) -> steps (for_each l body).
Proof. induction l; simpl; intros; [apply steps_ret|]. apply steps_bind; auto. Qed.

Lemma steps_pend_append : forall p c, (forall x, p = Some x -> x <> c) -> steps (pend_append (p, c)).
Proof.
  intros p c H t R. eapply wp_intro; [reflexivity|]. apply atoms_one. apply at_pend; auto.
  intros q d Hq. simpl in Hq. apply in_app_iff in Hq. destruct Hq as [Hq|[Hq|[]]].
  - apply (reg_pend _ R); auto.
  - inv Hq. apply H; auto.
Qed.

Lemma pend_ok_unpend : forall p c t, pend_ok t -> pend_ok (unpend p c t).
Proof. intros p c t H q d Hq. apply H. simpl in Hq. eapply rel_remove1_In; eauto. Qed.

Lemma anc_not_parent : forall t p c, ok t -> anc t c p -> ~ In p (parents t c).
Proof.
  intros t p c O Ha Hin.
  assert (p = c) by (eapply (anc_antisym t); eauto; eapply anc_step; [eauto|apply anc_refl]).
  subst. eapply ok_not_own_parent; eauto.
Qed.

Lemma steps_new_relationship : forall p c, steps (new_relationship p c).
Proof.
  intros p c t R. destruct (negb (truthy p) || negb (truthy c) || String.eqb p c) eqn:Eg.
  - eapply wp_intro.
    + unfold new_relationship. rewrite bind_modify, Eg. reflexivity.
    + apply atoms_one. apply at_pend; auto. apply (pend_ok_unpend p c). apply reg_pend; auto.
  - apply orb_false_iff in Eg. destruct Eg as [Eg E3]. apply orb_false_iff in Eg. destruct Eg as [E1 E2].
    unfold truthy in *. rewrite negb_involutive, eqb_neq in E1, E2. rewrite eqb_neq in E3.
    destruct (has_node t p && has_node t c) eqn:El.
    + apply andb_true_iff in El. destruct El as [Hp Hc].
      destruct (circ_cases true t p c (r_good _ R)) as [[_ A]|[_ A]].
      * eapply wp_intro; [eapply new_relationship_circ; eauto; apply R|]. apply atoms_one. apply at_pend.
        -- assert (O : ok (unpend p c t)) by apply (g_ok _ _ _ (good_unpend _ _ _ _ (r_good _ R))).
           rewrite (del_edge_noop p c (unpend p c t)); auto.
           ++ change (parents (unpend p c t) c) with (parents t c). apply anc_not_parent; auto. apply reg_ok; auto.
           ++ change (childs (unpend p c t) p) with (childs t p). intro Hin.
              apply (anc_not_parent t p c (reg_ok _ R) A). eapply reg_sym; eauto.
        -- rewrite rootc_del_edge. auto.
        -- intros q d. rewrite pend_del_edge. apply (pend_ok_unpend p c). apply reg_pend; auto.
      * eapply wp_intro; [eapply new_relationship_ok; eauto; apply R|]. apply atoms_one. apply at_rel; auto.
        -- apply nodes_related.
        -- rewrite rootc_related. apply remove1_notin. intro Hin. apply remove1_iff in Hin; [tauto|apply (r_root _ R)].
        -- intros q d. rewrite pend_related. apply (pend_ok_unpend p c). apply reg_pend; auto.
    + eapply wp_intro; [apply new_relationship_dead; auto|]. apply atoms_one. apply at_pend; auto.
      intros q d Hq. simpl in Hq. apply in_app_iff in Hq. destruct Hq as [Hq|[Hq|[]]].
      * apply (reg_pend _ R). eapply rel_remove1_In; eauto.
      * inv Hq. auto.
Qed.

Lemma steps_break_relationship : forall p c, steps (break_relationship p c).
Proof.
  intros p c t R. destruct (id_dec p "") as [Ep|Ep]; [|destruct (id_dec c "") as [Ec|Ec]; [|destruct (id_dec p c) as [Epc|Epc];
    [|destruct (has_node t p && has_node t c) eqn:El]]].
  4:{ apply andb_true_iff in El. destruct El as [Hp Hc]. destruct (live_id _ _ R Hc) as [_ Hcr].
      destruct (break_ok p c t) as (t' & E & En & Hpd & Er); auto; [apply R|].
      assert (HF : flags_on t') by (eapply flags_on_nodes; [apply En|]; apply flags_on_del_edge; apply R).
      assert (Hpd' : pend_ok t').
      { intros q d Hq. destruct (Hpd q d Hq) as [[H _]|H]; [apply (reg_pend _ R); auto|inv H; auto]. }
      assert (G' : good true t').
      { eapply good_nodes; eauto. apply good_del_edge. apply goodx_weaken. apply R. }
      eapply wp_intro; [apply E|]. apply atoms_one. apply at_brk; auto.
      rewrite Er. rewrite get_parents_reg by (auto; apply (g_ok _ _ _ G')).
      destruct (has_node_get _ _ Hc) as (cn & Ecn). rewrite Ecn. destruct (r_flags _ R _ _ Ecn) as [-> _]. auto. }
  all: eapply wp_intro; [apply break_dead; auto|]; apply atoms_one; apply at_pend; auto;
       intros q d Hq; apply (reg_pend _ R); unfold forget in Hq; cbn [pend set_pend] in Hq; apply filter_In in Hq; tauto.
Qed.

Lemma bind_live : forall B n nd (k : node -> M B) t, dget n (nodes t) = Some nd -> bind (live n) k t = k nd t.
Proof. intros. unfold live, bind. rewrite H. destruct (k nd t) as [[? ?] ?]. auto. Qed.

Lemma remove_parent_break : forall n p t, reg t -> In p (parents t n) ->
  remove_parent n p t = break_relationship p n t.
Proof.
  intros n p t R Hin. pose proof (In_parents_live _ _ _ Hin) as Hn. pose proof (reg_ok _ R) as O.
  destruct (ok_sym _ O _ _ Hin) as [Hp Hc]. destruct (has_node_get _ _ Hn) as (nd & En).
  unfold remove_parent. rewrite (bind_live _ n nd) by auto.
  destruct (r_flags _ R _ _ En) as [-> _].
  assert (Hm : mem p (par nd) = true) by (apply mem_In; unfold parents in Hin; rewrite En in Hin; auto).
  rewrite Hm. cbn [andb negb]. cbv iota. rewrite bind_modify.
  set (t1 := upd_node n _ t).
  assert (Hne : p <> n) by (intro; subst; eapply ok_not_own_parent; eauto).
  assert (E1 : nodes (del_edge p n t1) = nodes (del_edge p n t)).
  { apply dict_ext.
    - rewrite !dkeys_del_edge. unfold t1. apply dkeys_upd.
    - rewrite dkeys_del_edge. apply (ok_keys _ O).
    - intros k _. rewrite !dget_del_edge. unfold t1. rewrite dget_upd. deq k n; auto. subst.
      rewrite En. simpl. rewrite (proj2 (eqb_neq n p)) by auto.
      assert (NDp : NoDup (par nd)) by (pose proof (ok_ndp _ O n) as H; unfold parents in H; rewrite En in H; auto).
      unfold set_par; simpl. do 2 f_equal. apply remove1_notin. intro H. apply remove1_iff in H; tauto. }
  assert (Hp1 : has_node t1 p = true) by (unfold t1; rewrite has_node_upd; auto).
  assert (Hn1 : has_node t1 n = true) by (unfold t1; rewrite has_node_upd; auto).
  assert (EC : cut_one p n t1 = cut_one p n t).
  { unfold cut_one. destruct (del_edge p n (forget p n t1)) as [nn pp rr] eqn:E1'.
    destruct (del_edge p n (forget p n t)) as [nn2 pp2 rr2] eqn:E2'.
    assert (A : nodes (del_edge p n (forget p n t1)) = nodes (del_edge p n (forget p n t))).
    { rewrite (nodes_del_edge_same p n t1 (forget p n t1)) by reflexivity.
      rewrite (nodes_del_edge_same p n t (forget p n t)) by reflexivity. auto. }
    assert (B : pend (del_edge p n (forget p n t1)) = pend (del_edge p n (forget p n t))).
    { rewrite !pend_del_edge. unfold forget. cbn [pend set_pend]. unfold t1. rewrite pend_upd. auto. }
    assert (C : rootc (del_edge p n (forget p n t1)) = rootc (del_edge p n (forget p n t))).
    { rewrite !rootc_del_edge. unfold forget. cbn [rootc set_pend]. unfold t1. rewrite rootc_upd. auto. }
    rewrite E1', E2' in A, B, C. simpl in *. subst. auto. }
  unfold break_relationship. rewrite !bind_modify. fold (forget p n t1). fold (forget p n t).
  destruct (negb (truthy p) || negb (truthy n) || String.eqb p n) eqn:Eg.
  { destruct (live_id _ _ R Hp). destruct (live_id _ _ R Hn). rewrite guard_false in Eg by auto. discriminate. }
  rewrite !bind_get. change (has_node (forget p n t1)) with (has_node t1). change (has_node (forget p n t)) with (has_node t).
  rewrite Hp, Hn, Hp1, Hn1. cbn [negb orb].
  erewrite bind_Ok_nil by (apply destroy_eq; auto). erewrite (bind_Ok_nil _ _ (destroy_relationship p n) _ (forget p n t)) by (apply destroy_eq; auto).
  fold (cut_one p n t1). fold (cut_one p n t). rewrite EC. reflexivity.
Qed.

Lemma remove_parent_other : forall n p t, ~ In p (parents t n) -> exists r, remove_parent n p t = (t, [], r).
Proof.
  intros n p t H. unfold remove_parent, live, bind. destruct (dget n (nodes t)) as [nd|] eqn:E; [|eexists; reflexivity].
  assert (Hm : mem p (par nd) = false) by (apply mem_false; unfold parents in H; rewrite E in H; auto).
  rewrite Hm, andb_false_r. eexists; reflexivity.
Qed.

Lemma steps_remove_parent : forall n p, steps (remove_parent n p).
Proof.
  intros n p t R. destruct (In_dec_id p (parents t n)) as [Hin|Hin].
  - unfold wp. rewrite remove_parent_break by auto. apply steps_break_relationship; auto.
  - destruct (remove_parent_other n p t Hin) as (r & E). eapply wp_intro; [apply E|]. apply as_nil.
Qed.

Lemma steps_add_parent : forall n p, steps (add_parent n p).
Proof.
  intros n p. unfold add_parent. apply steps_bind; [apply steps_live|]. intros nd.
  destruct (negb (oid_eqb p n) && pen nd && _) eqn:Eg; [|apply steps_ret].
  apply andb_true_iff in Eg. destruct Eg as [Eg _]. apply andb_true_iff in Eg. destruct Eg as [Eg _].
  apply steps_bind; [apply steps_get|]. intros t0. destruct p as [x|].
  - destruct (dget x (nodes t0)) as [pn|].
    + destruct (cen pn); [apply steps_new_relationship|apply steps_ret].
    + apply steps_pend_append. intros y Hy. apply (oid_eqb_neq _ _ Eg); auto.
  - apply steps_pend_append. discriminate.
Qed.

Lemma steps_drop_other_parents : forall fuel n p i flag, steps (drop_other_parents fuel n p i flag).
Proof.
  induction fuel; intros n p i flag; cbn [drop_other_parents]; (apply steps_bind; [apply steps_live|]); intros nd;
    destruct (nth_error (par nd) i) as [q|]; try apply steps_ret.
  - apply steps_const. intros. eexists; reflexivity.
  - destruct (String.eqb q p); [apply IHfuel|]. apply steps_bind; [apply steps_remove_parent|]. intros _. apply IHfuel.
Qed.

Lemma steps_set_parent : forall n p, steps (set_parent n p).
Proof.
  intros n p. unfold set_parent. apply steps_bind; [apply steps_live|]. intros nd.
  destruct (negb (oid_eqb p n) && pen nd) eqn:Eg; [|apply steps_ret].
  apply andb_true_iff in Eg. destruct Eg as [Eg _].
  apply steps_bind; [apply steps_get|]. intros t0.
  assert (Hpa : steps (for_each (get_parents t0 n) (fun q => break_relationship q n) ;; pend_append (p, n))).
  { apply steps_bind; [apply steps_for_each; intros; apply steps_break_relationship|]. intros _.
    apply steps_pend_append. intros y Hy. apply (oid_eqb_neq _ _ Eg); auto. }
  destruct p as [x|]; auto. destruct (dget x (nodes t0)) as [pn|]; auto.
  destruct (cen pn); [|apply steps_ret].
  apply steps_bind; [apply steps_drop_other_parents|]. intros flag.
  destruct (truthy x && negb flag); [apply steps_add_parent|apply steps_ret].
Qed.

(** [add_child] is the same as asking the tree for the relation. *)
Lemma add_child_new : forall n c t, reg t -> has_node t n = true -> has_node t c = true -> n <> c -> ~ In c (childs t n) ->
  exists t' es r, add_child n c t = (t', es, r) /\ atom t t' es /\
    ((anc t c n /\ r = Err Circular /\ nodes t' = nodes t /\ rootc t' = rootc t) \/
     (~ anc t c n /\ r = Ok tt /\ nodes t' = nodes (add_edge n c t) /\ rootc t' = remove1 c (rootc t))).
Proof.
  intros n c t R Hn Hc Hnc Hin. pose proof (reg_ok _ R) as O.
  destruct (has_node_get _ _ Hn) as (nd & En). destruct (has_node_get _ _ Hc) as (cn & Ecn).
  unfold add_child. rewrite (bind_live _ n nd) by auto. destruct (r_flags _ R _ _ En) as [_ ->].
  rewrite (proj2 (eqb_neq c n)) by auto.
  assert (Hm : mem c (chi nd) = false) by (apply mem_false; unfold childs in Hin; rewrite En in Hin; auto).
  rewrite Hm. cbn [andb negb]. cbv iota. rewrite bind_get, Ecn. destruct (r_flags _ R _ _ Ecn) as [-> _].
  rewrite bind_modify. set (t1 := upd_node n _ t).
  destruct (live_id _ _ R Hn) as [Hn0 _]. destruct (live_id _ _ R Hc) as [Hc0 _].
  assert (HP : forall x, parents t1 x = parents t x).
  { intros. unfold t1, parents. rewrite dget_upd. deq x n; auto. subst. rewrite En. auto. }
  assert (HA : forall a b, anc t1 a b <-> anc t a b).
  { intros. split; apply anc_incl; intros x q; rewrite HP; auto. }
  assert (G1 : goodx true (one_ex n c) t1).
  { constructor.
    - constructor.
      + unfold t1. rewrite dkeys_upd. apply O.
      + intros x p. rewrite HP. intros Hp. destruct (ok_sym _ O _ _ Hp) as [A B].
        split; [unfold t1; rewrite has_node_upd; auto|]. unfold t1, childs. rewrite dget_upd. deq p n; [|exact B].
        subst. rewrite En. simpl. unfold childs in B. rewrite En in B. apply in_app_iff; auto.
      + intros x. rewrite HP. apply O.
      + intros x. unfold t1, childs. rewrite dget_upd. pose proof (ok_ndc _ O x) as ND. unfold childs in ND.
        deq x n; auto. subst. rewrite En in *. simpl. apply NoDup_snoc; auto.
        unfold childs in Hin. rewrite En in Hin. auto.
      + intros p q. unfold t1. rewrite pend_upd. apply O.
      + destruct (ok_rank _ O) as (r & Hr). exists r. intros p q. rewrite HP. auto.
    - intros x y Nx Ny He Hy Hl Hp. rewrite HP in Hp. unfold t1 in Hl. rewrite has_node_upd in Hl.
      exfalso. apply Hp. eapply reg_sym; eauto. unfold t1, childs in Hy. rewrite dget_upd in Hy. unfold childs.
      deq x n; auto. subst. rewrite En in *. simpl in Hy. apply in_app_iff in Hy. destruct Hy as [Hy|[Hy|[]]]; auto.
      subst. exfalso. apply He. split; auto. }
  unfold new_relationship. rewrite bind_modify. fold (unpend n c t1). rewrite guard_false by auto.
  rewrite bind_get. change (has_node (unpend n c t1)) with (has_node t1). unfold t1 at 1 2. rewrite !has_node_upd, Hn, Hc.
  cbn [negb orb].
  assert (Gu : goodx true (one_ex n c) (unpend n c t1)).
  { apply goodx_set_pend_sub; auto. intros r Hr. eapply rel_remove1_In; eauto. }
  assert (Hlu : forall x, has_node (unpend n c t1) x = has_node t x).
  { intros. change (has_node (unpend n c t1) x) with (has_node t1 x). unfold t1. apply has_node_upd. }
  assert (Hpd : pend_ok (unpend n c t1)).
  { intros q d Hq. apply (reg_pend _ R). unfold unpend in Hq. cbn [pend set_pend] in Hq. apply rel_remove1_In in Hq. unfold t1 in Hq.
    rewrite pend_upd in Hq. auto. }
  destruct (circ_cases_x true _ (unpend n c t1) n c Gu) as [[E A]|[E A]];
    (erewrite bind_Ok_nil by apply E); cbv iota.
  - erewrite bind_Ok_nil by (apply destroy_eq; rewrite Hlu; auto).
    assert (A0 : anc t c n) by (apply HA; apply (proj1 (anc_unpend n c t1 c n)); auto). clear A.
    assert (EN : nodes (del_edge n c (unpend n c t1)) = nodes t).
    { rewrite (nodes_del_edge_same n c t1 (unpend n c t1)) by reflexivity. apply dict_ext.
      * rewrite dkeys_del_edge. unfold t1. apply dkeys_upd.
      * apply O.
      * intros k _. rewrite dget_del_edge. unfold t1. rewrite dget_upd.
        pose proof (anc_not_parent t n c O A0) as Hnp.
        deq k n.
        -- subst. rewrite En. simpl. rewrite (proj2 (eqb_neq n c)) by auto. f_equal.
           rewrite remove1_app_r by (intro H; apply mem_false in Hm; auto). simpl. rewrite eqb_refl, app_nil_r.
           destruct nd; auto.
        -- destruct (dget k (nodes t)) as [kd|] eqn:Ek; auto. simpl. f_equal.
           assert (EE : (if String.eqb k c then remove1 n (par kd) else par kd) = par kd).
           { deq k c; auto. subst. apply remove1_notin. unfold parents in Hnp. rewrite Ek in Hnp. auto. }
           rewrite EE. destruct kd; auto. }
    assert (ER : rootc (del_edge n c (unpend n c t1)) = rootc t).
    { rewrite rootc_del_edge. unfold unpend. cbn [rootc set_pend]. unfold t1. apply rootc_upd. }
    do 3 eexists. split; [reflexivity|]. split; [|left; auto]. apply at_pend; auto.
    intros q d. rewrite pend_del_edge. apply Hpd.
  - erewrite bind_Ok_nil by (apply create_eq; rewrite Hlu; auto). rewrite bind_modify.
    assert (A0 : ~ anc t c n) by (intro H; apply A; apply anc_unpend, HA; auto).
    set (a := add_edge n c (unpend n c t1)).
    assert (EN : nodes a = nodes (add_edge n c t)).
    { unfold a. rewrite (nodes_add_edge_same n c t1 (unpend n c t1)) by reflexivity. apply dict_ext.
      * rewrite !dkeys_add_edge. unfold t1. apply dkeys_upd.
      * rewrite dkeys_add_edge. apply O.
      * intros k _. rewrite !dget_add_edge. unfold t1. rewrite dget_upd. deq k n; auto. subst.
        rewrite En. simpl. rewrite (proj2 (eqb_neq n c)) by auto. simpl. rewrite Hm, mem_app. simpl. rewrite eqb_refl, orb_true_r.
        simpl. auto. }
    assert (ER : remove1 c (rootc a) = remove1 c (rootc t)).
    { unfold a. rewrite rootc_add_edge. unfold unpend. cbn [rootc set_pend].
      unfold t1. rewrite rootc_upd. apply remove1_notin. intro H. apply remove1_iff in H; [tauto|apply (r_root _ R)]. }
    do 3 eexists. split; [reflexivity|]. split; [|right; auto]. apply at_rel; auto.
    intros q d. change (pend (set_rootc ?l ?b)) with (pend b). unfold a. rewrite pend_add_edge. apply Hpd.
Qed.

Lemma steps_add_child : forall n c, steps (add_child n c).
Proof.
  intros n c t R. destruct (has_node t n) eqn:Hn.
  2:{ eapply wp_intro; [unfold add_child, live, bind; rewrite (has_node_none _ _ Hn); reflexivity|apply as_nil]. }
  destruct (has_node_get _ _ Hn) as (nd & En).
  destruct (id_dec c n) as [Ec|Ec].
  { subst. eapply wp_intro; [|apply as_nil]. unfold add_child, live, bind. rewrite En, eqb_refl, andb_false_r. reflexivity. }
  destruct (In_dec_id c (childs t n)) as [Hin|Hin].
  { eapply wp_intro; [|apply as_nil]. unfold add_child, live, bind. rewrite En.
    assert (Hm : mem c (chi nd) = true) by (apply mem_In; unfold childs in Hin; rewrite En in Hin; auto).
    rewrite Hm. destruct (_ && _); reflexivity. }
  destruct (has_node t c) eqn:Hc.
  - destruct (add_child_new n c t) as (t' & es & r & E & H & _); auto. eapply wp_intro; [exact E|]. apply atoms_one. auto.
  - eapply wp_intro.
    + unfold add_child. rewrite (bind_live _ n nd) by auto. destruct (r_flags _ R _ _ En) as [_ ->].
      rewrite (proj2 (eqb_neq c n)) by auto.
      assert (Hm : mem c (chi nd) = false) by (apply mem_false; unfold childs in Hin; rewrite En in Hin; auto).
      rewrite Hm. cbn [andb negb]. cbv iota. rewrite bind_get, (has_node_none _ _ Hc). reflexivity.
    + apply atoms_one. apply at_pend; auto. intros q d Hq. simpl in Hq. apply in_app_iff in Hq.
      destruct Hq as [Hq|[Hq|[]]]; [apply (reg_pend _ R); auto|inv Hq; auto].
Qed.

Lemma steps_modify_node : forall n, steps (modify_node n).
Proof.
  intros n t R. unfold modify_node. apply wp_get. destruct (negb (String.eqb n main_root) && has_node t n) eqn:E.
  - apply andb_true_iff in E. destruct E as [_ Hn]. eapply wp_intro; [reflexivity|]. apply atoms_one. apply at_mod; auto.
  - eapply wp_intro; [reflexivity|apply as_nil].
Qed.

Lemma steps_refresh_all : steps refresh_all.
Proof.
  unfold refresh_all. apply steps_bind; [apply steps_get|]. intros t. apply steps_for_each. intros. apply steps_modify_node.
Qed.

Lemma steps_set_node_data : forall n v, steps (set_node_data n v).
Proof.
  intros n v t R. destruct (has_node t n) eqn:Hn.
  2:{ eapply wp_intro; [unfold set_node_data, live, bind; rewrite (has_node_none _ _ Hn); reflexivity|apply as_nil]. }
  destruct (has_node_get _ _ Hn) as (nd & En). destruct (live_id _ _ R Hn) as [_ Hr].
  eapply wp_intro.
  - unfold set_node_data. rewrite (bind_live _ n nd) by auto. rewrite bind_modify.
    unfold modify_node. rewrite bind_get, (proj2 (eqb_neq n main_root)) by auto. rewrite has_node_upd, Hn. reflexivity.
  - apply atoms_one. eapply at_data; eauto.
Qed.

(** Every call that is not an addition, a deletion or a change of flags. *)
Definition ordinary (o : mop) : bool :=
  match o with AddNode _ _ _ | DelNode _ _ | SetParentsEnabled _ _ | SetChildrenEnabled _ _ => false | _ => true end.

Lemma steps_run_op : forall o, ordinary o = true -> steps (run_op o).
Proof.
  intros o H. destruct o; try discriminate; simpl.
  - apply steps_modify_node.
  - apply steps_set_node_data.
  - apply steps_refresh_all.
  - apply steps_new_relationship.
  - apply steps_break_relationship.
  - apply steps_add_parent.
  - apply steps_set_parent.
  - apply steps_remove_parent.
  - apply steps_add_child.
  - unfold move_node. apply steps_bind; [apply steps_get|]. intros t. destruct (has_node t n); [apply steps_set_parent|apply steps_ret].
  - unfold tree_add_parent. apply steps_bind; [apply steps_get|]. intros t. destruct (has_node t n); [apply steps_add_parent|apply steps_ret].
Qed.
