(** What adding a node does: the pending relations that become real, the root,
    the attributes of the other nodes. *)
From Verif Require Import Base BaseFacts MainTree Spec MainFacts MainInv MainOps MainDel MainRun.
Open Scope m_scope.

(** Flags and data of a node. *)
Definition attrs (t : mtree) (x : id) : option (bool * bool * nat) :=
  option_map (fun nd => (pen nd, cen nd, data nd)) (dget x (nodes t)).

Lemma attrs_add_edge : forall p c t x, attrs (add_edge p c t) x = attrs t x.
Proof. intros. unfold attrs. rewrite dget_add_edge. destruct (dget x (nodes t)); auto. Qed.

Lemma attrs_del_edge : forall p c t x, attrs (del_edge p c t) x = attrs t x.
Proof. intros. unfold attrs. rewrite dget_del_edge. destruct (dget x (nodes t)); auto. Qed.

Lemma attrs_upd : forall n f t x, (forall nd, pen (f nd) = pen nd /\ cen (f nd) = cen nd /\ data (f nd) = data nd) ->
  attrs (upd_node n f t) x = attrs t x.
Proof.
  intros. unfold attrs. rewrite dget_upd. deq x n; auto. subst. destruct (dget n (nodes t)); simpl; auto.
  destruct (H n0) as (A & B & C). congruence.
Qed.

(** Trees that agree on everything but the pending relations. *)
Definition same_graph (t t' : mtree) : Prop := nodes t' = nodes t /\ rootc t' = rootc t.

(** [t'] is [t] with more relations of [n]. *)
Inductive grown (n : id) (t : mtree) : mtree -> Prop :=
| grown_refl : forall t', same_graph t t' -> grown n t t'
| grown_step : forall t1 p c t', grown n t t1 -> has_node t p = true -> has_node t c = true ->
    p = n \/ c = n -> ~ anc t1 c p -> same_graph (add_edge p c t1) t' -> grown n t t'.

Lemma parents_same_graph : forall t t' x, same_graph t t' -> parents t' x = parents t x.
Proof. intros t t' x [A _]. unfold parents. rewrite A. auto. Qed.
Lemma childs_same_graph : forall t t' x, same_graph t t' -> childs t' x = childs t x.
Proof. intros t t' x [A _]. unfold childs. rewrite A. auto. Qed.
Lemma has_node_same_graph : forall t t' x, same_graph t t' -> has_node t' x = has_node t x.
Proof. intros t t' x [A _]. unfold has_node. rewrite A. auto. Qed.
Lemma attrs_same_graph : forall t t' x, same_graph t t' -> attrs t' x = attrs t x.
Proof. intros t t' x [A _]. unfold attrs. rewrite A. auto. Qed.
Lemma anc_incl : forall t t', (forall x p, In p (parents t x) -> In p (parents t' x)) ->
  forall a x, anc t a x -> anc t' a x.
Proof. intros t t' H a x Ha. induction Ha; [apply anc_refl|]. eapply anc_step; eauto. Qed.
Lemma anc_same_graph : forall t t' a x, same_graph t t' -> (anc t' a x <-> anc t a x).
Proof.
  intros. split; apply anc_incl; intros; rewrite parents_same_graph with (t := t) (t' := t') in *; auto.
Qed.
Lemma same_graph_pend : forall t t' l, same_graph t t' -> same_graph t (set_pend l t').
Proof. intros t t' l [A B]. split; auto. Qed.
Lemma same_graph_refl : forall t, same_graph t t.
Proof. split; auto. Qed.
Lemma same_graph_trans : forall a b c, same_graph a b -> same_graph b c -> same_graph a c.
Proof. intros a b c [A B] [C D]. split; congruence. Qed.

Lemma grown_keys : forall n t t', grown n t t' -> dkeys (nodes t') = dkeys (nodes t).
Proof.
  induction 1.
  - destruct H. congruence.
  - destruct H4 as [A _]. rewrite A, dkeys_add_edge. auto.
Qed.

Lemma grown_has : forall n t t' x, grown n t t' -> has_node t' x = has_node t x.
Proof. intros. apply has_node_keys. eapply grown_keys; eauto. Qed.

Lemma grown_attrs : forall n t t' x, grown n t t' -> attrs t' x = attrs t x.
Proof.
  induction 1.
  - apply attrs_same_graph; auto.
  - rewrite (attrs_same_graph _ _ _ H4), attrs_add_edge. auto.
Qed.

Lemma grown_pend : forall n t t' l, grown n t t' -> grown n t (set_pend l t').
Proof.
  intros. inv H.
  - apply grown_refl. apply same_graph_pend; auto.
  - apply (grown_step n t t1 p c); auto using same_graph_pend.
Qed.

Lemma grown_parents_incl : forall n t t' x p, grown n t t' -> In p (parents t x) -> In p (parents t' x).
Proof.
  induction 1; intros.
  - rewrite (parents_same_graph _ _ _ H); auto.
  - rewrite (parents_same_graph _ _ _ H4).
    rewrite parents_add_edge by (rewrite (grown_has _ _ _ _ H); auto).
    destruct (_ && _); auto. apply in_app_iff; auto.
Qed.

Lemma grown_anc : forall n t t' a x, grown n t t' -> anc t a x -> anc t' a x.
Proof. intros. eapply anc_incl; [|eauto]. intros. eapply grown_parents_incl; eauto. Qed.

Lemma grown_trans : forall n a b c, grown n a b -> grown n b c -> grown n a c.
Proof.
  intros n a b c H1 H2. induction H2.
  - inv H1.
    + apply grown_refl. eapply same_graph_trans; eauto.
    + apply (grown_step n a t1 p c); auto. eapply same_graph_trans; eauto.
  - apply (grown_step n a t1 p c); auto; rewrite <- (grown_has _ _ _ _ H1); auto.
Qed.

(** Other nodes: at most [n] is appended. *)
Lemma grown_parents_other : forall n t t' x, grown n t t' -> x <> n ->
  parents t' x = parents t x \/ (~ In n (parents t x) /\ parents t' x = parents t x ++ [n]).
Proof.
  induction 1; intros Hx.
  - left. apply parents_same_graph; auto.
  - rewrite (parents_same_graph _ _ _ H4).
    rewrite parents_add_edge by (rewrite (grown_has _ _ _ _ H); auto).
    deq x c; simpl; auto. subst x. destruct H2 as [->| ->]; [|congruence].
    destruct (mem_spec n (parents t1 c)) as [Hin|Hin]; simpl; auto.
    destruct (IHgrown Hx) as [E|[A E]]; rewrite E in *; auto.
    exfalso. apply Hin. apply in_app_iff. right; left; auto.
Qed.

Lemma grown_childs_other : forall n t t' x, grown n t t' -> x <> n ->
  childs t' x = childs t x \/ (~ In n (childs t x) /\ childs t' x = childs t x ++ [n]).
Proof.
  induction 1; intros Hx.
  - left. apply childs_same_graph; auto.
  - rewrite (childs_same_graph _ _ _ H4).
    rewrite childs_add_edge by (rewrite (grown_has _ _ _ _ H); auto).
    deq x p; simpl; auto. subst x. destruct H2 as [->| ->]; [congruence|].
    destruct (mem_spec n (childs t1 p)) as [Hin|Hin]; simpl; auto.
    destruct (IHgrown Hx) as [E|[A E]]; rewrite E in *; auto.
    exfalso. apply Hin. apply in_app_iff. right; left; auto.
Qed.

(** The pending relations that can be built when [n] is in the tree. *)
Definition applicable (t : mtree) (n : id) (r : option id * id) : bool :=
  (String.eqb (snd r) n && opt_in t (fst r)) ||
  ((match fst r with Some p => String.eqb p n | None => false end) && has_node t (snd r)).

Lemma applicable_keys : forall t t' n r, dkeys (nodes t') = dkeys (nodes t) -> applicable t' n r = applicable t n r.
Proof.
  intros. unfold applicable, opt_in. rewrite (has_node_keys t' t) by auto.
  destruct (fst r); auto. rewrite (has_node_keys t' t) by auto. auto.
Qed.

Lemma rel_remove1_app : forall r a b, ~ In r a -> rel_remove1 r (a ++ r :: b) = a ++ b.
Proof.
  induction a; simpl; intros.
  - assert (E : rel_eqb r r = true) by (apply rel_eqb_eq; auto). rewrite E. auto.
  - destruct (rel_eqb r a) eqn:E; [apply rel_eqb_eq in E; subst; tauto|]. rewrite IHa; auto.
Qed.

Section Strict.
Variable strict : bool.
Local Notation good := (good strict).

Lemma build_pending_spec : forall n r a t kept rest, good t -> has_node t n = true ->
  (forall p, fst r = Some p -> p <> snd r) ->
  pend t = kept ++ r :: rest -> (applicable t n r = true -> ~ In r kept) ->
  exists t' b, build_pending n r a t = (t', [], Ok b) /\ good t' /\ grown n t t' /\
    pend t' = (if applicable t n r then kept ++ rest else pend t) /\
    (applicable t n r = false -> t' = t) /\
    (applicable t n r = true -> forall p, fst r = Some p -> In p (parents t' (snd r)) \/ anc t' (snd r) p) /\
    (b = a /\ parents t' n = parents t n \/ b = false /\ parents t' n <> []).
Proof.
  intros n r a t kept rest G Hn Hr Hp Hk. destruct r as [rp c]. simpl in *.
  unfold build_pending. rewrite bind_get. simpl fst. simpl snd.
  assert (Hmem : forall t', pend t' = pend t -> rel_mem (rp, c) (pend t') = true).
  { intros t' E. apply rel_mem_In. rewrite E, Hp. apply in_app_iff. right; left; auto. }
  destruct (String.eqb c n && opt_in t rp) eqn:E1.
  - (* the new node is the child *)
    apply andb_true_iff in E1. destruct E1 as [Ec Ei]. apply eqb_eq in Ec. subst c.
    destruct rp as [p|]; [|discriminate]. simpl in Ei.
    assert (Hne : p <> n) by (apply Hr; auto).
    assert (Eap : applicable t n (Some p, n) = true)
      by (unfold applicable; simpl; rewrite eqb_refl, Ei; auto).
    rewrite Eap in *. specialize (Hk eq_refl).
    destruct (circ_cases strict t p n G) as [[E A]|[E A]].
    + set (t2 := set_pend (kept ++ rest) t).
      exists t2, a. split.
      { erewrite bind_Ok_nil.
        2:{ erewrite bind_Ok_nil by apply E. cbv iota. rewrite bind_ret. erewrite bind_Ok_nil.
            2:{ unfold pend_remove. rewrite (Hmem t eq_refl), Hp, rel_remove1_app by auto. reflexivity. }
            reflexivity. }
        rewrite bind_get. rewrite (proj2 (eqb_neq _ _) Hne). reflexivity. }
      split; [apply goodx_set_pend_sub; auto; rewrite Hp; intros r Hin; apply in_app_iff in Hin; apply in_app_iff; simpl; tauto|].
      split; [apply grown_refl; split; auto|]. split; auto. split; [congruence|].
      split; [|left; auto]. intros _ q Hq. inv Hq. right. apply (anc_same_graph t); auto. split; auto.
    + set (t2 := set_pend (kept ++ rest) (add_edge p n t)).
      exists t2, false. split.
      { erewrite bind_Ok_nil.
        2:{ erewrite bind_Ok_nil by apply E. cbv iota. erewrite bind_Ok_nil.
            2:{ erewrite bind_Ok_nil by (apply create_eq; auto). reflexivity. }
            erewrite bind_Ok_nil.
            2:{ unfold pend_remove. rewrite (Hmem (add_edge p n t)) by apply pend_add_edge.
                rewrite pend_add_edge, Hp, rel_remove1_app by auto. reflexivity. }
            reflexivity. }
        rewrite bind_get. rewrite (proj2 (eqb_neq _ _) Hne). reflexivity. }
      assert (Hpar : In p (parents t2 n)).
      { change (parents t2 n) with (parents (add_edge p n t) n). rewrite parents_add_edge by auto.
        rewrite eqb_refl. simpl. destruct (mem_spec p (parents t n)); simpl; auto. apply in_app_iff; simpl; auto. }
      split.
      { apply goodx_set_pend; [|apply good_add_edge; auto; apply goodx_weaken; auto].
        intros q d Hq. apply (ok_pend _ (g_ok _ _ _ G)). rewrite Hp.
        apply in_app_iff in Hq. apply in_app_iff; simpl; tauto. }
      split; [apply (grown_step n t t p n); auto; [apply grown_refl; apply same_graph_refl|split; auto]|].
      split; auto. split; [congruence|]. split.
      * intros _ q Hq. inv Hq. auto.
      * right. split; auto. intro E0. rewrite E0 in Hpar. destruct Hpar.
  - rewrite bind_ret, bind_get.
    destruct ((match rp with Some rp0 => String.eqb rp0 n | None => false end) && has_node t c) eqn:E2.
    + (* the new node is the parent *)
      assert (Eap : applicable t n (rp, c) = true) by (unfold applicable; simpl; rewrite E1, E2; auto).
      rewrite Eap in *. specialize (Hk eq_refl).
      apply andb_true_iff in E2. destruct E2 as [Ep Hc]. destruct rp as [p|]; [|discriminate].
      apply eqb_eq in Ep. subst p. assert (Hne : n <> c) by (apply Hr; auto).
      destruct (circ_cases strict t n c G) as [[E A]|[E A]].
      * set (t2 := set_pend (kept ++ rest) t). exists t2, a. split.
        { erewrite bind_Ok_nil by apply E. cbv iota. rewrite bind_ret. erewrite bind_Ok_nil.
          2:{ unfold pend_remove. rewrite (Hmem t eq_refl), Hp, rel_remove1_app by auto. reflexivity. }
          reflexivity. }
        split; [apply goodx_set_pend_sub; auto; rewrite Hp; intros r Hin; apply in_app_iff in Hin; apply in_app_iff; simpl; tauto|].
        split; [apply grown_refl; split; auto|]. split; auto. split; [congruence|].
        split; [|left; auto]. intros _ q Hq. inv Hq. right. apply (anc_same_graph t); auto. split; auto.
      * set (t2 := set_pend (kept ++ rest) (add_edge n c t)). exists t2, a. split.
        { erewrite bind_Ok_nil by apply E. cbv iota. erewrite bind_Ok_nil by (apply create_eq; auto).
          erewrite bind_Ok_nil.
          2:{ unfold pend_remove. rewrite (Hmem (add_edge n c t)) by apply pend_add_edge.
              rewrite pend_add_edge, Hp, rel_remove1_app by auto. reflexivity. }
          reflexivity. }
        assert (Hpar : In n (parents t2 c)).
        { change (parents t2 c) with (parents (add_edge n c t) c). rewrite parents_add_edge by auto.
          rewrite eqb_refl. simpl. destruct (mem_spec n (parents t c)); simpl; auto. apply in_app_iff; simpl; auto. }
        split.
        { apply goodx_set_pend; [|apply good_add_edge; auto; apply goodx_weaken; auto].
          intros q d Hq. apply (ok_pend _ (g_ok _ _ _ G)). rewrite Hp.
          apply in_app_iff in Hq. apply in_app_iff; simpl; tauto. }
        split; [apply (grown_step n t t n c); auto; [apply grown_refl; apply same_graph_refl|split; auto]|].
        split; auto. split; [congruence|]. split.
        -- intros _ q Hq. inv Hq. auto.
        -- left. split; auto. change (parents t2 n) with (parents (add_edge n c t) n).
           rewrite parents_add_edge by auto. rewrite (proj2 (eqb_neq _ _) Hne). auto.
    + assert (Eap : applicable t n (rp, c) = false) by (unfold applicable; simpl; rewrite E1, E2; auto).
      rewrite Eap. exists t, a. split; [reflexivity|]. split; auto.
      split; [apply grown_refl; apply same_graph_refl|]. split; auto. split; auto. split; [discriminate|auto].
Qed.

Lemma build_pendings_spec : forall n l a t kept, good t -> has_node t n = true ->
  pend t = kept ++ l -> (forall r, In r kept -> applicable t n r = false) ->
  exists t' b, build_pendings n l a t = (t', [], Ok b) /\ good t' /\ grown n t t' /\
    pend t' = kept ++ filter (fun r => negb (applicable t n r)) l /\
    (forall p c, In (Some p, c) l -> applicable t n (Some p, c) = true -> In p (parents t' c) \/ anc t' c p) /\
    (b = a /\ parents t' n = parents t n \/ b = false /\ parents t' n <> []).
Proof.
  induction l as [|r l IH]; intros a t kept G Hn Hp Hk.
  - exists t, a. simpl. split; [reflexivity|]. split; auto. split; [apply grown_refl; apply same_graph_refl|].
    split; auto. split; [tauto|auto].
  - destruct (build_pending_spec n r a t kept l) as (t1 & b1 & E1 & G1 & Gr1 & P1 & S1 & Q1 & B1); auto.
    { intros p Hf. apply (ok_pend _ (g_ok _ _ _ G)). rewrite Hp. apply in_app_iff. right. left.
      destruct r; simpl in *; congruence. }
    { intros Hap Hin. rewrite (Hk r Hin) in Hap. discriminate. }
    assert (K1 : dkeys (nodes t1) = dkeys (nodes t)) by (eapply grown_keys; eauto).
    assert (AP : forall x, applicable t1 n x = applicable t n x) by (intros; apply applicable_keys; auto).
    set (kept' := if applicable t n r then kept else kept ++ [r]).
    assert (Hp1 : pend t1 = kept' ++ l).
    { unfold kept'. rewrite P1. destruct (applicable t n r); auto. rewrite Hp, <- app_assoc. auto. }
    assert (Hk1 : forall x, In x kept' -> applicable t1 n x = false).
    { intros x Hx. rewrite AP. unfold kept' in Hx. destruct (applicable t n r) eqn:Er; auto.
      apply in_app_iff in Hx. destruct Hx as [Hx|[Hx|[]]]; subst; auto. }
    destruct (IH b1 t1 kept') as (t2 & b2 & E2 & G2 & Gr2 & P2 & Q2 & B2); auto.
    { rewrite (has_node_keys t1 t); auto. }
    exists t2, b2. split; [simpl; erewrite bind_Ok_nil by apply E1; auto|]. split; auto.
    split; [eapply grown_trans; eauto|].
    split.
    { rewrite P2. simpl. unfold kept'. rewrite (filter_ext _ (fun r => negb (applicable t n r))) by (intros; rewrite AP; auto).
      destruct (applicable t n r); simpl; auto. rewrite <- app_assoc. auto. }
    split.
    { intros p c [Hin|Hin] Hap.
      - subst r. destruct (Q1 Hap p eq_refl) as [H|H].
        + left. eapply grown_parents_incl; eauto.
        + right. eapply grown_anc; eauto.
      - apply Q2; auto. rewrite AP; auto. }
    destruct B2 as [[-> E]|[-> E]]; [|right; auto]. rewrite E.
    destruct B1 as [[-> E']|[-> E']]; auto.
Qed.

(** The tree in which the pending relations are built. *)
Definition put (n : id) (nd : node) (t : mtree) : mtree :=
  set_nodes (dset n (set_npend [] nd) (nodes t)) (set_pend (merge_pending (npend nd) (pend t)) t).

Lemma add_node_spec : forall n nd po t, good t -> has_node t n = false -> app_node n nd ->
  (strict = true -> forall q, ~ In n (childs t q)) ->
  exists t3 es r tg, add_node n nd po t = (t3, es, r) /\ good t3 /\ good tg /\ grown n (put n nd t) tg /\
    nodes t3 = nodes tg /\
    (forall x, In x (merge_pending (npend nd) (pend t)) ->
       if applicable (put n nd t) n x then
         forall p, fst x = Some p -> In p (parents t3 (snd x)) \/ anc t3 (snd x) p
       else In x (pend t3)) /\
    (r = Err Circular /\ es = [] /\ rootc t3 = rootc tg /\ (exists p, po = Some p /\ anc t3 n p) \/
     r = Ok tt /\ es = [Ev EAdded n t3] /\
       rootc t3 = (match parents t3 n with [] => rootc tg ++ [n] | _ => rootc tg end) /\
       (forall p, po = Some p -> ~ anc t3 n p /\
          (has_node t3 p = true /\ In p (parents t3 n) \/ has_node t3 p = false /\ In (Some p, n) (pend t3)))).
Proof.
  intros n nd po t G Hn An Hs. destruct (app_node_facts _ _ An) as (Ep & Ec & Enp).
  assert (G1 : good (put n nd t)).
  { unfold put. apply (good_put strict n (set_npend [] nd) (set_pend (merge_pending (npend nd) (pend t)) t)); auto.
    apply goodx_set_pend; auto.
    intros q c Hq. apply merge_pending_In in Hq. destruct Hq as [Hq|Hq].
    - apply (ok_pend _ (g_ok _ _ _ G)); auto.
    - apply Enp; auto. }
  assert (Hn1 : has_node (put n nd t) n = true).
  { unfold has_node, dmem, put. simpl. rewrite dget_dset_same. auto. }
  assert (Hpn : parents (put n nd t) n = []).
  { unfold parents, put. simpl. rewrite dget_dset_same. auto. }
  destruct (build_pendings_spec n (pend (put n nd t)) true (put n nd t) []) as
    (t2 & b & E2 & G2 & Gr2 & P2 & Q2 & B2); auto; try (intros r []; fail).
  assert (K2 : forall x, has_node t2 x = has_node (put n nd t) x) by (intros; eapply grown_has; eauto).
  assert (Hb : b = match parents t2 n with [] => true | _ => false end).
  { destruct B2 as [[-> E]|[-> E]]; [rewrite E, Hpn; auto|]. destruct (parents t2 n); congruence. }
  assert (PD : forall x, In x (merge_pending (npend nd) (pend t)) ->
       if applicable (put n nd t) n x then
         forall p, fst x = Some p -> In p (parents t2 (snd x)) \/ anc t2 (snd x) p
       else In x (pend t2)).
  { intros x Hx. destruct (applicable (put n nd t) n x) eqn:Eap.
    - intros p Hp. destruct x as [xp xc]; simpl in *; subst. apply Q2; auto.
    - rewrite P2. simpl. apply filter_In. rewrite Eap. auto. }
  unfold add_node. rewrite bind_get, Hn, bind_modify, bind_modify. fold (put n nd t). rewrite bind_get.
  erewrite bind_Ok_nil by apply E2.
  assert (Hfin : forall a t', a = (match parents t' n with [] => true | _ => false end) ->
    ((if a then modify (fun t0 => set_rootc (rootc t0 ++ [n]) t0) else ret tt) ;; callback EAdded n) t' =
    (let t3 := if a then set_rootc (rootc t' ++ [n]) t' else t' in (t3, [Ev EAdded n t3], Ok tt))).
  { intros a t' Ha. destruct a; [rewrite bind_modify|rewrite bind_ret]; reflexivity. }
  assert (Hgf : forall t' (a : bool), good t' -> good (if a then set_rootc (rootc t' ++ [n]) t' else t')).
  { intros t' a H. destruct a; auto. apply goodx_set_rootc; auto. }
  assert (Hgn : forall t' (a : bool), nodes (if a then set_rootc (rootc t' ++ [n]) t' else t') = nodes t').
  { intros. destruct a; auto. }
  assert (Hpf : forall t' (a : bool), pend (if a then set_rootc (rootc t' ++ [n]) t' else t') = pend t').
  { intros. destruct a; auto. }
  assert (Hpa : forall t' (a : bool) x, parents (if a then set_rootc (rootc t' ++ [n]) t' else t') x = parents t' x).
  { intros. unfold parents. rewrite Hgn. auto. }
  assert (Hha : forall t' (a : bool) x, has_node (if a then set_rootc (rootc t' ++ [n]) t' else t') x = has_node t' x).
  { intros. unfold has_node. rewrite Hgn. auto. }
  assert (Hanc : forall t' (a : bool) u v, anc (if a then set_rootc (rootc t' ++ [n]) t' else t') u v <-> anc t' u v).
  { intros. split; apply anc_incl; intros x q Hq; rewrite Hpa in *; auto. }
  destruct po as [p|].
  - destruct (circ_cases strict t2 p n G2) as [[E A]|[E A]].
    + exists t2, [], (Err Circular), t2.
      split. { erewrite bind_Err; [reflexivity|]. erewrite bind_Ok_nil by apply E. reflexivity. }
      split; [exact G2|]. split; [exact G2|]. split; [exact Gr2|]. split; [reflexivity|]. split; [exact PD|].
      left. repeat (split; auto). exists p. auto.
    + destruct (has_node t2 p) eqn:Hlp.
      * set (t3 := add_edge p n t2).
        assert (Hin : In p (parents t3 n)).
        { unfold t3. rewrite parents_add_edge by (rewrite K2; auto). rewrite eqb_refl. simpl.
          destruct (mem_spec p (parents t2 n)); simpl; auto. apply in_app_iff; simpl; auto. }
        assert (Gr3 : grown n (put n nd t) t3).
        { apply (grown_step n _ t2 p n); auto; [rewrite <- K2; auto|split; auto]. }
        assert (G3 : good t3).
        { apply good_add_edge; auto; [apply goodx_weaken; auto|rewrite K2; auto]. }
        exists t3, [Ev EAdded n t3], (Ok tt), t3. split.
        { erewrite bind_Ok_nil.
          2:{ erewrite bind_Ok_nil by apply E. cbv iota. rewrite bind_get, Hlp.
              erewrite bind_Ok_nil by (apply create_eq; auto; rewrite K2; auto). reflexivity. }
          reflexivity. }
        split; auto. split; auto. split; auto. split; auto. split.
        { intros x Hx. specialize (PD x Hx). destruct (applicable (put n nd t) n x).
          - intros q Hq. destruct (PD q Hq) as [H|H].
            + left. unfold t3. rewrite parents_add_edge by (rewrite K2; auto).
              destruct (_ && _); auto. apply in_app_iff; auto.
            + right. eapply anc_incl; [|apply H]. intros y z Hz. unfold t3.
              rewrite parents_add_edge by (rewrite K2; auto). destruct (_ && _); auto. apply in_app_iff; auto.
          - unfold t3. rewrite pend_add_edge. auto. }
        right. split; auto. split; auto. split.
        { destruct (parents t3 n); [destruct Hin|auto]. }
        intros q Hq. inv Hq. split.
        -- intro Ha. eapply (ok_not_own_parent t3 q); [apply (g_ok _ _ _ G3)|].
           assert (q = n) by (eapply (anc_antisym t3); [apply (g_ok _ _ _ G3)| |]; eauto using anc_step, anc_refl).
           subst. auto.
        -- left. unfold t3. rewrite has_node_add_edge. auto.
      * set (t3 := set_pend (pend t2 ++ [(Some p, n)]) t2).
        assert (Gr3 : grown n (put n nd t) t3) by (apply grown_pend; auto).
        assert (G3 : good t3).
        { apply goodx_set_pend; auto. intros q c Hq. apply in_app_iff in Hq. destruct Hq as [Hq|[Hq|[]]].
          - apply (ok_pend _ (g_ok _ _ _ G2)); auto.
          - inv Hq. intro; subst. apply A. apply anc_refl. }
        set (t4 := if b then set_rootc (rootc t3 ++ [n]) t3 else t3).
        exists t4, [Ev EAdded n t4], (Ok tt), t3. split.
        { erewrite bind_Ok_nil.
          2:{ erewrite bind_Ok_nil by apply E. cbv iota. rewrite bind_get, Hlp.
              erewrite bind_Ok_nil by reflexivity. reflexivity. }
          apply (Hfin b t3). auto. }
        split; [apply Hgf; auto|]. split; auto. split; auto. split; [apply Hgn|]. split.
        { intros x Hx. specialize (PD x Hx). destruct (applicable (put n nd t) n x).
          - intros q Hq. unfold t4. rewrite Hpa, Hanc. destruct (PD q Hq) as [H|H]; [left; exact H|right].
            eapply anc_incl; [|apply H]. intros y z Hz. exact Hz.
          - unfold t4. rewrite Hpf. unfold t3. simpl. apply in_app_iff; auto. }
        right. split; auto. split; auto. split.
        { unfold t4. rewrite Hpa, Hb. change (parents t3 n) with (parents t2 n).
          destruct (parents t2 n); auto. }
        intros q Hq. inv Hq. unfold t4. rewrite Hanc, Hha.
        split; [intro Ha; apply A; eapply anc_incl; [|apply Ha]; intros y z Hz; exact Hz|]. right. split; auto.
        rewrite Hpf. unfold t3. simpl. apply in_app_iff; simpl; auto.
  - set (t4 := if b then set_rootc (rootc t2 ++ [n]) t2 else t2).
    exists t4, [Ev EAdded n t4], (Ok tt), t2. split.
    { rewrite bind_ret. apply (Hfin b t2); auto. }
    split; [apply Hgf; auto|]. split; auto. split; auto. split; [apply Hgn|]. split.
    { intros x Hx. specialize (PD x Hx). destruct (applicable (put n nd t) n x).
      - intros q Hq. unfold t4. rewrite Hpa, Hanc. apply PD; auto.
      - unfold t4. rewrite Hpf. auto. }
    right. split; auto. split; auto. split; [|discriminate].
    unfold t4. rewrite Hpa, Hb. destruct (parents t2 n); auto.
Qed.

End Strict.
