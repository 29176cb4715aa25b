(** Views: which nodes are displayed as they should be after the handler of an
    event, whatever the view was before. *)
From Verif Require Import Base BaseFacts MainTree Filters FTree FtBase FtKeep.
Open Scope f_scope.

Lemma fbind_Ok : forall A B (m : FM A) (k : A -> FM B) s s' y, fbind m k s = (s', Ok y) -> exists s1 a, m s = (s1, Ok a) /\ k a s1 = (s', Ok y).
Proof. intros A B m k s s' y H. unfold fbind in H. destruct (m s) as [s1 [a|e|]]; try discriminate. eauto. Qed.
Lemma fget_Ok : forall B (k : ft -> FM B) s, fbind fget k s = k s s.
Proof. auto. Qed.
Lemma fnode_Ok : forall B n (k : fnode -> FM B) s s' y, fbind (fnode_at n) k s = (s', Ok y) -> exists e, dget n (fnodes s) = Some e /\ k e s = (s', Ok y).
Proof. intros B n k s s' y H. unfold fbind, fnode_at in H. destruct (dget n (fnodes s)) as [e|]; [eauto|discriminate]. Qed.
Lemma is_displayed_dset : forall n e s x, is_displayed (set_fnodes (dset n e (fnodes s)) s) x = String.eqb x n || is_displayed s x.
Proof. intros. unfold is_displayed, dmem. simpl. rewrite dget_dset. destruct (String.eqb x n); auto. Qed.
Lemma is_displayed_ddel : forall n s x, NoDup (dkeys (fnodes s)) -> is_displayed (set_fnodes (ddel n (fnodes s)) s) x = negb (String.eqb x n) && is_displayed s x.
Proof. intros n s x H. unfold is_displayed, dmem. simpl. rewrite dget_ddel by auto. destruct (String.eqb x n); auto. Qed.

Section Truth.
  Variable ord : nat -> list id -> list id.
  Variable T : mtree.
  Variable D : id -> bool.

  (** Every node is displayed as before or as it should be; the entries of the view are unique. *)
  Definition moved (s s' : ft) : Prop := froot s' = froot s /\ flat s' = flat s /\ (NoDup (dkeys (fnodes s)) -> NoDup (dkeys (fnodes s'))) /\
    (NoDup (dkeys (fnodes s)) -> forall x, is_displayed s' x = is_displayed s x \/ is_displayed s' x = D x).
  Lemma moved_refl : forall s, moved s s.
  Proof. intros s. split; auto. Qed.
  Lemma moved_trans : forall a b c, moved a b -> moved b c -> moved a c.
  Proof.
    intros a b c (R1 & F1 & N1 & H1) (R2 & F2 & N2 & H2). split; [congruence|]. split; [congruence|]. split; auto.
    intros N x. destruct (H2 (N1 N) x) as [E|E]; rewrite E; auto.
  Qed.
  Lemma moved_nodes : forall s s', froot s' = froot s -> flat s' = flat s -> fnodes s' = fnodes s -> moved s s'.
  Proof. intros s s' E1 E2 E3. split; auto. split; auto. unfold is_displayed. rewrite E3. split; auto. Qed.
  Notation moves := (keeps moved).

  Lemma moved_send : forall x s, moved s (send x s).
  Proof. intros. apply moved_nodes; auto. Qed.
  Lemma moves_added : forall n p, moves (callback_added n p).
  Proof.
    intros n p s. unfold callback_added. destruct (mem n reserved); [apply moved_refl|].
    destruct (dget n (runonce s)) as [[|a acts]|]; try (apply moved_send).
    destruct (is_displayed s n); [|apply moved_refl]. cbn [fst].
    assert (E : forall acts s, moved s (fold_left (fun s a => send (SRun n a) s) acts s)).
    { clear. induction acts as [|a acts IH]; simpl; intros; [apply moved_refl|]. eapply moved_trans; [apply moved_send|apply IH]. }
    eapply moved_trans; [apply (E (a :: acts))|]. eapply moved_trans; [|apply moved_send]. apply moved_nodes; auto.
  Qed.
  Lemma moves_upd : forall n f, moves (upd_f n f).
  Proof.
    intros n f s. unfold upd_f. destruct (dget n (fnodes s)) as [e|] eqn:E; [|apply moved_refl]. cbn [fst]. split; auto. split; auto. split.
    - intros H. simpl. apply dset_NoDup. auto.
    - intros _ x. left. rewrite is_displayed_dset. destruct (String.eqb x n) eqn:Ex; auto. apply eqb_eq in Ex. subst. unfold is_displayed, dmem. rewrite E. auto.
  Qed.
  Definition moves_ret := keeps_ret moved moved_refl.
  Definition moves_raise := keeps_raise moved moved_refl.
  Definition moves_diverge := keeps_diverge moved moved_refl.
  Definition moves_bind := keeps_bind moved moved_trans.
  Definition moves_get := keeps_get moved.
  Definition moves_node := keeps_node_at moved moved_refl.
  Definition moves_paths := keeps_paths moved moved_refl.
  Definition moves_for := keeps_for moved moved_refl moved_trans.
  Lemma moves_add_tree : forall n p, moves (send_add_tree n p).
  Proof. apply keeps_add_tree; auto using moved_refl, moves_added. apply moved_trans. Qed.
  Lemma moves_remove_tree : forall n p, moves (send_remove_tree n p).
  Proof. apply keeps_remove_tree; auto using moved_refl, moved_send. apply moved_trans. Qed.
  Lemma moves_iterate : forall l body, (forall x, moves (body x)) -> moves (iterate_set ord l body).
  Proof. intros l body H s. unfold iterate_set. eapply moved_trans; [|apply moves_for; auto]. apply moved_nodes; auto. Qed.

  Ltac mv1 :=
    match goal with
    | |- moves (fbind fget _) => apply moves_get; intros ?
    | |- moves (fbind _ _) => apply moves_bind; [|intros ?]
    | |- moves (fret _) => apply moves_ret
    | |- moves (fraise _) => apply moves_raise
    | |- moves fdiverge => apply moves_diverge
    | |- moves (fnode_at _) => apply moves_node
    | |- moves (upd_f _ _) => apply moves_upd
    | |- moves (paths_of _) => apply moves_paths
    | |- moves (callback_deleted _ _) => intros ?; apply moved_send
    | |- moves (callback_modified _ _) => intros ?; apply moved_send
    | |- moves (send_add_tree _ _) => apply moves_add_tree
    | |- moves (send_remove_tree _ _) => apply moves_remove_tree
    | |- moves (iterate_set _ _ _) => apply moves_iterate; intros ?
    | |- moves (ffor _ _) => apply moves_for; intros ?
    | |- moves (if ?b then _ else _) => destruct b
    | |- moves (let _ := _ in _) => cbv zeta
    | |- moves (children_remove _ _) => unfold children_remove
    | |- moves (parents_remove _ _) => unfold parents_remove
    end.

  Lemma moves_put : forall n e, D n = true -> moves (fmodify (fun s => set_fnodes (dset n e (fnodes s)) s)).
  Proof.
    intros n e H s. cbn [fmodify fst]. split; auto. split; auto. split; [intros; apply dset_NoDup; auto|]. intros _ x. rewrite is_displayed_dset.
    destruct (String.eqb x n) eqn:E; auto. apply eqb_eq in E. subst. right. rewrite H. auto.
  Qed.
  Lemma moves_pop : forall n, D n = false -> moves (fmodify (fun s => set_fnodes (ddel n (fnodes s)) s)).
  Proof.
    intros n H s. cbn [fmodify fst]. split; auto. split; auto. split; [intros; apply ddel_NoDup; auto|]. intros N x. rewrite is_displayed_ddel by auto.
    destruct (String.eqb x n) eqn:E; auto. apply eqb_eq in E. subst. right. rewrite H. auto.
  Qed.

  Lemma moves_shown : forall rec n dir a, (forall x d, moves (rec x d)) -> moves (update_shown ord T D rec n dir a).
  Proof. intros rec n dir a H. unfold update_shown. repeat first [apply H | mv1]. Qed.
  Lemma moves_hidden : forall rec n, (forall x d, moves (rec x d)) -> D n = false -> moves (update_hidden T rec n).
  Proof. intros rec n H Dn. unfold update_hidden. repeat first [apply H | apply moves_pop; assumption | mv1]. Qed.
  Lemma moves_update : forall f n dir, moves (update_node ord T D f n dir).
  Proof.
    induction f as [|f IH]; intros n dir; cbn [update_node]; [apply moves_diverge|]. unfold update_body.
    apply moves_get; intros s0. destruct (String.eqb n (froot s0)); [apply moves_ret|]. cbv zeta.
    destruct (is_displayed s0 n); destruct (D n) eqn:Dn.
    - apply moves_shown. auto.
    - apply moves_hidden; auto.
    - apply moves_bind; [apply moves_put; auto|]. intros ?. apply moves_shown. auto.
    - repeat first [apply IH | mv1].
  Qed.

  Definition right (s : ft) (x : id) : Prop := is_displayed s x = D x.
  Lemma moved_right : forall s s' x, moved s s' -> NoDup (dkeys (fnodes s)) -> right s x -> right s' x.
  Proof. intros s s' x (_ & _ & _ & H) N R. unfold right in *. destruct (H N x); congruence. Qed.
  Lemma moved_keys : forall s s', moved s s' -> NoDup (dkeys (fnodes s)) -> NoDup (dkeys (fnodes s')).
  Proof. intros s s' (_ & _ & H & _). auto. Qed.
  Lemma moves_eq : forall A (m : FM A) s s' r, moves m -> m s = (s', r) -> moved s s'.
  Proof. intros A m s s' r H E. specialize (H s). rewrite E in H. auto. Qed.

  (** The node of the event. *)
  Lemma hidden_right : forall rec n s s', (forall x d, moves (rec x d)) -> D n = false -> NoDup (dkeys (fnodes s)) ->
    update_hidden T rec n s = (s', Ok tt) -> right s' n.
  Proof.
    intros rec n s s' H Dn N E. unfold update_hidden in E.
    apply fbind_Ok in E. destruct E as (s1 & P & E1 & E). assert (M1 : moved s s1) by (eapply moves_eq; [apply moves_paths|eauto]).
    apply fnode_Ok in E. destruct E as (e & _ & E).
    apply fbind_Ok in E. destruct E as (s2 & [] & E2 & E).
    assert (M2 : moved s1 s2) by (eapply moves_eq; [|apply E2]; repeat first [apply H | mv1]).
    apply fnode_Ok in E. destruct E as (e' & _ & E).
    apply fbind_Ok in E. destruct E as (s3 & [] & E3 & E). inv E3.
    assert (N2 : NoDup (dkeys (fnodes s2))) by (eapply moved_keys; [apply M2|]; eapply moved_keys; eauto).
    match type of E with ?m ?s3 = _ => assert (M4 : moved s3 s') by (eapply moves_eq; [|apply E]; repeat first [apply H | mv1]) end.
    eapply moved_right; [apply M4| |].
    - simpl. apply ddel_NoDup. auto.
    - unfold right. rewrite is_displayed_ddel, eqb_refl by auto. auto.
  Qed.

  Lemma update_right : forall f n dir s s', NoDup (dkeys (fnodes s)) -> update_node ord T D f n dir s = (s', Ok tt) -> n <> froot s -> right s' n.
  Proof.
    intros f n dir s s' N E Nr. pose proof (moves_eq _ _ _ _ _ (moves_update f n dir) E) as M.
    destruct f as [|f]; [discriminate|]. cbn [update_node] in E. unfold update_body in E. rewrite fget_Ok in E.
    rewrite (proj2 (eqb_neq n (froot s)) Nr) in E. cbv zeta in E.
    destruct (is_displayed s n) eqn:Ds; destruct (D n) eqn:Dn.
    - eapply moved_right; eauto. unfold right. congruence.
    - eapply hidden_right; eauto using moves_update.
    - apply fbind_Ok in E. destruct E as (s1 & [] & E1 & E). inv E1.
      eapply moved_right; [eapply moves_eq; [apply moves_shown, moves_update|apply E]| |].
      + simpl. apply dset_NoDup. auto.
      + unfold right. rewrite is_displayed_dset, eqb_refl. auto.
    - eapply moved_right; eauto. unfold right. congruence.
  Qed.

  (** Going up to every parent [q] of the list that fails a test. *)
  Lemma for_right : forall l (body : id -> FM unit) s s' p,
    (forall x, moves (body x)) -> In p l -> NoDup (dkeys (fnodes s)) ->
    (forall z z', NoDup (dkeys (fnodes z)) -> moved s z -> body p z = (z', Ok tt) -> right z' p) ->
    ffor l body s = (s', Ok tt) -> right s' p.
  Proof.
    intros l body s0 s' p HB Hp N HR E.
    assert (G : forall l s, In p l -> NoDup (dkeys (fnodes s)) -> moved s0 s -> ffor l body s = (s', Ok tt) -> right s' p).
    { clear l Hp E N. intros l. induction l as [|x l IH]; intros s; [intros []|]. intros Hp N M E. cbn [ffor] in E. apply fbind_Ok in E. destruct E as (s1 & [] & E1 & E).
      pose proof (moves_eq _ _ _ _ _ (HB x) E1) as M1. pose proof (moved_keys _ _ M1 N) as N1.
      pose proof (moves_eq _ _ _ _ _ (moves_for _ l _ HB) E) as M2.
      destruct Hp as [->|Hp].
      - eapply moved_right; [apply M2|auto|]. apply (HR s s1); auto.
      - eapply IH; eauto. eapply moved_trans; eauto. }
    eapply G; eauto. apply moved_refl.
  Qed.

  Lemma update_parents : forall f n dir s s' p, NoDup (dkeys (fnodes s)) -> update_node ord T D f n dir s = (s', Ok tt) -> n <> froot s ->
    has_node T n = true -> In p (get_parents T n) -> p <> froot s ->
    is_displayed s n = false \/ (D n = false /\ is_displayed s p = false) -> right s' p.
  Proof.
    intros f n dir s s' p N E Nr Hn Hp Np C.
    destruct f as [|f]; [discriminate|]. cbn [update_node] in E. unfold update_body in E. rewrite fget_Ok in E.
    rewrite (proj2 (eqb_neq n (froot s)) Nr) in E. cbv zeta in E.
    destruct (is_displayed s n) eqn:Ds; destruct (D n) eqn:Dn.
    - destruct C as [C|[C _]]; discriminate.
    - destruct C as [C|[_ C]]; [discriminate|]. unfold update_hidden in E.
      apply fbind_Ok in E. destruct E as (s1 & P & E1 & E). assert (M1 : moved s s1) by (eapply moves_eq; [apply moves_paths|eauto]).
      apply fnode_Ok in E. destruct E as (e & _ & E).
      apply fbind_Ok in E. destruct E as (s2 & [] & E2 & E).
      assert (M2 : moved s1 s2) by (eapply moves_eq; [|apply E2]; repeat first [apply moves_update | mv1]).
      apply fnode_Ok in E. destruct E as (e' & _ & E).
      apply fbind_Ok in E. destruct E as (s3 & [] & E3 & E).
      assert (M3 : moved s2 s3) by (eapply moves_eq; [apply (moves_pop n Dn)|apply E3]). clear E3.
      apply fbind_Ok in E. destruct E as (s4 & [] & E4 & E).
      assert (M4 : moved s3 s4) by (eapply moves_eq; [|apply E4]; repeat mv1).
      apply fbind_Ok in E. destruct E as (s5 & [] & E5 & E).
      assert (M5 : moved s4 s5) by (eapply moves_eq; [|apply E5]; repeat first [apply moves_update | mv1]).
      assert (M : moved s s5) by (repeat (eapply moved_trans; [eassumption|]); apply moved_refl).
      rewrite Hn in E. eapply for_right; [|apply Hp|eapply moved_keys; [apply M|auto]| |apply E].
      + intros x. cbn beta. repeat first [apply moves_update | mv1].
      + intros z z' Nz Mz. cbn beta. rewrite fget_Ok. pose proof (moved_trans _ _ _ M Mz) as (Rz & _ & _ & Hz). destruct (is_displayed z p) eqn:Dz.
        * intros X. inv X. unfold right. destruct (Hz N p) as [Q|Q]; congruence.
        * intros X. eapply update_right; eauto. congruence.
    - apply fbind_Ok in E. destruct E as (s1 & [] & E1 & E). pose proof (moves_eq _ _ _ _ _ (moves_put n (mkF [] []) Dn) E1) as M1. inv E1.
      unfold update_shown in E. apply fnode_Ok in E. destruct E as (e & Ee & E). rewrite fget_Ok in E. cbv zeta in E.
      simpl in Ee. rewrite dget_dset, eqb_refl in Ee. inv Ee. cbn [fpar mem existsb] in E.
      apply fbind_Ok in E. destruct E as (s2 & [] & E2 & E).
      set (s1 := set_fnodes (dset n (mkF [] []) (fnodes s)) s) in *. assert (N1 : NoDup (dkeys (fnodes s1))) by (eapply moved_keys; [apply M1|auto]).
      assert (M3 : moved s2 s') by (eapply moves_eq; [|apply E]; repeat first [apply moves_update | mv1]).
      assert (M2 : moved s1 s2) by (eapply moves_eq; [|apply E2]; repeat first [apply moves_update | mv1]).
      assert (N2 : NoDup (dkeys (fnodes s2))) by (eapply moved_keys; [apply M2|auto]).
      apply (moved_right s2 s'); auto.
      eapply for_right; [|apply Hp|apply N1| |apply E2].
      + intros x. cbn beta. repeat first [apply moves_update | mv1].
      + intros z z' Nz Mz. cbn beta. destruct Mz as (Rz & _ & _ & Hz). unfold node_parents_of.
        assert (Q : forall l : list id, (In p l -> right s1 p) -> mem p (match l with [] => [froot s1] | _ => l end) = true -> right s1 p).
        { intros l Hl Hm. destruct l as [|y l].
          - simpl in Hm. rewrite orb_false_r in Hm. apply eqb_eq in Hm. exfalso. apply Np. rewrite Hm. auto.
          - apply Hl. destruct (mem_spec p (y :: l)); [auto|congruence]. }
        specialize (Q (if flat s1 then [] else filter (fun p => is_displayed s1 p && D p) (get_parents T n))).
        assert (Hq : In p (if flat s1 then [] else filter (fun p => is_displayed s1 p && D p) (get_parents T n)) -> right s1 p).
        { destruct (flat s1); [intros []|]. rewrite filter_In. intros [_ X]. apply andb_true_iff in X. destruct X as [X1 X2]. unfold right. congruence. }
        specialize (Q Hq).
        match goal with |- context [negb (mem p ?l)] => destruct (mem p l) eqn:Em end.
        * simpl. intros X. inv X. specialize (Q eq_refl). unfold right in *. destruct (Hz N1 p); congruence.
        * cbn [negb andb]. intros X. eapply update_right; eauto. rewrite Rz. auto.
    - rewrite Hn in E. eapply for_right; [|apply Hp|apply N| |apply E].
      + intros x. cbn beta. repeat first [apply moves_update | mv1].
      + intros z z' Nz (Rz & _) X. eapply update_right; eauto. congruence.
  Qed.
End Truth.
