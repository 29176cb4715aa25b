(** Views: what one update does, going up. *)
From Coq Require Import Permutation.
From Verif Require Import Base BaseFacts MainTree MainFacts Filters FTree SpecView FtBase FtWalk FtEdge.
Open Scope f_scope.

Lemma kids_set : forall n e s x, kids (set_fnodes (dset n e (fnodes s)) s) x = if String.eqb x n then fchi e else kids s x.
Proof. intros. unfold kids. simpl. rewrite dget_dset. deq x n; auto. Qed.
Lemma pars_set : forall n e s x, pars (set_fnodes (dset n e (fnodes s)) s) x = if String.eqb x n then fpar e else pars s x.
Proof. intros. unfold pars. simpl. rewrite dget_dset. deq x n; auto. Qed.
Lemma disp_set : forall n e s x, is_displayed (set_fnodes (dset n e (fnodes s)) s) x = String.eqb x n || is_displayed s x.
Proof. intros. unfold is_displayed. simpl. apply dmem_dset. Qed.
Lemma disp_entry : forall s n, is_displayed s n = true -> exists e, dget n (fnodes s) = Some e /\ fpar e = pars s n /\ fchi e = kids s n.
Proof.
  intros s n H. unfold is_displayed, dmem in H. unfold pars, kids. destruct (dget n (fnodes s)) as [e|]; [|discriminate]. eauto.
Qed.
Lemma not_disp : forall s n, is_displayed s n = false -> kids s n = [] /\ pars s n = [].
Proof. intros s n H. unfold is_displayed, dmem in H. unfold pars, kids. destruct (dget n (fnodes s)); [discriminate|auto]. Qed.

Section Views.
  Context {EAR : Ear}.
  Variable r : id -> nat.
  Variable root : id.
  Variable fl : bool.

  (** A view whose clients see exactly its stored edges. The stored parents of the
      nodes of [A] agree with the stored children. *)
  Record base (A : id -> Prop) (s : ft) : Prop := {
    b_g : gbase r root A (kids s) s;
    b_keys : NoDup (dkeys (fnodes s));
    b_flat : flat s = fl;
    b_ndk : forall x, NoDup (kids s x)
  }.

  Lemma base_kid : forall A s p c, base A s -> In c (kids s p) -> is_displayed s c = true /\ r p < r c.
  Proof. intros A s p c B H. apply (gb_ch _ _ _ _ _ (b_g _ _ B)). auto. Qed.

  Lemma base_weaken : forall (A A' : id -> Prop) s, base A s -> (forall x, A' x -> A x) -> base A' s.
  Proof. intros A A' s [[] ? ? ?] H. constructor; auto. constructor; auto. Qed.

  Lemma base_like : forall A s s', base A s -> like s s' -> knows s' (paths (kids s) root) -> base A s'.
  Proof.
    intros A s s' B L K. assert (B2 : gbase r root A (kids s) s') by (eapply gbase_like; eauto; apply B).
    assert (EK : forall x, kids s' x = kids s x) by (intros; apply like_kids; auto).
    constructor.
    - destruct B2. constructor; auto; intros.
      + apply gb_ch. rewrite <- EK. auto.
      + rewrite EK. auto.
      + eapply knows_iff; [|apply gb_knows]. intros l. unfold paths. split; intros [H1 H2]; split; auto;
          (eapply (downward_ext (fun _ => True)); [auto| |apply H2]); intros; split; auto; rewrite EK in *; auto.
      + intros x p q. rewrite !EK. apply gb_one. auto.
    - rewrite (lk_nodes _ _ L). apply B.
    - rewrite (lk_flat _ _ L). apply B.
    - intros x. rewrite EK. apply B.
  Qed.

  Lemma base_bump : forall A s, base A s -> base A (bump s).
  Proof. intros A s B. apply (base_like A s); auto; [constructor; auto|]. eapply knows_sent; [|apply (gb_knows _ _ _ _ _ (b_g _ _ B))]. auto. Qed.

  (** Only the children of [p] change. *)
  Record edited (s s' : ft) (p : id) (ks : list id) : Prop := {
    ed_disp : forall x, is_displayed s' x = is_displayed s x;
    ed_pars : forall x, pars s' x = pars s x;
    ed_kids : forall x, kids s' x = if String.eqb x p then ks else kids s x;
    ed_filters : filters s' = filters s
  }.

  Lemma base_edited : forall (A A' : id -> Prop) s s' p n ks, base A s -> edited s s' p ks ->
    froot s' = froot s -> flat s' = flat s -> NoDup (dkeys (fnodes s')) -> NoDup ks ->
    (forall c, c <> n -> (In c ks <-> In c (kids s p))) ->
    (In n ks -> is_displayed s n = true /\ r p < r n) ->
    (In n ks -> ear_one -> forall q, In n (kids s q) -> q = p) ->
    (forall x, A' x -> A x /\ x <> n) -> knows s' (paths (kids s') root) -> base A' s'.
  Proof.
    intros A A' s s' p n ks B E Fr Ff Nk ND Hk Hn HO HA K. destruct E as [E1 E2 E3 E4]. pose proof (b_g _ _ B) as G.
    assert (KC : forall x c, In c (kids s' x) -> is_displayed s c = true /\ r x < r c).
    { intros x c. rewrite E3. deq x p; [|apply (gb_ch _ _ _ _ _ G)]. subst x. intros H.
      destruct (id_dec c n) as [->|N]; auto. apply Hk in H; auto. apply (gb_ch _ _ _ _ _ G). auto. }
    constructor; auto.
    - constructor; auto.
      + rewrite Fr. apply G.
      + rewrite E1. apply G.
      + rewrite E2. apply G.
      + intros x c H. rewrite E1. auto.
      + intros x. rewrite E2. apply G.
      + intros x q. rewrite E2. apply (gb_pars _ _ _ _ _ G).
      + intros x q H. apply HA in H. destruct H as [H1 H2]. rewrite E2, (gb_sym _ _ _ _ _ G) by auto.
        rewrite E3. deq q p; [|tauto]. subst q. symmetry. auto.
      + intros Ho. pose proof (gb_one _ _ _ _ _ G Ho) as Lo.
        assert (Fa : forall x a, In x (kids s' a) -> x <> n -> In x (kids s a)) by (intros x a; rewrite E3; deq a p; auto; subst; intros; apply Hk; auto).
        assert (Fb : forall q, In n (kids s' q) -> In n (kids s q) /\ q <> p \/ q = p /\ In n ks) by (intros q; rewrite E3; deq q p; auto).
        intros x a c H1 H2. destruct (id_dec x n) as [->|Nx]; [|apply (Lo x); auto].
        apply Fb in H1. apply Fb in H2. destruct H1 as [[H1 M1]|[-> M1]], H2 as [[H2 M2]|[-> M2]]; [apply (Lo n); auto|apply HO; auto|symmetry; apply HO; auto|auto].
    - rewrite Ff. apply B.
    - intros x. rewrite E3. destruct (String.eqb x p); auto. apply B.
  Qed.

  Lemma edge_remove : forall (A A' : id -> Prop) s n p (Q : unit -> ft -> Prop), base A s -> (forall x, r x <= r p -> A x) ->
    In n (kids s p) -> (forall x, A' x -> A x /\ x <> n) -> (forall st m, last st root = p -> ear_gone (st ++ n :: m)) ->
    (forall s', base A' s' -> edited s s' p (remove1 n (kids s p)) -> Q tt s') ->
    fwp (send_remove_tree n p ;; children_remove p n) Q s.
  Proof.
    intros A A' s n p Q B HA Hn HA' Hg HQ. pose proof (b_g _ _ B) as G.
    apply fwp_bind. set (ch' := fun x => if String.eqb x p then remove1 n (kids s p) else kids s x).
    eapply fwp_mono; [apply (send_removed r root A (kids s) ch' s n p); auto|].
    - apply B.
    - intros x c. unfold ch'. deq x p; [|tauto]. subst x. rewrite remove1_iff by apply B. tauto.
    - intros ? s1 [L K]. unfold children_remove. apply fwp_bind.
      destruct (disp_entry s p (kids_disp _ _ _ Hn)) as (e & Ee & Ep & Ek).
      apply (fwp_node p e); [rewrite (lk_nodes _ _ L); auto|]. rewrite Ek, (proj2 (mem_In _ _) Hn).
      apply (fwp_upd p e); [rewrite (lk_nodes _ _ L); auto|].
      assert (E : edited s (set_fnodes (dset p (mkF (fpar e) (remove1 n (fchi e))) (fnodes s1)) s1) p (remove1 n (kids s p))).
      { constructor.
        - intros x. rewrite disp_set, (like_disp _ _ _ L). deq x p; simpl; auto. subst. symmetry. eapply kids_disp; eauto.
        - intros x. rewrite pars_set, (like_pars _ _ _ L). deq x p; simpl; auto. subst. auto.
        - intros x. rewrite kids_set, (like_kids _ _ _ L). simpl. rewrite Ek. auto.
        - apply L. }
      apply HQ; auto. apply (base_edited A A' s _ p n _ B E); auto.
      + apply L.
      + apply L.
      + simpl. apply dset_NoDup. rewrite (lk_nodes _ _ L). apply B.
      + apply remove1_NoDup. apply B.
      + intros c Hc. rewrite remove1_iff by apply B. tauto.
      + intros H. exfalso. apply remove1_iff in H; [tauto|apply B].
      + intros H. exfalso. apply remove1_iff in H; [tauto|apply B].
      + eapply knows_sent; [|eapply knows_iff; [|apply K]]; [auto|]. intros l. unfold paths.
        assert (EK : forall x, kids (set_fnodes (dset p (mkF (fpar e) (remove1 n (fchi e))) (fnodes s1)) s1) x = ch' x) by apply E.
        split; intros [H1 H2]; split; auto; (eapply (downward_ext (fun _ => True)); [auto| |apply H2]);
          intros; split; auto; rewrite ?EK in *; auto.
  Qed.

  Lemma edge_add : forall (A A' : id -> Prop) s n p (Q : unit -> ft -> Prop), base A s -> (forall x, r x <= r p -> A x) ->
    is_displayed s p = true -> is_displayed s n = true -> r p < r n ->
    (forall x, is_displayed s x = true -> x = n \/ r n < r x -> fine x) ->
    ~ In n (kids s p) -> (forall x, A' x -> A x /\ x <> n) ->
    (ear_one -> forall q, ~ In n (kids s q)) ->
    (forall s', base A' s' -> edited s s' p (kids s p ++ [n]) -> Q tt s') ->
    fwp (upd_f p (fun e => mkF (fpar e) (fchi e ++ [n])) ;; send_add_tree n p) Q s.
  Proof.
    intros A A' s n p Q B HA Dp Dn Rp Hres Hn HA' HO HQ. pose proof (b_g _ _ B) as G.
    destruct (disp_entry s p Dp) as (e & Ee & Ep & Ek).
    apply fwp_bind. apply (fwp_upd p e); auto. cbn beta.
    set (s1 := set_fnodes (dset p (mkF (fpar e) (fchi e ++ [n])) (fnodes s)) s).
    assert (D1 : forall x, is_displayed s1 x = is_displayed s x).
    { intros x. unfold s1. rewrite disp_set. deq x p; simpl; auto. subst. auto. }
    assert (P1 : forall x, pars s1 x = pars s x).
    { intros x. unfold s1. rewrite pars_set. deq x p; simpl; auto. subst. auto. }
    assert (K1 : forall x, kids s1 x = if String.eqb x p then kids s p ++ [n] else kids s x).
    { intros x. unfold s1. rewrite kids_set. simpl. rewrite Ek. auto. }
    assert (HC : forall x c, In c (kids s1 x) -> is_displayed s1 c = true /\ r x < r c).
    { intros x c. rewrite K1, D1. deq x p; [|apply (gb_ch _ _ _ _ _ G)]. subst x. rewrite in_app_iff. simpl.
      intros [H|[<-|[]]]; auto. apply (gb_ch _ _ _ _ _ G). auto. }
    eapply fwp_mono; [apply (send_added r root A (kids s1) (kids s) s1 n p); auto|].
    - constructor.
      + apply G.
      + rewrite D1. apply G.
      + rewrite P1. apply G.
      + intros x c H. rewrite K1. deq x p; auto. subst. apply in_app_iff. auto.
      + intros x c. rewrite D1. apply (gb_ch _ _ _ _ _ G).
      + intros x. rewrite P1. apply G.
      + intros x c. rewrite P1. apply (gb_pars _ _ _ _ _ G).
      + intros x c Hx. rewrite P1. apply (gb_sym _ _ _ _ _ G); auto.
      + eapply knows_sent; [|apply (gb_knows _ _ _ _ _ G)]. auto.
      + apply (gb_one _ _ _ _ _ G).
    - rewrite D1. auto.
    - intros x. rewrite K1. destruct (String.eqb x p); [|apply B]. apply NoDup_snoc; auto. apply B.
    - intros x. rewrite D1. auto.
    - rewrite K1, eqb_refl, in_app_iff. simpl. auto.
    - rewrite K1, eqb_refl, in_app_iff. simpl. auto.
    - intros x c. rewrite K1. deq x p.
      + subst x. rewrite in_app_iff. simpl. split; [intros H; split; auto; intros [_ ->]; auto|].
        intros [[H|[H|[]]] H2]; auto. exfalso. auto.
      + tauto.
    - intros a c H. apply HC in H. tauto.
    - intros Ho. pose proof (gb_one _ _ _ _ _ G Ho) as Lo. specialize (HO Ho).
      assert (Fb : forall x a, In x (kids s1 a) -> In x (kids s a) \/ a = p /\ x = n).
      { intros x a. rewrite K1. deq a p; auto. subst a. rewrite in_app_iff. simpl. intuition. }
      intros x a c H1 H2. apply Fb in H1. apply Fb in H2. destruct H1 as [H1|[-> ->]], H2 as [H2|[-> E2]]; [apply (Lo x); auto|subst; destruct (HO _ H1)|destruct (HO _ H2)|auto].
    - intros [] s' [L K].
      assert (E : edited s s' p (kids s p ++ [n])).
      { constructor.
        - intros x. rewrite (like_disp _ _ _ L). auto.
        - intros x. rewrite (like_pars _ _ _ L). auto.
        - intros x. rewrite (like_kids _ _ _ L). auto.
        - rewrite (lk_filters _ _ L). auto. }
      apply HQ; auto. apply (base_edited A A' s _ p n _ B E); auto.
      + rewrite (lk_root _ _ L). auto.
      + rewrite (lk_flat _ _ L). auto.
      + rewrite (lk_nodes _ _ L). apply dset_NoDup. apply B.
      + apply NoDup_snoc; auto. apply B.
      + intros c Hc. rewrite in_app_iff. simpl. split; [|auto]. intros [H|[H|[]]]; auto. congruence.
      + intros _ Ho q Hq. destruct (HO Ho q Hq).
      + eapply knows_iff; [|apply K]. intros l. unfold paths.
        split; intros [H1 H2]; split; auto; (eapply (downward_ext (fun _ => True)); [auto| |apply H2]);
          intros; split; auto; rewrite ?(like_kids _ _ _ L) in *; auto.
  Qed.
End Views.
