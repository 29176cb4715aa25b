(** Views: updates while nodes are deleted with everything below them.
    Some nodes may have parents that are no longer right, and some entries may still
    name, as a child, a node that is already gone. *)
From Coq Require Import Permutation.
From Verif Require Import Base BaseFacts MainTree MainFacts Filters FTree SpecView FtBase FtWalk FtEdge FtUp FtFront FtNoop FtDel.
Open Scope f_scope.

Lemma gbase_ext : forall {EAR : Ear} r root A ch ch' s, gbase r root A ch s -> (forall x c, In c (ch x) <-> In c (ch' x)) -> gbase r root A ch' s.
Proof.
  intros EAR r root A ch ch' s [] H. constructor; auto; try (intros; apply H in H0; auto; fail).
  - intros x p Hx. rewrite gb_sym; auto.
  - eapply knows_iff; [|apply gb_knows]. intros l. apply paths_same. auto.
  - intros Ho x p q H1 H2. apply H in H1. apply H in H2. apply (gb_one Ho x); auto.
Qed.

Lemma gbase_narrow : forall {EAR : Ear} r root (A A' : id -> Prop) ch s, gbase r root A ch s -> (forall x, A' x -> A x) -> gbase r root A' ch s.
Proof. intros EAR r root A A' ch s [] H. constructor; auto. Qed.

(** The ancestors of [x] in a view that is right. *)
Inductive vup (T : mtree) (D : id -> bool) (root : id) (fl : bool) (a : id) : id -> Prop :=
| vu_refl : vup T D root fl a a
| vu_step : forall p x, In p (sp T D root fl x) -> vup T D root fl a p -> vup T D root fl a x.

Lemma cut_In : forall (b : bool) x (l : list id) c, NoDup l -> (In c (if b then remove1 x l else l) <-> In c l /\ (b = true -> c <> x)).
Proof. intros [] x l c N; [rewrite remove1_iff by auto; tauto|]. split; [intros H; split; [exact H|discriminate]|tauto]. Qed.

Section Ghost.
  Context {EAR : Ear}.
  Variable ord : nat -> list id -> list id.
  Variable T : mtree.
  Variable D : id -> bool.
  Variable root : id.
  Variable fl : bool.
  Variable r : id -> nat.
  Hypothesis EV : env ord T D root fl r.
  Variable B : nat.
  Hypothesis HB : forall x, r x <= B.
  Hypothesis Hsym : forall p c, D c = true -> (In c (get_children T p) <-> In p (get_parents T c)).

  Notation sp := (sp T D root fl).
  Notation vup := (vup T D root fl).
  Notation update_node := (update_node ord T D).

  (** [x0] is gone; the entries of the nodes of [W] still name it. The nodes of [C] have the right parents, which are in [C]. *)
  Variable x0 : id.
  Variables W C : id -> bool.
  Definition safe : Prop := forall p, W p = true -> C p = true.
  Definition okat (p : id) : Prop := (C p = true /\ (p = root \/ D p = true)) \/ safe.
  Hypothesis Hx0 : D x0 = false.

  Definition chs (s : ft) (p : id) : list id := if W p then remove1 x0 (kids s p) else kids s p.

  Lemma chs_In : forall s p c, NoDup (kids s p) -> (In c (chs s p) <-> In c (kids s p) /\ (W p = true -> c <> x0)).
  Proof. intros s p c N. unfold chs. apply cut_In. exact N. Qed.
  Lemma chs_other : forall s p c, c <> x0 -> (In c (chs s p) <-> In c (kids s p)).
  Proof.
    intros s p c N. unfold chs. destruct (W p); [|tauto]. induction (kids s p) as [|y l IH]; simpl; [tauto|].
    deq x0 y; simpl; [|tauto]. split; auto. intros [E1|]; auto. congruence.
  Qed.
  Lemma D_x0 : forall x, D x = true -> x <> x0.
  Proof. intros x H ->. congruence. Qed.

  Record gst (A : id -> Prop) (s : ft) : Prop := {
    g_g : gbase r root A (chs s) s;
    g_keys : NoDup (dkeys (fnodes s));
    g_flat : flat s = fl;
    g_ndk : forall x, NoDup (kids s x);
    g_disp : nostale root D s;
    g_full : forall x, D x = true -> is_displayed s x = true;
    g_more : forall x p, D x = true -> In p (sp x) -> p = root \/ In p (pars s x);
    g_CA : forall x, C x = true -> A x;
    g_Cp : forall x p, C x = true -> In p (pars s x) -> C p = true;
    g_Cf : forall x, C x = true -> D x = true -> pars s x = sp x
  }.

  Lemma gst_like : forall A s s', gst A s -> like s s' -> knows s' (paths (chs s) root) -> gst A s'.
  Proof.
    intros A s s' [] L K.
    constructor; auto.
    - apply (gbase_ext r root A (chs s)); [eapply gbase_like; eauto|]. intros x c. unfold chs. rewrite (like_kids _ _ _ L). tauto.
    - rewrite (lk_nodes _ _ L). auto.
    - rewrite (lk_flat _ _ L). auto.
    - intros x. rewrite (like_kids _ _ _ L). auto.
    - intros x. rewrite (like_disp _ _ _ L). auto.
    - intros x. rewrite (like_disp _ _ _ L). auto.
    - intros x p. rewrite (like_pars _ _ _ L). auto.
    - intros x p. rewrite (like_pars _ _ _ L). apply g_Cp0.
    - intros x. rewrite (like_pars _ _ _ L). auto.
  Qed.

  Lemma gst_bump : forall A s, gst A s -> gst A (bump s).
  Proof. intros A s G. apply (gst_like A s); auto; [constructor; auto|]. eapply knows_sent; [|apply (gb_knows _ _ _ _ _ (g_g _ _ G))]. auto. Qed.

  (** *** One edge *)
  Lemma gst_edited : forall A s s' p n ks, gst A s -> edited s s' p ks ->
    froot s' = froot s -> flat s' = flat s -> NoDup (dkeys (fnodes s')) -> NoDup ks -> D n = true ->
    (forall c, c <> n -> (In c ks <-> In c (kids s p))) ->
    (In n ks -> is_displayed s n = true /\ r p < r n) ->
    (In n ks -> ear_one -> forall q, In n (kids s q) -> q = p) ->
    (forall x, A x -> x <> n) -> knows s' (paths (chs s') root) -> gst A s'.
  Proof.
    intros A s s' p n ks G E Fr Ff Nk ND Dn Hk Hn HO HA K. destruct E as [E1 E2 E3 E4]. pose proof (g_g _ _ G) as Gg.
    assert (N' : forall x, NoDup (kids s' x)) by (intros x; rewrite E3; destruct (String.eqb x p); auto; apply G).
    assert (KC : forall x c, c <> n -> (In c (kids s' x) <-> In c (kids s x))).
    { intros x c Hc. rewrite E3. deq x p; [subst; auto|tauto]. }
    assert (CC : forall x c, c <> n -> (In c (chs s' x) <-> In c (chs s x))).
    { intros x c Hc. rewrite !chs_In by (auto; apply G). rewrite KC; tauto. }
    assert (CH : forall x c, In c (chs s' x) -> is_displayed s c = true /\ r x < r c).
    { intros x c Hc. destruct (id_dec c n) as [->|N]; [|apply (gb_ch _ _ _ _ _ Gg); apply CC; auto].
      apply chs_other in Hc; [|apply D_x0; auto]. rewrite E3 in Hc. deq x p; [subst; auto|].
      apply (gb_ch _ _ _ _ _ Gg). apply chs_other; auto. apply D_x0; auto. }
    constructor; auto.
    - constructor; auto.
      + rewrite Fr. apply Gg.
      + rewrite E1. apply Gg.
      + rewrite E2. apply Gg.
      + intros x c Hc. apply chs_In in Hc; [tauto|auto].
      + intros x c Hc. rewrite E1. auto.
      + intros x. rewrite E2. apply Gg.
      + intros x q. rewrite E2. apply (gb_pars _ _ _ _ _ Gg).
      + intros x q Hx. rewrite E2, (gb_sym _ _ _ _ _ Gg) by auto. symmetry. apply CC. auto.
      + intros Ho. pose proof (gb_one _ _ _ _ _ Gg Ho) as Lo.
        assert (Fb : forall q, In n (chs s' q) -> In n (chs s q) /\ q <> p \/ q = p /\ In n ks).
        { intros q Hq. apply chs_other in Hq; [|apply D_x0; auto]. rewrite chs_other by (apply D_x0; auto). rewrite E3 in Hq. deq q p; auto. }
        intros x a c H1 H2. destruct (id_dec x n) as [->|Nx]; [|apply (Lo x); apply CC; auto].
        assert (Fc : forall q, In n (chs s q) -> In n (kids s q)) by (intros q; apply chs_other; apply D_x0; auto).
        apply Fb in H1. apply Fb in H2. destruct H1 as [[H1 M1]|[-> M1]], H2 as [[H2 M2]|[-> M2]]; [apply (Lo n); auto|apply HO; auto|symmetry; apply HO; auto|auto].
    - rewrite Ff. apply G.
    - intros x. rewrite E1. apply G.
    - intros x. rewrite E1. apply G.
    - intros x q. rewrite E2. apply G.
    - apply G.
    - intros x q. rewrite E2. apply G.
    - intros x. rewrite E2. apply G.
  Qed.

  (** A rank for which the nodes of [C] come first. *)
  Definition rC (x : id) : nat := if C x then r x else r x + S B.

  Lemma rC_base : forall A s, gst A s -> (forall x, C x = true -> A x) -> gbase rC root A (chs s) s.
  Proof.
    intros A s G HA. pose proof (g_g _ _ G) as Gg. destruct Gg. constructor; auto.
    - intros p c Hc. destruct (gb_ch p c Hc) as [H1 H2]. split; auto. unfold rC. destruct (C c) eqn:Ec.
      + assert (Hp : In p (pars s c)) by (apply gb_sym; auto). rewrite (g_Cp _ _ G c p Ec Hp). auto.
      + pose proof (HB p). destruct (C p); lia.
    - intros x p Hp. specialize (gb_pars x p Hp). unfold rC. destruct (C x) eqn:Ex.
      + rewrite (g_Cp _ _ G x p Ex Hp). auto.
      + destruct (C p); lia.
  Qed.

  Lemma rC_low : forall (A : id -> Prop) p x, (forall x, C x = true -> A x) -> (forall x, r x <= r p -> A x) -> rC x <= rC p -> A x.
  Proof.
    intros A p x H1 H2 L. unfold rC in L. destruct (C x) eqn:Ex; auto. destruct (C p); [pose proof (HB p); lia|]. apply H2. lia.
  Qed.

  Lemma rC_high : forall s n x c, safe -> C n = false -> rC n <= rC x -> In c (kids s x) -> In c (chs s x).
  Proof.
    intros s n x c HW Cn L Hc. unfold rC in L. rewrite Cn in L. destruct (C x) eqn:Ex; [pose proof (HB x); lia|].
    unfold chs. destruct (W x) eqn:Wx; auto. rewrite (HW x Wx) in Ex. discriminate.
  Qed.

  Lemma paths_chs : forall s ch l, (forall x c, In c (chs s x) <-> In c (ch x)) -> (paths (chs s) root l <-> paths ch root l).
  Proof. intros. apply paths_same. auto. Qed.

  Lemma gedge_remove : forall A s n p (Q : unit -> ft -> Prop), safe -> gst A s -> (forall x, r x <= r p -> A x) ->
    D n = true -> C n = false -> ~ In p (sp n) -> In n (kids s p) -> (forall x, A x -> x <> n) ->
    (forall s', gst A s' -> edited s s' p (remove1 n (kids s p)) -> Q tt s') ->
    fwp (send_remove_tree n p ;; children_remove p n) Q s.
  Proof.
    intros A s n p Q HW G HA Dn Cn Hs Hn HA' HQ. pose proof (g_g _ _ G) as Gg.
    apply fwp_bind. set (ch' := fun x => if String.eqb x p then remove1 n (chs s p) else chs s x).
    assert (NC : forall x, NoDup (chs s x)) by (intros x; unfold chs; destruct (W x); [apply remove1_NoDup|]; apply G).
    eapply fwp_mono; [apply (send_removed rC root A (chs s) ch' s n p); auto|].
    - apply rC_base; auto. apply G.
    - intros x. apply rC_low; auto. apply G.
    - apply G.
    - intros x c. apply rC_high; auto.
    - apply chs_other; auto. apply D_x0; auto.
    - intros x c. unfold ch'. deq x p; [|tauto]. subst x. rewrite remove1_iff by auto. tauto.
    - intros st m <-. apply (e_gone _ _ _ _ _ _ EV). auto.
    - intros ? s1 [L K]. unfold children_remove. apply fwp_bind.
      destruct (disp_entry s p (kids_disp _ _ _ Hn)) as (e & Ee & Ep & Ek).
      apply (fwp_node p e); [rewrite (lk_nodes _ _ L); auto|]. rewrite Ek, (proj2 (mem_In _ _) Hn).
      apply (fwp_upd p e); [rewrite (lk_nodes _ _ L); auto|].
      set (s2 := set_fnodes (dset p (mkF (fpar e) (remove1 n (fchi e))) (fnodes s1)) s1).
      assert (E : edited s s2 p (remove1 n (kids s p))).
      { constructor.
        - intros x. unfold s2. rewrite disp_set, (like_disp _ _ _ L). deq x p; simpl; auto. subst. symmetry. eapply kids_disp; eauto.
        - intros x. unfold s2. rewrite pars_set, (like_pars _ _ _ L). deq x p; simpl; auto. subst. auto.
        - intros x. unfold s2. rewrite kids_set, (like_kids _ _ _ L). simpl. rewrite Ek. auto.
        - apply L. }
      assert (N2 : forall x, NoDup (kids s2 x)).
      { intros x. rewrite (ed_kids _ _ _ _ E). destruct (String.eqb x p); [apply remove1_NoDup|]; apply G. }
      apply HQ; auto. apply (gst_edited A s _ p n _ G E); auto.
      + apply L.
      + apply L.
      + simpl. apply dset_NoDup. rewrite (lk_nodes _ _ L). apply G.
      + apply remove1_NoDup. apply G.
      + intros c Hc. rewrite remove1_iff by apply G. tauto.
      + intros H. exfalso. apply remove1_iff in H; [tauto|apply G].
      + intros H. exfalso. apply remove1_iff in H; [tauto|apply G].
      + eapply knows_sent; [|eapply knows_iff; [|apply K]]; [auto|]. intros l. symmetry. apply paths_chs. intros x c.
        rewrite chs_In by auto. rewrite (ed_kids _ _ _ _ E). unfold ch'. deq x p.
        * subst x. rewrite !remove1_iff by (auto; apply G). rewrite chs_In by apply G. tauto.
        * rewrite chs_In by apply G. tauto.
  Qed.

  Lemma gedge_add : forall A s n p (Q : unit -> ft -> Prop), safe -> gst A s -> (forall x, r x <= r p -> A x) ->
    is_displayed s p = true -> r p < r n -> D n = true -> C n = false ->
    ~ In n (kids s p) -> (forall x, A x -> x <> n) ->
    (ear_one -> forall q, ~ In n (kids s q)) ->
    (forall s', gst A s' -> edited s s' p (kids s p ++ [n]) -> Q tt s') ->
    fwp (upd_f p (fun e => mkF (fpar e) (fchi e ++ [n])) ;; send_add_tree n p) Q s.
  Proof.
    intros A s n p Q HW G HA Dp Rp Dn Cn Hn HA' HO HQ. pose proof (g_g _ _ G) as Gg. pose proof (g_full _ _ G n Dn) as Sn.
    destruct (disp_entry s p Dp) as (e & Ee & Ep & Ek).
    apply fwp_bind. apply (fwp_upd p e); auto. cbn beta.
    set (s1 := set_fnodes (dset p (mkF (fpar e) (fchi e ++ [n])) (fnodes s)) s).
    assert (D1 : forall x, is_displayed s1 x = is_displayed s x).
    { intros x. unfold s1. rewrite disp_set. deq x p; simpl; auto. subst. auto. }
    assert (P1 : forall x, pars s1 x = pars s x).
    { intros x. unfold s1. rewrite pars_set. deq x p; simpl; auto. subst. auto. }
    assert (K1 : forall x, kids s1 x = if String.eqb x p then kids s p ++ [n] else kids s x).
    { intros x. unfold s1. rewrite kids_set. simpl. rewrite Ek. auto. }
    assert (N1 : forall x, NoDup (kids s1 x)).
    { intros x. rewrite K1. destruct (String.eqb x p); [|apply G]. apply NoDup_snoc; auto. apply G. }
    assert (CH : forall x c, In c (chs s1 x) <-> In c (chs s x) \/ (x = p /\ c = n)).
    { intros x c. rewrite !chs_In by (auto; apply G). rewrite K1. deq x p.
      - subst x. rewrite in_app_iff. simpl. pose proof (D_x0 n Dn) as Nx. intuition congruence.
      - intuition. }
    assert (NR : In n (chs s p) -> False) by (intros H; apply chs_In in H; [tauto|apply G]).
    pose proof (rC_base A s G (g_CA _ _ G)) as Gr.
    assert (Nr : forall a c, In c (chs s1 a) -> rC a < rC c).
    { intros a c Hc. apply CH in Hc. destruct Hc as [Hc|[-> ->]]; [apply (gb_ch _ _ _ _ _ Gr); auto|].
      unfold rC. rewrite Cn. destruct (C p); lia. }
    eapply fwp_mono; [apply (send_added rC root A (chs s1) (chs s) s1 n p); auto|].
    - destruct Gr. constructor; auto.
      + rewrite D1. auto.
      + rewrite P1. auto.
      + intros x c Hc. apply gb_sub in Hc. rewrite K1. deq x p; auto. subst. apply in_app_iff. auto.
      + intros x c. rewrite D1. auto.
      + intros x. rewrite P1. auto.
      + intros x c. rewrite P1. auto.
      + intros x c Hx. rewrite P1. auto.
    - intros x. apply rC_low; auto. apply G.
    - rewrite D1. auto.
    - intros x c. apply rC_high; auto.
    - intros x Hx Hr. rewrite D1 in Hx. apply (e_res _ _ _ _ _ _ EV). destruct (g_disp _ _ G x Hx) as [->|]; auto. exfalso.
      assert (Nn : n <> root) by (apply (D_root ord T D root fl r EV); auto). destruct Hr as [Hr|Hr]; [auto|].
      pose proof (e_rroot _ _ _ _ _ _ EV n Nn). unfold rC in Hr. rewrite Cn in Hr. destruct (C root); lia.
    - rewrite K1, eqb_refl, in_app_iff. simpl. auto.
    - apply CH. auto.
    - intros x c. rewrite CH. split; [intros H; split; auto; intros [-> ->]; auto|]. intros [[H|H] H2]; tauto.
    - intros Ho. pose proof (gb_one _ _ _ _ _ Gg Ho) as Lo. specialize (HO Ho).
      assert (Fc : forall q, ~ In n (chs s q)) by (intros q Hq; apply chs_other in Hq; [destruct (HO _ Hq)|apply D_x0; auto]).
      intros x a c H1 H2. apply CH in H1. apply CH in H2. destruct H1 as [H1|[-> ->]], H2 as [H2|[-> E2]]; [apply (Lo x); auto|subst; destruct (Fc _ H1)|destruct (Fc _ H2)|auto].
    - intros [] s' [L K].
      assert (E : edited s s' p (kids s p ++ [n])).
      { constructor.
        - intros x. rewrite (like_disp _ _ _ L). auto.
        - intros x. rewrite (like_pars _ _ _ L). auto.
        - intros x. rewrite (like_kids _ _ _ L). auto.
        - rewrite (lk_filters _ _ L). auto. }
      apply HQ; auto. apply (gst_edited A s _ p n _ G E); auto.
      + rewrite (lk_root _ _ L). auto.
      + rewrite (lk_flat _ _ L). auto.
      + rewrite (lk_nodes _ _ L). apply dset_NoDup. apply G.
      + apply NoDup_snoc; auto. apply G.
      + intros c Hc. rewrite in_app_iff. simpl. split; [|auto]. intros [H|[H|[]]]; auto. congruence.
      + intros _ Ho q Hq. destruct (HO Ho q Hq).
      + eapply knows_iff; [|apply K]. intros l. symmetry. apply paths_chs. intros x c. unfold chs. rewrite (like_kids _ _ _ L). tauto.
  Qed.

  (** *** Going up *)
  Definition fresh (s : ft) (n : id) : Prop := forall a, vup a n -> D a = true -> pars s a = sp a.

  Record moves (s s' : ft) : Prop := {
    mv_filters : filters s' = filters s;
    mv_disp : forall x, is_displayed s' x = is_displayed s x;
    mv_pars : forall x, pars s' x = pars s x \/ (pars s' x = sp x /\ D x = true)
  }.
  Lemma mv_refl : forall s, moves s s.
  Proof. intros s. constructor; auto. Qed.
  Lemma mv_trans : forall a b c, moves a b -> moves b c -> moves a c.
  Proof.
    intros a b c [F1 D1 P1] [F2 D2 P2]. constructor; [congruence|congruence|].
    intros x. destruct (P2 x) as [->|]; auto.
  Qed.
  Lemma mv_fresh : forall s s' n, moves s s' -> fresh s n -> fresh s' n.
  Proof. intros s s' n M H a Ha Da. destruct (mv_pars _ _ M a) as [->|[-> _]]; auto. Qed.
  Lemma mv_like : forall s s', like s s' -> moves s s'.
  Proof. intros s s' L. constructor; [apply L|intros; apply like_disp; auto|intros; left; apply like_pars; auto]. Qed.

  Record still (k : nat) (s s' : ft) : Prop := {
    st_pars : forall x, k <= r x -> pars s' x = pars s x;
    st_in : forall x p, k <= r x -> (In x (kids s' p) <-> In x (kids s p))
  }.
  Lemma st_refl : forall k s, still k s s.
  Proof. intros. constructor; intros; auto. tauto. Qed.
  Lemma st_trans : forall k a b c, still k a b -> still k b c -> still k a c.
  Proof.
    intros k a b c [] []. constructor; intros.
    - rewrite st_pars1, st_pars0 by auto. auto.
    - rewrite st_in1, st_in0 by auto. tauto.
  Qed.
  Lemma st_le : forall k j s s', still k s s' -> k <= j -> still j s s'.
  Proof. intros k j s s' [] L. constructor; intros; [apply st_pars0|apply st_in0]; lia. Qed.
  Lemma st_like : forall k s s', like s s' -> still k s s'.
  Proof. intros k s s' L. constructor; intros; rewrite ?(like_pars _ _ _ L), ?(like_kids _ _ _ L); tauto. Qed.

  Record ugo (A : id -> Prop) (n : id) (s s' : ft) : Prop := {
    u_gst : gst A s';
    u_moves : moves s s';
    u_still : still (S (r n)) s s';
    u_fresh : D n = true -> fresh s' n
  }.

  Lemma fresh_root : forall s, fresh s root.
  Proof.
    intros s. assert (H : forall a x, vup a x -> x = root -> a = root).
    { intros a x V. induction V; intros ->; auto. apply IHV. apply (sp_cases ord T D root fl r EV) in H.
      destruct H as [|[_ H]]; auto. rewrite (e_top _ _ _ _ _ _ EV) in H. destruct H. }
    intros a Ha Da. rewrite (H a root Ha eq_refl) in Da. rewrite (e_root _ _ _ _ _ _ EV) in Da. discriminate.
  Qed.

  Lemma np_full : forall A s n, gst A s -> node_parents_of T D n s = sp n.
  Proof.
    intros A s n G. unfold node_parents_of, FtFront.sp. rewrite (gb_root _ _ _ _ _ (g_g _ _ G)), (g_flat _ _ G). destruct fl; auto.
    assert (E : filter (fun p => is_displayed s p && D p) (get_parents T n) = filter D (get_parents T n)).
    { apply filter_ext_in'. intros p Hp. destruct (D p) eqn:E; [rewrite (g_full _ _ G p E); auto|apply andb_false_r]. }
    rewrite E. destruct (filter D (get_parents T n)); auto.
  Qed.

  Lemma sp_disp : forall A s n p, gst A s -> In p (sp n) -> is_displayed s p = true.
  Proof.
    intros A s n p G Hp. apply (sp_cases ord T D root fl r EV) in Hp. destruct Hp as [->|[H1 H2]]; [|apply (g_full _ _ G); auto].
    apply (gb_disp _ _ _ _ _ (g_g _ _ G)).
  Qed.

  Section Shown.
    Variable rec : id -> direction -> FM unit.
    Variable n : id.
    Variable A : id -> Prop.
    Hypothesis HA : forall x, r x <= r n -> A x.
    Hypothesis HD : D n = true.
    Hypothesis HC : okat n.
    Hypothesis Hrec : forall (A : id -> Prop) p s, r p < r n -> okat p -> (forall x, r x <= r p -> A x) -> gst A s -> fwp (rec p Up) (fun _ s' => ugo A p s s') s.
    Let A' (x : id) : Prop := A x /\ (x <> n \/ C n = true).
    Let Hn : n <> root. Proof. apply (D_root ord T D root fl r EV); auto. Qed.
    Variable s0 : ft.

    Record gmid (X F : id -> Prop) (s : ft) : Prop := {
      gm_gst : gst A' s;
      gm_moves : moves s0 s;
      gm_still : still (S (r n)) s0 s;
      gm_pars : pars s n = sp n;
      gm_edges : forall p, In n (kids s p) <-> X p;
      gm_fresh : forall p, F p -> fresh s p
    }.

    Lemma gmid_iff : forall (X Y F F' : id -> Prop) s, gmid X F s -> (forall p, X p <-> Y p) -> (forall p, F' p -> F p) -> gmid Y F' s.
    Proof. intros X Y F F' s [] H H'. constructor; auto. intros p. rewrite gm_edges0. auto. Qed.

    Lemma gmid_bump : forall X F s, gmid X F s -> gmid X F (bump s).
    Proof.
      intros X F s []. constructor; auto.
      - apply gst_bump; auto.
      - destruct gm_moves0. constructor; auto.
      - destruct gm_still0. constructor; auto.
    Qed.

    Lemma gmid_rec : forall X F p s, gmid X F s -> r p < r n -> (p = root \/ D p = true) -> okat p ->
      fwp (rec p Up) (fun _ s' => gmid X (fun q => F q \/ q = p) s') s.
    Proof.
      intros X F p s M L Dp HCp. destruct M. eapply fwp_mono; [apply (Hrec A' p s L)|]; auto.
      - intros x Hx. split; [apply HA; lia|]. left. intros ->. lia.
      - intros ? s' []. constructor; auto.
        + eapply mv_trans; eauto.
        + eapply st_trans; [eassumption|]. eapply st_le; [eassumption|lia].
        + rewrite (st_pars _ _ _ u_still0) by lia. auto.
        + intros q. rewrite (st_in _ _ _ u_still0) by lia. auto.
        + intros q [Hq| ->]; [eapply mv_fresh; eauto|]. destruct Dp as [->|Dp]; [apply fresh_root|auto].
    Qed.

    Lemma gmid_edited : forall (X Y F : id -> Prop) s s' p ks, gmid X F s -> gst A' s' -> edited s s' p ks ->
      (forall c, c <> n -> (In c ks <-> In c (kids s p))) ->
      (forall q, Y q <-> (if String.eqb q p then In n ks else X q)) -> gmid Y F s'.
    Proof.
      intros X Y F s s' p ks M G E Hk HY. destruct M. destruct E as [E1 E2 E3 E4]. constructor; auto.
      - destruct gm_moves0. constructor; [congruence| |]; intros x; rewrite ?E1, ?E2; auto.
      - destruct gm_still0. constructor; intros x; rewrite ?E2, ?E3; auto.
        intros q Hx. rewrite E3. deq q p; auto. subst q. rewrite Hk; auto. intros ->. lia.
      - rewrite E2. auto.
      - intros q. rewrite E3, HY. destruct (String.eqb q p); [tauto|auto].
      - intros q Hq a Ha Da. rewrite E2. apply (gm_fresh0 q); auto.
    Qed.

    Lemma gmid_remove : forall (X F : id -> Prop) p s, C n = false -> gmid X F s -> r p < r n -> ~ In p (sp n) -> X p ->
      fwp (send_remove_tree n p ;; children_remove p n) (fun _ s' => gmid (fun q => X q /\ q <> p) F s') s.
    Proof.
      intros X F p s Cn M L Hs HX. assert (HS : safe) by (destruct HC as [[]|]; [congruence|auto]). assert (Hk : In n (kids s p)) by (apply (gm_edges _ _ _ M); auto).
      pose proof (gm_gst _ _ _ M) as G.
      apply (gedge_remove A'); auto.
      - intros x Hx. split; [apply HA; lia|]. left. intros ->. lia.
      - intros x [_ [H|H]]; [auto|congruence].
      - intros s' G' E. apply (gmid_edited X _ F s s' p _ M G' E); auto.
        + intros c Hc. rewrite remove1_iff by apply G. tauto.
        + intros q. deq q p; [|tauto]. subst. rewrite remove1_iff by apply G. tauto.
    Qed.

    Lemma gmid_add : forall (X F : id -> Prop) p s, C n = false -> gmid X F s -> r p < r n -> ~ X p -> is_displayed s p = true ->
      (ear_one -> forall q, ~ X q) ->
      fwp (upd_f p (fun e => mkF (fpar e) (fchi e ++ [n])) ;; send_add_tree n p) (fun _ s' => gmid (fun q => X q \/ q = p) F s') s.
    Proof.
      intros X F p s Cn M L HX Dp HO. assert (HS : safe) by (destruct HC as [[]|]; [congruence|auto]). assert (Hk : ~ In n (kids s p)) by (rewrite (gm_edges _ _ _ M); auto).
      pose proof (gm_gst _ _ _ M) as G.
      apply (gedge_add A'); auto.
      - intros x Hx. split; [apply HA; lia|]. left. intros ->. lia.
      - intros x [_ [H|H]]; [auto|congruence].
      - intros Ho q Hq. apply (HO Ho q). apply (gm_edges _ _ _ M). auto.
      - intros s' G' E. apply (gmid_edited X _ F s s' p _ M G' E); auto.
        + intros c Hc. rewrite in_app_iff. simpl. split; [|auto]. intros [H|[H|[]]]; auto. congruence.
        + intros q. deq q p; [|tauto]. rewrite in_app_iff. simpl. split; auto.
    Qed.

    Lemma gfront : forall dir, gst A s0 -> goes_up dir = true ->
      (goes_down dir = true -> forall x, A x) ->
      fwp (update_shown ord T D rec n dir false) (fun _ s' => ugo A n s0 s') s0.
    Proof.
      intros dir G Hup Hdn. unfold update_shown. pose proof (g_full _ _ G n HD) as Dn.
      assert (Ro : forall k l x, In x (ord k l) <-> In x l).
      { intros k l x. split; apply Permutation_in; [|apply Permutation_sym]; apply (e_ord _ _ _ _ _ _ EV). }
      assert (No : forall k l, NoDup l -> NoDup (ord k l)).
      { intros k l. apply Permutation_NoDup. apply Permutation_sym. apply (e_ord _ _ _ _ _ _ EV). }
      destruct (disp_entry s0 n Dn) as (e1 & Ee1 & Ep1 & Ek1).
      apply fwp_bind. apply (fwp_node n e1); auto. apply fwp_bind. apply fwp_get. cbv zeta.
      apply fwp_bind. apply fwp_ret.
      apply fwp_bind. apply (fwp_node n e1); auto. apply fwp_bind. apply fwp_get.
      rewrite (np_full A s0 n G).
      rewrite (filter_id (is_displayed s0) (sp n)) by (intros p Hp; eapply sp_disp; eauto). apply fwp_bind.
      apply (fwp_upd n e1); auto. cbn beta.
      set (s1 := set_fnodes (dset n (mkF (sp n) (fchi e1)) (fnodes s0)) s0).
      replace (if (match dir with Down => true | _ => false end) && mem (froot s0) (set_diff (sp n) (fpar e1)) then Both else dir) with dir by (destruct dir; auto; discriminate).
      rewrite Hup. rewrite Ep1.
      assert (X1 : forall x, is_displayed s1 x = is_displayed s0 x).
      { intros x. unfold s1. rewrite disp_set. deq x n; simpl; auto. subst. auto. }
      assert (X2 : forall x, pars s1 x = if String.eqb x n then sp n else pars s0 x) by (intros; apply pars_set).
      assert (X3 : forall x, kids s1 x = kids s0 x).
      { intros x. unfold s1. rewrite kids_set. deq x n; simpl; auto. subst. auto. }
      set (cur := pars s0 n).
      set (remove_from := set_diff cur (sp n)). set (add_to := set_diff (sp n) cur). set (stay := set_diff (sp n) add_to).
      assert (Hcur : forall p, In p cur -> r p < r n) by (intros p Hp; apply (gb_pars _ _ _ _ _ (g_g _ _ G)); auto).
      assert (Pc : forall p, In p cur -> p = root \/ D p = true).
      { intros p Hp. apply (g_disp _ _ G). apply (gb_sym _ _ _ _ _ (g_g _ _ G)) in Hp; auto. apply (gb_sub _ _ _ _ _ (g_g _ _ G)) in Hp. eapply kids_disp; eauto. }
      assert (CF : C n = true -> cur = sp n) by (intros Cn; apply (g_Cf _ _ G); auto).
      assert (Sf : forall p, In p (sp n) -> okat p).
      { intros p Hp. destruct HC as [[Cn _]|]; [|right; auto]. left. split; [apply (g_Cp _ _ G n p Cn); fold cur; rewrite CF; auto|].
        apply (sp_cases ord T D root fl r EV) in Hp. tauto. }
      assert (Ps : forall p, In p (sp n) -> p = root \/ D p = true).
      { intros p Hp. apply (sp_cases ord T D root fl r EV) in Hp. tauto. }
      assert (M0 : gmid (fun p => In p cur) (fun _ => False) s1).
      { pose proof (g_g _ _ G) as Gg.
        assert (CE : forall x c, In c (chs s1 x) <-> In c (chs s0 x)) by (intros x c; unfold chs; rewrite X3; tauto).
        constructor.
        - constructor.
          + constructor.
            * apply Gg.
            * rewrite X1. apply Gg.
            * rewrite X2. deq root n; [subst; exfalso; apply Hn; auto|]. apply Gg.
            * intros p c Hc. apply CE in Hc. rewrite X3. apply (gb_sub _ _ _ _ _ Gg). auto.
            * intros p c Hc. apply CE in Hc. rewrite X1. apply (gb_ch _ _ _ _ _ Gg). auto.
            * intros x. rewrite X2. deq x n; [apply (sp_NoDup ord T D root fl r EV)|]. apply Gg.
            * intros x p. rewrite X2. deq x n; [subst; apply (sp_rank ord T D root fl r EV); auto|]. apply (gb_pars _ _ _ _ _ Gg).
            * intros x p [Hx Nx]. rewrite X2, CE. deq x n; [|apply (gb_sym _ _ _ _ _ Gg); auto]. subst x.
              destruct Nx as [|Cn]; [contradiction|]. rewrite <- (g_Cf _ _ G) by auto. apply (gb_sym _ _ _ _ _ Gg); auto.
            * eapply knows_sent; [|eapply knows_iff; [|apply (gb_knows _ _ _ _ _ Gg)]]; [auto|]. intros l. apply paths_same. intros. symmetry. apply CE.
            * intros Ho x p1 q1 H1 H2. apply CE in H1. apply CE in H2. apply (gb_one _ _ _ _ _ Gg Ho x); auto.
          + simpl. apply dset_NoDup. apply G.
          + apply G.
          + intros x. rewrite X3. apply G.
          + intros x. rewrite X1. apply G.
          + intros x. rewrite X1. apply G.
          + intros x p. rewrite X2. deq x n; [subst; auto|apply G].
          + intros x Hx. split; [apply (g_CA _ _ G); auto|]. destruct (id_dec x n) as [->|]; auto.
          + intros x p Hx. rewrite X2. deq x n; [|apply (g_Cp _ _ G); auto]. subst x. rewrite <- (g_Cf _ _ G) by auto. apply (g_Cp _ _ G). auto.
          + intros x Hx. rewrite X2. deq x n; [congruence|]. apply (g_Cf _ _ G). auto.
        - constructor; auto. intros x. rewrite X2. deq x n; [subst|]; auto.
        - constructor; intros x; rewrite ?X2; [intros Hx; deq x n; [subst; lia|auto]|]. intros p _. rewrite X3. tauto.
        - rewrite X2, eqb_refl. auto.
        - intros p. rewrite X3. unfold cur. rewrite (gb_sym _ _ _ _ _ Gg) by (apply HA; auto). symmetry. apply chs_other. apply D_x0. auto.
        - intros p []. }
      clearbody s1. clear X1 X2 X3.
      apply fwp_bind. unfold iterate_set at 1.
      eapply fwp_mono; [apply (fwp_for _ (fun done s' => gmid (fun q => In q cur /\ ~ In q done) (fun _ => False) s'))|].
      { eapply gmid_iff; [apply gmid_bump, M0| |]; simpl; tauto. }
      { intros done p rest s2 El M1.
        assert (Hp : In p remove_from) by (apply (Ro (tick s1)); rewrite El; apply in_app_iff; right; left; auto).
        assert (ND : ~ In p done).
        { pose proof (No (tick s1) _ (set_diff_NoDup cur (sp n))) as N. fold remove_from in N. rewrite El in N.
          intros H. apply (NoDup_app_disj _ _ p N H). left. auto. }
        apply set_diff_In in Hp. destruct Hp as [Hc Hs].
        assert (Cn : C n = false) by (apply Bool.not_true_is_false; intros X; rewrite CF in Hc by auto; tauto).
        pose proof (gmid_remove _ _ p s2 Cn M1 (Hcur p Hc) Hs) as R1. specialize (R1 ltac:(split; auto)).
        apply fwp_bind. unfold fwp, fbind in R1. unfold fwp at 1. destruct (send_remove_tree n p s2) as [s2' [[]| |]]; try tauto.
        apply fwp_bind. unfold fwp at 1. destruct (children_remove p n s2') as [s2'' [[]| |]]; try tauto.
        eapply fwp_mono; [apply gmid_rec; [apply R1|auto|auto|destruct HC as [[]|]; [congruence|right; auto]]|]. intros ? s3 M3. eapply gmid_iff; [apply M3| |tauto].
        intros q. cbn beta. rewrite in_app_iff. simpl. intuition. }
      intros ? s2 M1. cbn beta in M1. clear M0.
      assert (M2 : gmid (fun q => In q cur /\ In q (sp n)) (fun _ => False) s2).
      { eapply gmid_iff; [apply M1| |tauto]. intros q. cbn beta. rewrite Ro. unfold remove_from. rewrite set_diff_In.
        destruct (In_dec_id q (sp n)); tauto. }
      clear M1. apply fwp_bind. unfold iterate_set at 1.
      eapply fwp_mono; [apply (fwp_for _ (fun done s' => gmid (fun q => (In q cur /\ In q (sp n)) \/ In q done) (fun q => In q done) s'))|].
      { eapply gmid_iff; [apply gmid_bump, M2| |]; simpl; tauto. }
      { intros done p rest s3 El M3.
        assert (Hp : In p add_to) by (apply (Ro (tick s2)); rewrite El; apply in_app_iff; right; left; auto).
        assert (ND : ~ In p done).
        { pose proof (No (tick s2) _ (set_diff_NoDup (sp n) cur)) as N. fold add_to in N. rewrite El in N.
          intros H. apply (NoDup_app_disj _ _ p N H). left. auto. }
        apply set_diff_In in Hp. destruct Hp as [Hs Hc]. pose proof (sp_rank ord T D root fl r EV n p Hn Hs) as L.
        apply fwp_bind. apply fwp_get. pose proof (sp_disp _ _ n p (gm_gst _ _ _ M3) Hs) as Dp. rewrite Dp.
        assert (Cn : C n = false) by (apply Bool.not_true_is_false; intros X; rewrite CF in Hc by auto; tauto).
        pose proof (gmid_add _ _ p s3 Cn M3 L) as R1. specialize (R1 ltac:(tauto) Dp).
        assert (R0 : ear_one -> forall q, ~ (In q cur /\ In q (sp n) \/ In q done)).
        { intros Ho q Hq. assert (Hsq : In q (sp n)).
          { destruct Hq as [[_ Hq]|Hq]; auto. assert (Hq' : In q add_to) by (apply (Ro (tick s2)); rewrite El; apply in_app_iff; auto). apply set_diff_In in Hq'. tauto. }
          rewrite (sp_one ord T D root fl r EV Ho n q p Hsq Hs) in Hq. tauto. }
        specialize (R1 R0).
        apply fwp_bind. unfold fwp, fbind in R1. unfold fwp at 1. destruct (upd_f p _ s3) as [s3' [[]| |]]; try tauto.
        apply fwp_bind. unfold fwp at 1. destruct (send_add_tree n p s3') as [s3'' [[]| |]]; try tauto.
        eapply fwp_mono; [apply gmid_rec; [apply R1|auto|auto|auto]|]. intros ? s4 M4. eapply gmid_iff; [apply M4| |].
        - intros q. cbn beta. rewrite in_app_iff. simpl. intuition.
        - intros q. cbn beta. rewrite in_app_iff. simpl. intuition. }
      intros ? s3 M3. cbn beta in M3. clear M2.
      assert (M4 : gmid (fun q => In q (sp n)) (fun q => In q add_to) s3).
      { eapply gmid_iff; [apply M3| |].
        - intros q. cbn beta. rewrite Ro. unfold add_to. rewrite set_diff_In. destruct (In_dec_id q cur); tauto.
        - intros q Hq. cbn beta. rewrite Ro. auto. }
      clear M3. apply fwp_bind.
      eapply fwp_mono with (Q := fun _ s' => gmid (fun q => In q (sp n)) (fun q => In q (sp n)) s').
      { unfold iterate_set.
        eapply fwp_mono; [apply (fwp_for _ (fun done s' => gmid (fun q => In q (sp n)) (fun q => In q add_to \/ In q done) s'))|].
        - eapply gmid_iff; [apply gmid_bump, M4| |]; simpl; tauto.
        - intros done p rest s4 El M5.
          assert (Hp : In p stay) by (apply (Ro (tick s3)); rewrite El; apply in_app_iff; right; left; auto).
          apply set_diff_In in Hp. destruct Hp as [Hp _].
          eapply fwp_mono; [apply gmid_rec; [apply M5|apply (sp_rank ord T D root fl r EV); auto|auto|auto]|].
          intros ? s5 M6. eapply gmid_iff; [apply M6|tauto|]. intros q. cbn beta. rewrite in_app_iff. simpl. intuition.
        - intros ? s4 M5. cbn beta in M5. eapply gmid_iff; [apply M5|tauto|]. intros q Hq. cbn beta in *. rewrite Ro. unfold stay. rewrite set_diff_In.
          destruct (In_dec_id q add_to); tauto. }
      intros ? s4 M5. clear M4.
      assert (FP : ugo A n s0 s4).
      { destruct M5. constructor; auto.
        - destruct gm_gst0. constructor; auto.
          + destruct g_g0. constructor; auto. intros x p Hx. destruct (id_dec x n) as [->|N].
            * rewrite gm_pars0, <- gm_edges0. symmetry. apply chs_other. apply D_x0. auto.
            * apply gb_sym. split; auto.
          + intros x Hx. apply g_CA0 in Hx. apply Hx.
        - intros _ z Hz Dz. inversion Hz; subst; auto. eapply gm_fresh0; eauto. }
      clear M5. apply fwp_bind.
      eapply fwp_mono with (Q := fun _ s' => ugo A n s0 s').
      { eapply fwp_mono; [apply (send_modified r root A (chs s4) s4 n); auto|].
        - apply FP.
        - apply (g_full _ _ (u_gst _ _ _ _ FP)). auto.
        - apply (e_res _ _ _ _ _ _ EV); auto.
        - intros ? s5 (L & _ & _ & G5 & _). destruct FP. constructor.
          + apply (gst_like A s4); auto. apply G5.
          + eapply mv_trans; [eassumption|]. apply mv_like; auto.
          + eapply st_trans; [eassumption|]. apply st_like; auto.
          + intros Hd. eapply mv_fresh; [apply mv_like; eauto|auto]. }
      intros ? s5 FP5. pose proof (u_gst _ _ _ _ FP5) as G5. apply fwp_bind.
      destruct (disp_entry s5 n) as (e & Ee & Ep & Ek); [apply (g_full _ _ G5); auto|].
      apply (fwp_node n e); auto. apply fwp_bind. apply fwp_get. destruct (goes_down dir) eqn:Gd; [|apply fwp_ret; auto].
      eapply fwp_mono; [apply (fwp_for _ (fun _ s' => s' = s5))|intros ? ? ->; auto]; auto.
      intros done c rest s6 El ->. apply fwp_bind. apply (fwp_node n e); auto. rewrite Ek.
      assert (Hc : In c (node_children_of T D n s5)) by (rewrite El; apply in_app_iff; right; left; auto).
      unfold node_children_of in Hc. rewrite (g_flat _ _ G5) in Hc. destruct fl eqn:Efl; [destruct Hc|].
      apply filter_In in Hc. destruct Hc as [Hc Dc]. apply Hsym in Hc; auto.
      assert (Hs : In n (sp c)).
      { unfold FtFront.sp. rewrite Efl. assert (Hf : In n (filter D (get_parents T c))) by (apply filter_In; auto).
        destruct (filter D (get_parents T c)); [destruct Hf|auto]. }
      destruct (g_more _ _ G5 c n Dc Hs) as [|Hp]; [contradiction|].
      apply (gb_sym _ _ _ _ _ (g_g _ _ G5)) in Hp; [|apply Hdn; auto].
      apply (gb_sub _ _ _ _ _ (g_g _ _ G5)) in Hp. rewrite (proj2 (mem_In _ _) Hp). apply fwp_ret. auto.
    Qed.
  End Shown.

  Lemma gup_parents : forall (rec : id -> direction -> FM unit) (A : id -> Prop) n s, (forall (A : id -> Prop) p s, r p < r n -> okat p -> (forall x, r x <= r p -> A x) -> gst A s ->
      fwp (rec p Up) (fun _ s' => ugo A p s s') s) ->
    safe -> (forall x, r x <= r n -> A x) -> gst A s -> D n = false ->
    fwp (ffor (get_parents T n) (fun p => rec p Up)) (fun _ s' => ugo A n s s') s.
  Proof.
    intros rec A n s Hrec Sf HA G Dn.
    eapply fwp_mono; [apply (fwp_for _ (fun done s' => gst A s' /\ moves s s' /\ still (S (r n)) s s'))|].
    - split; auto. split; [apply mv_refl|apply st_refl].
    - intros done p rest s1 El (G1 & M1 & S1).
      assert (Hp : In p (get_parents T n)) by (rewrite El; apply in_app_iff; right; left; auto).
      pose proof (e_rank _ _ _ _ _ _ EV n p Hp) as L.
      eapply fwp_mono; [apply (Hrec A p s1 L); auto|].
      { right. auto. }
      { intros x Hx. apply HA. lia. }
      intros ? s' []. split; auto. split; [eapply mv_trans; eauto|]. eapply st_trans; [apply S1|]. eapply st_le; [eauto|lia].
    - intros ? s1 (G1 & M1 & S1). constructor; auto. congruence.
  Qed.

  Lemma ugo_self : forall A n s, gst A s -> D n = false -> ugo A n s s.
  Proof. intros A n s G Dn. constructor; auto; [apply mv_refl|apply st_refl|congruence]. Qed.

  Lemma full_disp : forall A s n, gst A s -> n <> root -> is_displayed s n = D n.
  Proof.
    intros A s n G N. destruct (D n) eqn:Dn; [apply (g_full _ _ G); auto|]. destruct (is_displayed s n) eqn:Sn; auto.
    destruct (g_disp _ _ G n Sn); congruence.
  Qed.

  Lemma gup : forall fuel (A : id -> Prop) n s, r n < fuel -> okat n -> (forall x, r x <= r n -> A x) -> gst A s ->
    fwp (update_node fuel n Up) (fun _ s' => ugo A n s s') s.
  Proof.
    induction fuel as [|fuel IH]; intros A n s Hf Sf HA G; [lia|].
    change (fwp (update_body ord T D (update_node fuel) n Up) (fun _ s' => ugo A n s s') s).
    assert (Hrec : forall (A : id -> Prop) p s, r p < r n -> okat p -> (forall x, r x <= r p -> A x) -> gst A s ->
      fwp (update_node fuel p Up) (fun _ s' => ugo A p s s') s) by (intros; apply IH; auto; lia).
    unfold update_body. apply fwp_bind. apply fwp_get. rewrite (gb_root _ _ _ _ _ (g_g _ _ G)). deq n root.
    { subst n. apply fwp_ret. apply ugo_self; auto. apply EV. }
    rewrite (full_disp A s n G E). destruct (D n) eqn:Dn.
    - apply (gfront (update_node fuel) n A); auto. discriminate.
    - destruct (has_node T n); [|apply fwp_ret; apply ugo_self; auto].
      apply gup_parents; auto. destruct Sf as [[_ [|]]|]; [congruence|congruence|auto].
  Qed.

  (** The update after an event, when no node is to appear or to vanish. *)
  Lemma gboth : forall fuel n s, r n < fuel -> safe -> gst (fun _ => True) s ->
    fwp (update_node fuel n Both) (fun _ s' => ugo (fun _ => True) n s s') s.
  Proof.
    intros fuel n s Hf Sf G. destruct fuel as [|fuel]; [lia|].
    change (fwp (update_body ord T D (update_node fuel) n Both) (fun _ s' => ugo (fun _ => True) n s s') s).
    assert (Hrec : forall (A : id -> Prop) p s, r p < r n -> okat p -> (forall x, r x <= r p -> A x) -> gst A s ->
      fwp (update_node fuel p Up) (fun _ s' => ugo A p s s') s) by (intros; apply gup; auto; lia).
    unfold update_body. apply fwp_bind. apply fwp_get. rewrite (gb_root _ _ _ _ _ (g_g _ _ G)). deq n root.
    { subst n. apply fwp_ret. apply ugo_self; auto. apply EV. }
    rewrite (full_disp _ s n G E). destruct (D n) eqn:Dn.
    - apply (gfront (update_node fuel) n (fun _ => True)); auto. right. auto.
    - destruct (has_node T n); [|apply fwp_ret; apply ugo_self; auto].
      apply gup_parents; auto.
  Qed.
End Ghost.
