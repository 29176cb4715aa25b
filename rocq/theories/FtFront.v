(** Views: updates that go up. *)
From Coq Require Import Permutation.
From Verif Require Import Base BaseFacts MainTree MainFacts Filters FTree SpecView FtBase FtWalk FtEdge FtUp.
Open Scope f_scope.

Definition nostale (root : id) (D : id -> bool) (s : ft) : Prop :=
  forall x, is_displayed s x = true -> x = root \/ D x = true.

(** The parents a node should have in the view. *)
Definition sp (T : mtree) (D : id -> bool) (root : id) (fl : bool) (x : id) : list id :=
  if fl then [root] else match filter D (get_parents T x) with [] => [root] | l => l end.

Inductive tanc (T : mtree) (a : id) : id -> Prop :=
| ta_refl : tanc T a a
| ta_step : forall p x, In p (get_parents T x) -> tanc T a p -> tanc T a x.

(** All ancestors of [x] that should be displayed are displayed. *)
Definition closed (T : mtree) (D : id -> bool) (s : ft) (x : id) : Prop :=
  forall a, tanc T a x -> D a = true -> is_displayed s a = true.

Lemma get_parents_gone : forall T x, has_node T x = false -> get_parents T x = [].
Proof. intros T x H. unfold has_node, dmem in H. unfold get_parents. destruct (dget x (nodes T)); [discriminate|auto]. Qed.

Record env {EAR : Ear} (ord : nat -> list id -> list id) (T : mtree) (D : id -> bool) (root : id) (fl : bool) (r : id -> nat) : Prop := {
  e_ord : forall k l, Permutation (ord k l) l;
  e_res : forall x, D x = true -> fine x;
  e_root : D root = false;
  e_top : get_parents T root = [];
  e_ndp : forall x, NoDup (get_parents T x);
  e_rank : forall x p, In p (get_parents T x) -> r p < r x;
  e_rroot : forall x, x <> root -> r root < r x;
  e_gone : forall st n m, (D n = true -> ~ In (last st root) (sp T D root fl n)) -> ear_gone (st ++ n :: m);
  e_one : ear_one -> forall x p q, In p (get_parents T x) -> In q (get_parents T x) -> p = q
}.

Section Front.
  Context {EAR : Ear}.
  Variable ord : nat -> list id -> list id.
  Variable T : mtree.
  Variable D : id -> bool.
  Variable root : id.
  Variable fl : bool.
  Variable r : id -> nat.
  Hypothesis EV : env ord T D root fl r.

  Notation base := (base r root fl).
  Notation nostale := (nostale root D).
  Notation sp := (sp T D root fl).
  Notation tanc := (tanc T).
  Notation closed := (closed T D).
  Notation update_node := (update_node ord T D).
  Notation update_shown := (update_shown ord T D).

  Lemma sp_cases : forall x p, In p (sp x) -> p = root \/ (D p = true /\ In p (get_parents T x)).
  Proof.
    intros x p. unfold sp, FtFront.sp. destruct fl; [intros [->|[]]; auto|].
    destruct (filter D (get_parents T x)) as [|q l] eqn:F; [intros [->|[]]; auto|].
    rewrite <- F. rewrite filter_In. tauto.
  Qed.
  Lemma sp_NoDup : forall x, NoDup (sp x).
  Proof.
    intros x. assert (N1 : NoDup [root]) by (repeat constructor; simpl; tauto). unfold sp, FtFront.sp. destruct fl; auto.
    destruct (filter D (get_parents T x)) as [|q l] eqn:F; auto. rewrite <- F. apply filter_NoDup. apply (e_ndp _ _ _ _ _ _ EV).
  Qed.
  Lemma sp_one : ear_one -> forall x p q, In p (sp x) -> In q (sp x) -> p = q.
  Proof.
    intros Ho x p q. unfold sp, FtFront.sp. destruct fl; [intros [->|[]] [->|[]]; auto|].
    destruct (filter D (get_parents T x)) as [|y l] eqn:F; [intros [->|[]] [->|[]]; auto|].
    rewrite <- F. rewrite !filter_In. intros [H1 _] [H2 _]. eapply (e_one _ _ _ _ _ _ EV); eauto.
  Qed.
  Lemma sp_rank : forall x p, x <> root -> In p (sp x) -> r p < r x.
  Proof. intros x p Hx H. apply sp_cases in H. destruct H as [->|[_ H]]; [apply (e_rroot _ _ _ _ _ _ EV); auto|eapply e_rank; eauto]. Qed.
  Lemma D_root : forall x, D x = true -> x <> root.
  Proof. intros x H ->. rewrite (e_root _ _ _ _ _ _ EV) in H. discriminate. Qed.

  Lemma np_sp : forall A s n, base A s -> (forall p, In p (get_parents T n) -> D p = true -> is_displayed s p = true) ->
    node_parents_of T D n s = sp n.
  Proof.
    intros A s n B H. unfold node_parents_of, sp, FtFront.sp. rewrite (gb_root _ _ _ _ _ (b_g _ _ _ _ _ B)), (b_flat _ _ _ _ _ B). destruct fl; auto.
    assert (E : filter (fun p => is_displayed s p && D p) (get_parents T n) = filter D (get_parents T n)).
    { apply filter_ext_in'. intros p Hp. destruct (D p) eqn:E; [rewrite H; auto|apply andb_false_r]. }
    rewrite E. destruct (filter D (get_parents T n)); auto.
  Qed.

  Record evolves (s s' : ft) : Prop := {
    ev_filters : filters s' = filters s;
    ev_keep : forall x, is_displayed s x = true -> is_displayed s' x = true /\ (pars s' x = pars s x \/ pars s' x = sp x);
    ev_new : forall x, is_displayed s x = false -> is_displayed s' x = true -> pars s' x = sp x
  }.
  Lemma ev_refl : forall s, evolves s s.
  Proof. intros s. constructor; auto. intros x H1 H2. congruence. Qed.
  Lemma ev_trans : forall a b c, evolves a b -> evolves b c -> evolves a c.
  Proof.
    intros a b c [F1 K1 N1] [F2 K2 N2]. constructor; [congruence| |].
    - intros x H. destruct (K1 x H) as [H1 H2]. destruct (K2 x H1) as [H3 H4]. split; auto.
      destruct H4 as [->| ->]; auto.
    - intros x H H'. destruct (is_displayed b x) eqn:E; auto. destruct (K2 x E) as [_ [->| ->]]; auto.
  Qed.

  Record frame (k : nat) (s s' : ft) : Prop := {
    fr_disp : forall x, k <= r x -> is_displayed s' x = is_displayed s x;
    fr_pars : forall x, k <= r x -> pars s' x = pars s x;
    fr_kids : forall x, k <= r x -> kids s' x = kids s x;
    fr_in : forall x p, k <= r x -> (In x (kids s' p) <-> In x (kids s p))
  }.
  Lemma fr_refl : forall k s, frame k s s.
  Proof. intros. constructor; intros; auto. tauto. Qed.
  Lemma fr_trans : forall k j a b c, frame k a b -> frame j b c -> frame (Nat.max k j) a c.
  Proof.
    intros k j a b c [] []. constructor; intros; try (etransitivity; [|eauto with arith]).
    - rewrite fr_disp1, fr_disp0 by lia. auto.
    - rewrite fr_pars1, fr_pars0 by lia. auto.
    - rewrite fr_kids1, fr_kids0 by lia. auto.
    - rewrite fr_in1, fr_in0 by lia. tauto.
  Qed.
  Lemma fr_le : forall k j s s', frame k s s' -> k <= j -> frame j s s'.
  Proof. intros k j s s' [] L. constructor; intros; auto with arith; [apply fr_disp0|apply fr_pars0|apply fr_kids0|apply fr_in0]; lia. Qed.
  Lemma fr_trans1 : forall k a b c, frame k a b -> frame k b c -> frame k a c.
  Proof. intros. replace k with (Nat.max k k) by lia. eapply fr_trans; eauto. Qed.

  Lemma closed_mono : forall s s' x, evolves s s' -> closed s x -> closed s' x.
  Proof. intros s s' x E H a Ha Da. apply (ev_keep _ _ E); auto. Qed.

  Lemma closed_step : forall s n, (D n = true -> is_displayed s n = true) -> (forall p, In p (get_parents T n) -> closed s p) -> closed s n.
  Proof.
    intros s n Hn Hp a Ha Da. inv Ha; auto. eapply Hp; eauto.
  Qed.

  Definition closed_upto (k : nat) (s : ft) : Prop := forall x, is_displayed s x = true -> r x <= k -> closed s x.

  Record upre (A : id -> Prop) (n : id) (s : ft) : Prop := {
    up_A : forall x, r x <= r n -> A x;
    up_base : base A s;
    up_stale : nostale s;
    up_closed : closed_upto (r n) s
  }.
  Record upost (A : id -> Prop) (n : id) (s s' : ft) : Prop := {
    po_base : base A s';
    po_stale : nostale s';
    po_ev : evolves s s';
    po_frame : frame (S (r n)) s s';
    po_upto : closed_upto (r n) s';
    po_closed : closed s' n;
    po_sync : D n = true -> is_displayed s' n = true /\ pars s' n = sp n
  }.

  (** *** The part of the update of a displayed node before its children *)
  Section Shown.
    Variable rec : id -> direction -> FM unit.
    Variable n : id.
    Variable A : id -> Prop.
    Hypothesis HA : forall x, r x <= r n -> A x.
    Hypothesis HD : D n = true.
    Hypothesis Hrec : forall A p s, r p < r n -> upre A p s -> fwp (rec p Up) (fun _ s' => upost A p s s') s.

    Let A' (x : id) : Prop := A x /\ x <> n.
    Let Hn : n <> root. Proof. apply D_root; auto. Qed.

    Variable s0 : ft.

    (** While the edges to [n] are changed; [X] are the stored ones. *)
    Record mid (X : id -> Prop) (s : ft) : Prop := {
      mi_base : base A' s;
      mi_stale : nostale s;
      mi_disp : is_displayed s n = true;
      mi_ev : evolves s0 s;
      mi_frame : frame (S (r n)) s0 s;
      mi_upto : closed_upto (r n) s;
      mi_pars : pars s n = sp n;
      mi_kids : kids s n = kids s0 n;
      mi_edges : forall p, In n (kids s p) <-> X p
    }.

    Lemma mid_iff : forall (X Y : id -> Prop) s, mid X s -> (forall p, X p <-> Y p) -> mid Y s.
    Proof. intros X Y s [] H. constructor; auto. intros p. rewrite mi_edges0. auto. Qed.

    Lemma mid_bump : forall X s, mid X s -> mid X (bump s).
    Proof.
      intros X s []. constructor; auto.
      - apply base_bump; auto.
      - destruct mi_ev0. constructor; auto.
      - destruct mi_frame0. constructor; auto.
    Qed.

    Lemma upto_grow : forall A p s s', r p < r n -> closed_upto (r n) s -> upost A p s s' -> closed_upto (r n) s'.
    Proof.
      intros B p s s' L C P x Hx Hr. destruct (le_lt_dec (r x) (r p)) as [Hl|Hl].
      - apply (po_upto _ _ _ _ P); auto.
      - rewrite (fr_disp _ _ _ (po_frame _ _ _ _ P)) in Hx by lia. eapply closed_mono; [apply P|]. auto.
    Qed.

    Lemma mid_rec : forall X p s, mid X s -> r p < r n -> fwp (rec p Up) (fun _ s' => mid X s') s.
    Proof.
      intros X p s M L. destruct M. eapply fwp_mono; [apply (Hrec A' p s L)|].
      - constructor; auto.
        + intros x Hx. split; [apply HA; lia|]. intros ->. lia.
        + intros x Hx Hr. apply mi_upto0; auto. lia.
      - intros ? s' P. pose proof (po_frame _ _ _ _ P) as F. constructor.
        + apply P.
        + apply P.
        + rewrite (fr_disp _ _ _ F) by lia. auto.
        + eapply ev_trans; [eassumption|apply P].
        + eapply fr_trans1; [eassumption|]. eapply fr_le; [apply F|lia].
        + apply (upto_grow A' p s s'); auto.
        + rewrite (fr_pars _ _ _ F) by lia. auto.
        + rewrite (fr_kids _ _ _ F) by lia. auto.
        + intros q. rewrite (fr_in _ _ _ F) by lia. auto.
    Qed.

    Lemma mid_up : forall X p s b, mid X s -> r p < r n -> fwp (if b : bool then rec p Up else fret tt) (fun _ s' => mid X s') s.
    Proof. intros X p s [] M L; [apply mid_rec; auto|apply fwp_ret; auto]. Qed.

    (** A change of the edges to [n]. *)
    Lemma mid_edited : forall X Y s s' p ks, mid X s -> base A' s' -> edited s s' p ks -> r p < r n ->
      (forall c, c <> n -> (In c ks <-> In c (kids s p))) ->
      (forall q, Y q <-> (if String.eqb q p then In n ks else X q)) -> mid Y s'.
    Proof.
      intros X Y s s' p ks M B E L Hk HY. destruct M. destruct E as [E1 E2 E3 E4]. constructor; auto.
      - intros x. rewrite E1. auto.
      - rewrite E1. auto.
      - destruct mi_ev0. constructor; [congruence| |]; intros x; rewrite E1, E2; auto.
      - destruct mi_frame0. constructor; intros x; rewrite ?E1, ?E2, ?E3; auto.
        + intros Hx. deq x p; [subst; lia|auto].
        + intros q Hx. rewrite E3. deq q p; auto. subst q. rewrite Hk; auto. intros ->. lia.
      - intros x Hx Hr a Ha Da. rewrite E1 in *. eapply mi_upto0; eauto.
      - rewrite E2. auto.
      - rewrite E3. deq n p; auto. subst. lia.
      - intros q. rewrite E3, HY. destruct (String.eqb q p); [tauto|auto].
    Qed.

    Lemma mid_remove : forall (X : id -> Prop) p s, mid X s -> r p < r n -> ~ In p (sp n) -> X p ->
      fwp (send_remove_tree n p ;; children_remove p n) (fun _ s' => mid (fun q => X q /\ q <> p) s') s.
    Proof.
      intros X p s M L Hs HX. assert (Hk : In n (kids s p)) by (apply (mi_edges _ _ M); auto).
      pose proof (mi_base _ _ M) as B.
      apply (edge_remove r root fl A' A'); auto.
      - intros x Hx. split; [apply HA; lia|]. intros ->. lia.
      - intros x [H1 H2]. split; auto. split; auto.
      - intros st m <-. apply (e_gone _ _ _ _ _ _ EV). auto.
      - intros s' B' E. apply (mid_edited X _ s s' p _ M B' E); auto.
        + intros c Hc. rewrite remove1_iff by apply B. tauto.
        + intros q. deq q p; [|tauto]. subst. rewrite remove1_iff by apply B. tauto.
    Qed.

    Lemma mid_add : forall (X : id -> Prop) p s, mid X s -> r p < r n -> ~ X p -> is_displayed s p = true ->
      (ear_one -> forall q, ~ X q) ->
      fwp (upd_f p (fun e => mkF (fpar e) (fchi e ++ [n])) ;; send_add_tree n p) (fun _ s' => mid (fun q => X q \/ q = p) s') s.
    Proof.
      intros X p s M L HX Dp HO. assert (Hk : ~ In n (kids s p)) by (rewrite (mi_edges _ _ M); auto).
      pose proof (mi_base _ _ M) as B.
      apply (edge_add r root fl A' A'); auto.
      - intros x Hx. split; [apply HA; lia|]. intros ->. lia.
      - apply M.
      - intros x Hx Hr. apply (e_res _ _ _ _ _ _ EV). destruct (mi_stale _ _ M x Hx) as [->|]; auto.
        exfalso. pose proof (e_rroot _ _ _ _ _ _ EV n Hn). destruct Hr as [Hr|Hr]; [auto|lia].
      - intros x [H1 H2]. split; auto. split; auto.
      - intros Ho q Hq. apply (HO Ho q). apply (mi_edges _ _ M). auto.
      - intros s' B' E. apply (mid_edited X _ s s' p _ M B' E); auto.
        + intros c Hc. rewrite in_app_iff. simpl. split; [|auto]. intros [H|[H|[]]]; auto. congruence.
        + intros q. deq q p; [|tauto]. rewrite in_app_iff. simpl. split; auto.
    Qed.

    Definition tail (dir : direction) (s : ft) : FM unit :=
      if goes_down dir then
        ffor (node_children_of T D n s) (fun c => e4 <- fnode_at n ;; if mem c (fchi e4) then fret tt else rec c Down)
      else fret tt.

    Record fpost (s' : ft) : Prop := {
      fp_base : base A s';
      fp_stale : nostale s';
      fp_disp : is_displayed s' n = true;
      fp_ev : evolves s0 s';
      fp_frame : frame (S (r n)) s0 s';
      fp_upto : closed_upto (r n) s';
      fp_pars : pars s' n = sp n;
      fp_kids : kids s' n = kids s0 n
    }.

    (** The part between the computation of the new parents and the children. *)
    Lemma front_edges : forall s (X : id -> Prop) cur dir added (Q : unit -> ft -> Prop),
      let remove_from := set_diff cur (sp n) in
      let add_to := set_diff (sp n) cur in
      let stay := set_diff (sp n) add_to in
      mid X s -> (forall p, X p <-> In p cur) -> (forall p, In p cur -> r p < r n) ->
      (forall s' , fpost s' -> fwp (tail dir s') Q s') ->
      fwp (iterate_set ord remove_from (fun p =>
             send_remove_tree n p ;; children_remove p n ;; if goes_up dir then rec p Up else fret tt) ;;
           iterate_set ord add_to (fun p =>
             s2 <- fget ;;
             if is_displayed s2 p then
               upd_f p (fun e => mkF (fpar e) (fchi e ++ [n])) ;;
               send_add_tree n p ;;
               if goes_up dir then rec p Up else fret tt
             else fraise PyException) ;;
           (if goes_up dir then iterate_set ord stay (fun p => rec p Up) else fret tt) ;;
           (if added : bool then fret tt
            else paths <- paths_of n ;; ffor paths (fun p => callback_modified n p)) ;;
           e3 <- fnode_at n ;;
           s3 <- fget ;;
           tail dir s3) Q s.
    Proof.
      intros s X cur dir added Q remove_from add_to stay M HX Hcur HQ.
      assert (Ro : forall k l x, In x (ord k l) <-> In x l).
      { intros k l x. split; apply Permutation_in; [|apply Permutation_sym]; apply (e_ord _ _ _ _ _ _ EV). }
      assert (No : forall k l, NoDup l -> NoDup (ord k l)).
      { intros k l. apply Permutation_NoDup. apply Permutation_sym. apply (e_ord _ _ _ _ _ _ EV). }
      assert (SD : forall s' Y, mid Y s' -> forall p, In p (sp n) -> is_displayed s' p = true).
      { intros s' Y M' p Hp. apply sp_cases in Hp. destruct Hp as [->|[H1 H2]].
        - apply (gb_disp _ _ _ _ _ (b_g _ _ _ _ _ (mi_base _ _ M'))).
        - apply (mi_upto _ _ M' n); auto; [apply M'|]. eapply ta_step; eauto. apply ta_refl. }
      apply fwp_bind. unfold iterate_set at 1.
      eapply fwp_mono; [apply (fwp_for _ (fun done s' => mid (fun q => X q /\ ~ In q done) s'))|].
      { eapply mid_iff; [apply mid_bump, M|]. simpl. tauto. }
      { intros done p rest s1 El M1.
        assert (Hp : In p remove_from) by (apply (Ro (tick s)); rewrite El; apply in_app_iff; right; left; auto).
        assert (ND : ~ In p done).
        { pose proof (No (tick s) _ (set_diff_NoDup cur (sp n))) as N. fold remove_from in N. rewrite El in N.
          intros H. apply (NoDup_app_disj _ _ p N H). left. auto. }
        apply set_diff_In in Hp. destruct Hp as [Hc Hs].
        change (fwp ((send_remove_tree n p ;; (children_remove p n ;; (if goes_up dir then rec p Up else fret tt))))
          (fun _ s' => mid (fun q => X q /\ ~ In q (done ++ [p])) s') s1).
        pose proof (mid_remove _ p s1 M1 (Hcur p Hc) Hs) as R1. specialize (R1 ltac:(split; [apply HX; auto|auto])).
        apply fwp_bind. unfold fwp, fbind in R1. unfold fwp at 1. destruct (send_remove_tree n p s1) as [s1' [[]| |]]; try tauto.
        apply fwp_bind. unfold fwp. destruct (children_remove p n s1') as [s1'' [[]| |]]; try tauto.
        change (fwp (if goes_up dir then rec p Up else fret tt) (fun _ s' => mid (fun q => X q /\ ~ In q (done ++ [p])) s') s1'').
        apply mid_up; auto. eapply mid_iff; [apply R1|]. intros q. rewrite in_app_iff. simpl. intuition. }
      intros ? s1 M1. cbn beta in M1. clear M.
      assert (M2 : mid (fun q => In q cur /\ In q (sp n)) s1).
      { eapply mid_iff; [apply M1|]. intros q. cbn beta. rewrite Ro, HX. unfold remove_from. rewrite set_diff_In.
        destruct (In_dec_id q (sp n)); tauto. }
      clear M1. apply fwp_bind. unfold iterate_set at 1.
      eapply fwp_mono; [apply (fwp_for _ (fun done s' => mid (fun q => (In q cur /\ In q (sp n)) \/ In q done) s'))|].
      { eapply mid_iff; [apply mid_bump, M2|]. simpl. tauto. }
      { intros done p rest s2 El M3.
        assert (Hp : In p add_to) by (apply (Ro (tick s1)); rewrite El; apply in_app_iff; right; left; auto).
        assert (ND : ~ In p done).
        { pose proof (No (tick s1) _ (set_diff_NoDup (sp n) cur)) as N. fold add_to in N. rewrite El in N.
          intros H. apply (NoDup_app_disj _ _ p N H). left. auto. }
        apply set_diff_In in Hp. destruct Hp as [Hs Hc]. pose proof (sp_rank n p Hn Hs) as L.
        apply fwp_bind. apply fwp_get. pose proof (SD _ _ M3 p Hs) as Dp. rewrite Dp.
        pose proof (mid_add _ p s2 M3 L) as R1. specialize (R1 ltac:(tauto) Dp).
        assert (R0 : ear_one -> forall q, ~ (In q cur /\ In q (sp n) \/ In q done)).
        { intros Ho q Hq. assert (Hsq : In q (sp n)).
          { destruct Hq as [[_ Hq]|Hq]; auto. assert (Hq' : In q add_to) by (apply (Ro (tick s1)); rewrite El; apply in_app_iff; auto). apply set_diff_In in Hq'. tauto. }
          rewrite (sp_one Ho n q p Hsq Hs) in Hq. tauto. }
        specialize (R1 R0).
        apply fwp_bind. unfold fwp, fbind in R1. unfold fwp at 1. destruct (upd_f p _ s2) as [s2' [[]| |]]; try tauto.
        apply fwp_bind. unfold fwp. destruct (send_add_tree n p s2') as [s2'' [[]| |]]; try tauto.
        change (fwp (if goes_up dir then rec p Up else fret tt) (fun _ s' => mid (fun q => (In q cur /\ In q (sp n)) \/ In q (done ++ [p])) s') s2'').
        apply mid_up; auto. eapply mid_iff; [apply R1|]. intros q. rewrite in_app_iff. simpl. intuition. }
      intros ? s2 M3. cbn beta in M3. clear M2.
      assert (M4 : mid (fun q => In q (sp n)) s2).
      { eapply mid_iff; [apply M3|]. intros q. cbn beta. rewrite Ro. unfold add_to. rewrite set_diff_In.
        destruct (In_dec_id q cur); tauto. }
      clear M3. apply fwp_bind.
      eapply fwp_mono with (Q := fun _ s' => mid (fun q => In q (sp n)) s').
      { destruct (goes_up dir); [|apply fwp_ret; auto]. unfold iterate_set.
        eapply fwp_mono; [apply (fwp_for _ (fun _ s' => mid (fun q => In q (sp n)) s'))|intros ? ? H; apply H].
        - apply mid_bump; auto.
        - intros done p rest s3 El M5. apply mid_rec; auto. apply sp_rank; auto.
          assert (Hp : In p stay) by (apply (Ro (tick s2)); rewrite El; apply in_app_iff; right; left; auto).
          apply set_diff_In in Hp. tauto. }
      intros ? s3 M5.
      assert (FP : fpost s3).
      { destruct M5. constructor; auto. destruct mi_base0 as [G K1 K2 K3]. constructor; auto.
        destruct G. constructor; auto. intros x p Hx. destruct (id_dec x n) as [->|N].
        - rewrite mi_pars0, mi_edges0. tauto.
        - apply gb_sym. split; auto. }
      clear M5. apply fwp_bind.
      eapply fwp_mono with (Q := fun _ s' => fpost s').
      { destruct added; [apply fwp_ret; auto|].
        eapply fwp_mono; [apply (send_modified r root A (kids s3) s3 n); auto; try apply FP; apply (e_res _ _ _ _ _ _ EV); auto|].
        intros ? s4 (L & _ & _ & G4 & _). destruct FP. assert (B4 : base A s4).
        { apply (base_like r root fl A s3); auto. apply G4. }
        constructor; auto.
        - intros x. rewrite (like_disp _ _ _ L). auto.
        - rewrite (like_disp _ _ _ L). auto.
        - destruct fp_ev0. constructor; [rewrite (lk_filters _ _ L); auto| |]; intros x; rewrite (like_disp _ _ _ L), (like_pars _ _ _ L); auto.
        - destruct fp_frame0. constructor; intros; rewrite ?(like_disp _ _ _ L), ?(like_pars _ _ _ L), ?(like_kids _ _ _ L); auto.
        - intros x Hx Hr y Hy Dy. rewrite (like_disp _ _ _ L) in Hx. rewrite (like_disp _ _ _ L). apply (fp_upto0 x); auto.
        - rewrite (like_pars _ _ _ L). auto.
        - rewrite (like_kids _ _ _ L). auto. }
      intros ? s4 FP4. apply fwp_bind. destruct (disp_entry s4 n) as (e & Ee & _); [apply FP4|].
      apply (fwp_node n e); auto. apply fwp_bind. apply fwp_get. apply HQ; auto.
    Qed.

    (** The whole part before the children. *)
    Lemma front : forall dir added (Q : unit -> ft -> Prop), base A s0 -> nostale s0 -> is_displayed s0 n = true ->
      (forall x, is_displayed s0 x = true -> r x <= r n -> x <> n -> closed s0 x) ->
      (if added : bool then pars s0 n = [] else closed s0 n) ->
      (forall s' dir', goes_down dir' = goes_down dir -> fpost s' -> fwp (tail dir' s') Q s') ->
      fwp (update_shown rec n dir added) Q s0.
    Proof.
      intros dir added Q B NS Dn CB CA HQ. unfold update_shown, FTree.update_shown.
      destruct (disp_entry s0 n Dn) as (e0 & Ee0 & Ep0 & Ek0).
      apply fwp_bind. apply (fwp_node n e0); auto. apply fwp_bind. apply fwp_get. cbv zeta.
      apply fwp_bind.
      eapply fwp_mono with (Q := fun _ s => base A s /\ nostale s /\ evolves s0 s /\ frame (r n) s0 s /\ closed_upto (r n) s).
      { destruct added.
        - assert (K : forall p, In p (get_parents T n) -> mem p (node_parents_of T D n s0) = true -> closed s0 p).
          { intros p Hp Hm. apply mem_In in Hm. unfold node_parents_of in Hm.
            assert (Hm' : p = root \/ is_displayed s0 p = true).
            { rewrite (gb_root _ _ _ _ _ (b_g _ _ _ _ _ B)) in Hm.
              destruct (if flat s0 then [] else filter (fun p => is_displayed s0 p && D p) (get_parents T n)) as [|q l] eqn:F.
              - destruct Hm as [<-|[]]. auto.
              - rewrite <- F in Hm. destruct (flat s0); [destruct Hm|]. apply filter_In in Hm.
                destruct Hm as [_ Hm]. apply andb_prop in Hm. tauto. }
            pose proof (e_rank _ _ _ _ _ _ EV n p Hp). apply CB; [|lia|intros ->; lia]. destruct Hm' as [->|]; auto. apply (gb_disp _ _ _ _ _ (b_g _ _ _ _ _ B)). }
          eapply fwp_mono; [apply (fwp_for _ (fun done s => base A s /\ nostale s /\ evolves s0 s /\ frame (r n) s0 s /\
             (forall x, is_displayed s x = true -> r x <= r n -> x <> n -> closed s x) /\ forall p, In p done -> closed s p))|].
          + split; auto. split; auto. split; [apply ev_refl|]. split; [apply fr_refl|]. split; auto. intros p [].
          + intros done p rest s El (B1 & N1 & E1 & F1 & C1 & H1).
            assert (Hp : In p (get_parents T n)) by (rewrite El; apply in_app_iff; right; left; auto).
            pose proof (e_rank _ _ _ _ _ _ EV n p Hp) as L.
            rewrite Ep0, CA. change (mem p []) with false. rewrite andb_true_r.
            destruct (mem p (node_parents_of T D n s0)) eqn:Em; simpl.
            * apply fwp_ret. split; auto. split; auto. split; auto. split; auto. split; auto.
              intros q Hq. apply in_app_iff in Hq. destruct Hq as [Hq|[<-|[]]]; auto.
              eapply closed_mono; [apply E1|]. apply K; auto.
            * eapply fwp_mono; [apply (Hrec A p s L)|].
              { constructor; auto; [intros x Hx; apply HA; lia|]. intros x Hx Hr. apply C1; auto; [lia|intros ->; lia]. }
              intros ? s' P. split; [apply (po_base _ _ _ _ P)|]. split; [apply (po_stale _ _ _ _ P)|]. split; [eapply ev_trans; [apply E1|apply P]|].
              split; [eapply fr_trans1; [apply F1|eapply fr_le; [apply P|lia]]|]. split.
              -- intros x Hx Hr Nx. destruct (le_lt_dec (r x) (r p)) as [Hl|Hl]; [apply (po_upto _ _ _ _ P); auto|].
                 rewrite (fr_disp _ _ _ (po_frame _ _ _ _ P)) in Hx by lia. eapply closed_mono; [apply P|]. auto.
              -- intros q Hq. apply in_app_iff in Hq. destruct Hq as [Hq|[<-|[]]].
                 ++ eapply closed_mono; [apply P|]. auto.
                 ++ apply (po_closed _ _ _ _ P).
          + intros ? s (B1 & N1 & E1 & F1 & C1 & H1). split; auto. split; auto. split; auto. split; auto.
            assert (Cn : closed s n).
            { apply closed_step; auto. intros _. apply (ev_keep _ _ E1); auto. }
            intros x Hx Hr. destruct (id_dec x n) as [->|N]; auto.
        - apply fwp_ret. split; auto. split; auto. split; [apply ev_refl|]. split; [apply fr_refl|].
          intros x Hx Hr. destruct (id_dec x n) as [->|N]; auto. }
      intros ? s (B1 & N1 & E1 & F1 & C1).
      assert (Dn1 : is_displayed s n = true) by (rewrite (fr_disp _ _ _ F1); auto).
      destruct (disp_entry s n Dn1) as (e1 & Ee1 & Ep1 & Ek1).
      apply fwp_bind. apply (fwp_node n e1); auto. apply fwp_bind. apply fwp_get.
      assert (SD : forall p, In p (sp n) -> is_displayed s p = true).
      { intros p Hp. apply sp_cases in Hp. destruct Hp as [->|[H1 H2]].
        - apply (gb_disp _ _ _ _ _ (b_g _ _ _ _ _ B1)).
        - apply (C1 n); auto. eapply ta_step; eauto. apply ta_refl. }
      rewrite (np_sp A s n B1).
      2:{ intros p Hp HDp. apply (C1 n); auto. eapply ta_step; eauto. apply ta_refl. }
      rewrite (filter_id (is_displayed s) (sp n)) by auto. apply fwp_bind.
      apply (fwp_upd n e1); auto. cbn beta.
      set (s1 := set_fnodes (dset n (mkF (sp n) (fchi e1)) (fnodes s)) s).
      set (dir' := if (match dir with Down => true | _ => false end) && mem (froot s) (set_diff (sp n) (fpar e1)) then Both else dir).
      assert (Hd' : goes_down dir' = goes_down dir).
      { unfold dir'. destruct dir; auto. simpl. destruct (mem (froot s) (set_diff (sp n) (fpar e1))); auto. }
      clearbody dir'.
      assert (X1 : forall x, is_displayed s1 x = is_displayed s x).
      { intros x. unfold s1. rewrite disp_set. deq x n; simpl; auto. subst. auto. }
      assert (X2 : forall x, pars s1 x = if String.eqb x n then sp n else pars s x) by (intros; apply pars_set).
      assert (X3 : forall x, kids s1 x = kids s x).
      { intros x. unfold s1. rewrite kids_set. deq x n; simpl; auto. subst. auto. }
      apply (front_edges s1 (fun p => In p (fpar e1)) (fpar e1) dir' added Q); auto.
      - pose proof (b_g _ _ _ _ _ B1) as G. constructor.
        + constructor.
          * constructor.
            -- apply G.
            -- rewrite X1. apply G.
            -- rewrite X2. deq root n; [subst; exfalso; apply Hn; auto|]. apply G.
            -- auto.
            -- intros p c. rewrite X3, X1. apply (gb_ch _ _ _ _ _ G).
            -- intros x. rewrite X2. deq x n; [apply sp_NoDup|]. apply G.
            -- intros x p. rewrite X2. deq x n; [subst; apply sp_rank; auto|]. apply (gb_pars _ _ _ _ _ G).
            -- intros x p [Hx Nx]. rewrite X2, X3. deq x n; [contradiction|]. apply (gb_sym _ _ _ _ _ G); auto.
            -- eapply knows_sent; [|eapply knows_iff; [|apply (gb_knows _ _ _ _ _ G)]]; [auto|]. intros l. unfold paths.
               split; intros [H1 H2]; split; auto; (eapply (downward_ext (fun _ => True)); [auto| |apply H2]);
               intros; split; auto; rewrite ?X3 in *; auto.
            -- intros Ho x p q. rewrite !X3. apply (gb_one _ _ _ _ _ G Ho).
          * simpl. apply dset_NoDup. apply B1.
          * apply B1.
          * intros x. rewrite X3. apply B1.
        + intros x. rewrite X1. auto.
        + rewrite X1. auto.
        + destruct E1 as [E1 E2 E3]. constructor; [auto| |]; intros x; rewrite X1, X2.
          * intros Hx. destruct (E2 x Hx). split; auto. deq x n; [subst; auto|auto].
          * deq x n; [subst; auto|auto].
        + destruct F1 as [F1 F2 F3 F4]. constructor; intros x; rewrite ?X1, ?X2, ?X3.
          * intros Hx. apply F1. lia.
          * intros Hx. deq x n; [subst; lia|]. apply F2. lia.
          * intros Hx. apply F3. lia.
          * intros p Hx. rewrite X3. apply F4. lia.
        + intros x Hx Hr a0 Ha Da. rewrite X1 in *. apply (C1 x); auto.
        + rewrite X2, eqb_refl. auto.
        + rewrite X3. apply (fr_kids _ _ _ F1). auto.
        + intros p. rewrite X3, Ep1. symmetry. apply (gb_sym _ _ _ _ _ G). auto.
      - intros p. tauto.
      - intros p Hp. rewrite Ep1 in Hp. apply (gb_pars _ _ _ _ _ (b_g _ _ _ _ _ B1)). auto.
    Qed.
  End Shown.

  Lemma update_body_root : forall rec dir s, update_body ord T D rec (froot s) dir s = (s, Ok tt).
  Proof. intros. unfold update_body, fbind, fget. rewrite eqb_refl. auto. Qed.

  Lemma closed_root : forall s, closed s root.
  Proof. intros s a Ha Da. inv Ha; [rewrite (e_root _ _ _ _ _ _ EV) in Da; discriminate|]. rewrite (e_top _ _ _ _ _ _ EV) in H. destruct H. Qed.

  (** The entry of a node that starts to be displayed. *)
  Lemma base_new : forall A s n, base A s -> is_displayed s n = false -> base A (set_fnodes (dset n (mkF [] []) (fnodes s)) s).
  Proof.
    intros A s n B Dn. destruct (not_disp _ _ Dn) as [Kn Pn]. pose proof (b_g _ _ _ _ _ B) as G.
    set (s1 := set_fnodes (dset n (mkF [] []) (fnodes s)) s).
    assert (X1 : forall x, is_displayed s1 x = String.eqb x n || is_displayed s x) by (intros; apply disp_set).
    assert (X2 : forall x, pars s1 x = pars s x).
    { intros. unfold s1. rewrite pars_set. deq x n; auto. subst. auto. }
    assert (X3 : forall x, kids s1 x = kids s x).
    { intros. unfold s1. rewrite kids_set. deq x n; auto. subst. auto. }
    constructor.
    - constructor.
      + apply G.
      + rewrite X1, (gb_disp _ _ _ _ _ G). apply orb_true_r.
      + rewrite X2. apply G.
      + auto.
      + intros p c. rewrite X3, X1. intros H. apply (gb_ch _ _ _ _ _ G) in H. destruct H as [-> H]. rewrite orb_true_r. auto.
      + intros x. rewrite X2. apply G.
      + intros x p. rewrite X2. apply (gb_pars _ _ _ _ _ G).
      + intros x p Hx. rewrite X2, X3. apply (gb_sym _ _ _ _ _ G); auto.
      + eapply knows_sent; [|eapply knows_iff; [|apply (gb_knows _ _ _ _ _ G)]]; [auto|]. intros l. unfold paths.
        split; intros [H1 H2]; split; auto; (eapply (downward_ext (fun _ => True)); [auto| |apply H2]);
        intros; split; auto; rewrite ?X3 in *; auto.
      + intros Ho x p q. rewrite !X3. apply (gb_one _ _ _ _ _ G Ho).
    - simpl. apply dset_NoDup. apply B.
    - apply B.
    - intros x. rewrite X3. apply B.
  Qed.

  (** Updating the parents of a node that is not and will not be displayed. *)
  Lemma up_parents : forall rec A n s, (forall A p s, r p < r n -> upre A p s -> fwp (rec p Up) (fun _ s' => upost A p s s') s) ->
    upre A n s -> D n = false ->
    fwp (ffor (get_parents T n) (fun p => rec p Up)) (fun _ s' => upost A n s s') s.
  Proof.
    intros rec A n s Hrec P Dn.
    eapply fwp_mono; [apply (fwp_for _ (fun done s' => base A s' /\ nostale s' /\ evolves s s' /\ frame (S (r n)) s s' /\
       closed_upto (r n) s' /\ forall p, In p done -> closed s' p))|].
    - destruct P. split; auto. split; auto. split; [apply ev_refl|]. split; [apply fr_refl|]. split; auto. intros p [].
    - intros done p rest s1 El (B1 & N1 & E1 & F1 & C1 & H1).
      assert (Hp : In p (get_parents T n)) by (rewrite El; apply in_app_iff; right; left; auto).
      pose proof (e_rank _ _ _ _ _ _ EV n p Hp) as L.
      eapply fwp_mono; [apply (Hrec A p s1 L)|].
      { constructor; auto; [intros x Hx; apply (up_A _ _ _ P); lia|]. intros x Hx Hr. apply C1; auto. lia. }
      intros ? s' P'. split; [apply (po_base _ _ _ _ P')|]. split; [apply (po_stale _ _ _ _ P')|]. split; [eapply ev_trans; [apply E1|apply P']|].
      split; [eapply fr_trans1; [apply F1|eapply fr_le; [apply P'|lia]]|]. split; [apply (upto_grow n A p s1); auto|].
      intros q Hq. apply in_app_iff in Hq. destruct Hq as [Hq|[<-|[]]].
      + eapply closed_mono; [apply P'|]. auto.
      + apply (po_closed _ _ _ _ P').
    - intros ? s1 (B1 & N1 & E1 & F1 & C1 & H1). constructor; auto.
      + apply closed_step; auto. congruence.
      + congruence.
  Qed.

  Lemma update_up : forall fuel A n s, r n < fuel -> upre A n s -> fwp (update_node fuel n Up) (fun _ s' => upost A n s s') s.
  Proof.
    induction fuel as [|fuel IH]; intros A n s Hf P; [lia|].
    change (fwp (update_body ord T D (update_node fuel) n Up) (fun _ s' => upost A n s s') s).
    assert (Hrec : forall A p s, r p < r n -> upre A p s -> fwp (update_node fuel p Up) (fun _ s' => upost A p s s') s).
    { intros B p s1 L. apply IH. lia. }
    assert (SELF : D n = false -> get_parents T n = [] -> upost A n s s).
    { intros Dn Gn. destruct P. constructor; auto; [apply ev_refl|apply fr_refl| |congruence].
      apply closed_step; [congruence|]. rewrite Gn. intros p []. }
    unfold update_body. apply fwp_bind. apply fwp_get. pose proof (b_g _ _ _ _ _ (up_base _ _ _ P)) as G.
    rewrite (gb_root _ _ _ _ _ G). deq n root.
    { subst n. apply fwp_ret. apply SELF; [apply EV|apply (e_top _ _ _ _ _ _ EV)]. }
    destruct (is_displayed s n) eqn:Dn; destruct (D n) eqn:En.
    - apply (front (update_node fuel) n A); auto; try apply (up_A _ _ _ P); try apply (up_base _ _ _ P); try apply (up_stale _ _ _ P); auto.
      + intros x Hx Hr _. apply (up_closed _ _ _ P); auto.
      + apply (up_closed _ _ _ P); auto.
      + intros s' dir' Hd FP. unfold tail. rewrite Hd. cbn. apply fwp_ret. destruct FP. constructor; auto.
    - exfalso. destruct (up_stale _ _ _ P n Dn); congruence.
    - apply fwp_bind. apply fwp_modify.
      assert (B1 := base_new A s n (up_base _ _ _ P) Dn).
      set (s1 := set_fnodes (dset n (mkF [] []) (fnodes s)) s) in *.
      destruct (not_disp _ _ Dn) as [Kn Pn].
      assert (X1 : forall x, is_displayed s1 x = String.eqb x n || is_displayed s x) by (intros; apply disp_set).
      assert (X2 : forall x, pars s1 x = pars s x).
      { intros. unfold s1. rewrite pars_set. deq x n; auto. subst. auto. }
      assert (X3 : forall x, kids s1 x = kids s x).
      { intros. unfold s1. rewrite kids_set. deq x n; auto. subst. auto. }
      apply (front (update_node fuel) n A); auto; try apply (up_A _ _ _ P); try apply (up_base _ _ _ P); try apply (up_stale _ _ _ P); auto.
      + intros x. rewrite X1. deq x n; [subst; auto|]. simpl. apply (up_stale _ _ _ P).
      + rewrite X1, eqb_refl. auto.
      + intros x. rewrite X1. deq x n; [tauto|]. simpl. intros Hx Hr _ a Ha Da. rewrite X1.
        rewrite (up_closed _ _ _ P x Hx Hr a Ha Da). apply orb_true_r.
      + rewrite X2. auto.
      + intros s' dir' Hd FP. unfold tail. rewrite Hd. cbn. apply fwp_ret. destruct FP. constructor; auto.
        * destruct fp_ev0 as [E1 E2 E3]. constructor; auto.
          -- intros x Hx. rewrite <- X2. apply E2. rewrite X1, Hx. apply orb_true_r.
          -- intros x Hx Hx'. deq x n; [subst; auto|]. apply E3; auto. rewrite X1, Hx. rewrite (proj2 (eqb_neq x n)); auto.
        * destruct fp_frame0 as [F1 F2 F3 F4]. constructor; intros x.
          -- intros Hx. rewrite F1, X1 by auto. deq x n; [subst; lia|auto].
          -- intros Hx. rewrite F2, X2 by auto. auto.
          -- intros Hx. rewrite F3, X3 by auto. auto.
          -- intros p Hx. rewrite F4, X3 by auto. tauto.
    - destruct (has_node T n) eqn:Hl.
      + apply up_parents; auto.
      + apply fwp_ret. apply SELF; auto. apply get_parents_gone; auto.
  Qed.
End Front.
