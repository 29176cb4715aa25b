(** Proofs about print_tree of the store. *)
From Coq Require Import Permutation.
From Verif Require Import Base BaseFacts MainTree Spec Filters FTree SpecApi SpecView SpecViewing Gtk SpecGtk GtkFacts GtkRemove StorePrint SpecPrint.

Lemma line_arrows : forall d n, store_line d n = arrows d n.
Proof.
  intros d n. unfold store_line. induction d as [|d IH]; auto. cbn [arrows]. rewrite <- IH. clear IH. destruct d as [|d]; auto.
Qed.

Section Forest.
  Variable g : gtk.
  Let rs := rows g.
  Hypothesis F : forest rs.

  Lemma fo_addr : forall r q, In r rs -> In q rs -> r_addr r = r_addr q -> r = q.
  Proof.
    destruct F as [ND _]. intros r q Hr Hq E. unfold rs in *. clear - ND Hr Hq E. induction (rows g) as [|x l IH]; [destruct Hr|]. simpl in ND. inversion ND; subst.
    destruct Hr as [->|Hr]; destruct Hq as [->|Hq]; auto; exfalso; apply H1; [rewrite E|rewrite <- E]; apply in_map; auto.
  Qed.
  Lemma fo_at : forall r, In r rs -> row_at (r_addr r) g = Some r.
  Proof.
    intros r Hr. unfold row_at. destruct (find _ (rows g)) as [q|] eqn:E.
    - apply find_some in E. destruct E as [I E]. apply Nat.eqb_eq in E. f_equal. apply fo_addr; auto.
    - exfalso. apply (find_none _ _ E) in Hr. rewrite Nat.eqb_refl in Hr. discriminate.
  Qed.
  Lemma kids_same : forall p, store_children p g = children_of rs p.
  Proof. intros p. reflexivity. Qed.
  Lemma kids_In : forall p r, In r (children_of rs p) <-> In r rs /\ r_parent r = p.
  Proof.
    intros p r. unfold children_of. rewrite filter_In. destruct p as [a|], (r_parent r) as [b|]; split; intros [H1 H2]; split; auto; try discriminate.
    - apply Nat.eqb_eq in H2. subst. auto.
    - inversion H2. apply Nat.eqb_refl.
  Qed.
  Lemma path_in : forall r l, at_path rs r l -> In r rs.
  Proof. intros r l H. destruct H; auto. Qed.
  Lemma path_unique : forall r l, at_path rs r l -> forall l', at_path rs r l' -> l = l'.
  Proof.
    intros r l H. induction H as [r I E|r q l I E H IH]; intros l' H'.
    - inversion H' as [r1 I1 E1|r1 q1 l1 I1 E1 H1]; subst; auto. congruence.
    - inversion H' as [r1 I1 E1|r1 q1 l1 I1 E1 H1]; subst; [congruence|]. assert (q = q1). { apply fo_addr; [eapply path_in; eauto|eapply path_in; eauto|congruence]. }
      subst q1. rewrite (IH _ H1). auto.
  Qed.

  (** A bound on the length of paths. *)
  Lemma path_bound : exists m, forall r l, at_path rs r l -> length l <= m.
  Proof.
    destruct F as [_ HP]. assert (X : forall xs, (forall r, In r xs -> In r rs) -> exists m, forall r l, In r xs -> at_path rs r l -> length l <= m).
    { intros xs. induction xs as [|x xs IH]; intros H; [exists 0; intros r l []|]. destruct IH as (m & Hm); [intros r Hr; apply H; right; auto|].
      destruct (HP x (H x (or_introl eq_refl))) as (lx & Hx). exists (m + length lx). intros r l [<-|Hr] Hl.
      - rewrite (path_unique x l Hl lx Hx). lia.
      - specialize (Hm r l Hr Hl). lia. }
    destruct (X rs (fun r H => H)) as (m & Hm). exists m. intros r l Hl. apply (Hm r l); auto. apply (path_in r l Hl).
  Qed.

  Definition at_depth (d : nat) (r : row) : Prop := exists l, at_path rs r l /\ length l = S d.
  Lemma depth_unique : forall d d' r, at_depth d r -> at_depth d' r -> d = d'.
  Proof. intros d d' r (l & H & E) (l' & H' & E'). rewrite (path_unique r l H l' H') in E. lia. Qed.
  Lemma top_depth : forall r, In r (children_of rs None) -> at_depth 0 r.
  Proof. intros r H. apply kids_In in H. destruct H. exists [r_id r]. split; auto. constructor; auto. Qed.
  Lemma kid_depth : forall d r x, at_depth d r -> In x (children_of rs (Some (r_addr r))) -> at_depth (S d) x.
  Proof.
    intros d r x (l & H & E) Hx. apply kids_In in Hx. destruct Hx as [I P]. exists (l ++ [r_id x]). split; [econstructor; eauto|]. rewrite app_length. simpl. lia.
  Qed.

  (** *** There is a listing *)
  Lemma listing_exists : forall d l, (forall r, In r l -> at_depth d r) -> exists ls, depth_first rs d l ls.
  Proof.
    destruct path_bound as (m & Hm).
    assert (X : forall k d l, m <= k + d -> (forall r, In r l -> at_depth d r) -> exists ls, depth_first rs d l ls).
    { intros k. induction k as [|k IHk]; intros d l Hk.
      - destruct l as [|r l]; intros H; [eexists; constructor|]. exfalso. destruct (H r (or_introl eq_refl)) as (p & Hp & E). specialize (Hm _ _ Hp). lia.
      - induction l as [|r l IHl]; intros H; [eexists; constructor|].
        destruct IHl as (l2 & H2); [intros x Hx; apply H; right; auto|].
        destruct (IHk (S d) (children_of rs (Some (r_addr r)))) as (l1 & H1); [lia|intros x Hx; eapply kid_depth; eauto; apply H; left; auto|].
        eexists. econstructor; eauto. }
    intros d l. apply (X m). lia.
  Qed.

  Lemma listing_depth : forall d l ls, depth_first rs d l ls -> (forall r, In r l -> at_depth d r) -> forall e r, In (e, r) ls -> at_depth e r.
  Proof.
    intros d l ls H. induction H as [|d r l l1 l2 H1 IH1 H2 IH2]; intros HD e x; [intros []|]. intros [E|I].
    - inversion E; subst. apply HD. left; auto.
    - apply in_app_iff in I. destruct I as [I|I]; [apply (IH1 (fun y Hy => kid_depth d r y (HD r (or_introl eq_refl)) Hy) e x I)|apply (IH2 (fun y Hy => HD y (or_intror Hy)) e x I)].
  Qed.
  Lemma listing_self : forall d l ls, depth_first rs d l ls -> forall r, In r l -> In (d, r) ls.
  Proof.
    intros d l ls H. induction H as [|d r l l1 l2 H1 IH1 H2 IH2]; intros x; [intros []|]. intros [->|I]; [left; auto|]. right. apply in_app_iff. right. auto.
  Qed.
  Lemma listing_kids : forall d l ls, depth_first rs d l ls -> forall e q x, In (e, q) ls -> In x (children_of rs (Some (r_addr q))) -> In (S e, x) ls.
  Proof.
    intros d l ls H. induction H as [|d r l l1 l2 H1 IH1 H2 IH2]; intros e q x; [intros []|]. intros [E|I] Hx.
    - inversion E; subst. right. apply in_app_iff. left. apply (listing_self _ _ _ H1); auto.
    - right. apply in_app_iff in I. apply in_app_iff. destruct I; eauto.
  Qed.
  Lemma listing_all : forall ls, depth_first rs 0 (children_of rs None) ls -> forall r l, at_path rs r l -> In (pred (length l), r) ls.
  Proof.
    intros ls H r l Hl. induction Hl as [r I E|r q l I E Hq IH].
    - apply (listing_self _ _ _ H). apply kids_In. auto.
    - rewrite app_length. simpl. replace (pred (length l + 1)) with (S (pred (length l))).
      + apply (listing_kids _ _ _ H _ q); auto. apply kids_In. auto.
      + assert (length l <> 0) by (destruct Hq; rewrite ?app_length; simpl; lia). lia.
  Qed.

  (** *** It lists no row twice *)
  Inductive up : nat -> row -> row -> Prop :=
  | up_self : forall r, up 0 r r
  | up_more : forall k x q r, In q rs -> r_parent x = Some (r_addr q) -> up k q r -> up (S k) x r.
  Lemma up_fun : forall k x r, up k x r -> forall r', up k x r' -> r = r'.
  Proof.
    intros k x r H. induction H as [r|k x q r I E H IH]; intros r' H'; inversion H' as [|k1 x1 q1 r1 I1 E1 H1]; subst; auto.
    assert (q = q1) by (apply fo_addr; auto; congruence). subst q1. auto.
  Qed.
  Lemma up_last : forall k x q r, up k x q -> In r rs -> r_parent q = Some (r_addr r) -> up (S k) x r.
  Proof. intros k x q r H. induction H as [q|k x q' q I E H IH]; intros Ir Er; [apply (up_more 0 q r r); auto; constructor|exact (up_more (S k) x q' r I E (IH Ir Er))]. Qed.
  Lemma listing_up : forall d l ls, depth_first rs d l ls -> (forall r, In r l -> In r rs) -> forall e x, In (e, x) ls -> exists r, In r l /\ d <= e /\ up (e - d) x r.
  Proof.
    intros d l ls H. induction H as [|d r l l1 l2 H1 IH1 H2 IH2]; intros HI e x; [intros []|]. intros [E|I].
    - inversion E; subst. exists x. split; [left; auto|]. split; [lia|]. rewrite Nat.sub_diag. constructor.
    - apply in_app_iff in I. destruct I as [I|I].
      + destruct (IH1 (fun y Hy => proj1 (proj1 (kids_In _ _) Hy)) e x I) as (q & Hq & Le & U). apply kids_In in Hq. destruct Hq as [Iq Eq].
        exists r. split; [left; auto|]. split; [lia|]. replace (e - d) with (S (e - S d)) by lia. apply (up_last _ x q); auto; apply HI; left; auto.
      + destruct (IH2 (fun y Hy => HI y (or_intror Hy)) e x I) as (q & Hq & Le & U). exists q. split; [right; auto|]. auto.
  Qed.

  Lemma kids_NoDup : forall p, NoDup (children_of rs p).
  Proof. intros p. apply NoDup_filter. destruct F as [ND _]. apply (NoDup_map_inv r_addr). auto. Qed.

  Lemma listing_NoDup : forall d l ls, depth_first rs d l ls -> (forall r, In r l -> at_depth d r) -> NoDup l -> NoDup (map snd ls).
  Proof.
    intros d l ls H. induction H as [|d r l l1 l2 H1 IH1 H2 IH2]; intros HD ND; [constructor|]. inversion ND as [|? ? N1 N2]; subst.
    assert (HK : forall x, In x (children_of rs (Some (r_addr r))) -> at_depth (S d) x) by (intros x Hx; apply (kid_depth d r); auto; apply HD; left; auto).
    assert (HL : forall x, In x l -> at_depth d x) by (intros x Hx; apply HD; right; auto).
    assert (IK : forall x, In x (children_of rs (Some (r_addr r))) -> In x rs) by (intros x Hx; apply kids_In in Hx; tauto).
    assert (IL : forall x, In x l -> In x rs) by (intros x Hx; destruct (HL x Hx) as (p & Hp & _); apply (path_in x p Hp)).
    assert (Ir : In r rs) by (destruct (HD r (or_introl eq_refl)) as (p & Hp & _); apply (path_in r p Hp)).
    simpl. rewrite map_app. constructor.
    - rewrite in_app_iff, !in_map_iff. intros [([e x] & E & I)|([e x] & E & I)]; simpl in E; subst x.
      + pose proof (listing_depth _ _ _ H1 HK e r I) as D1. pose proof (depth_unique _ _ _ D1 (HD r (or_introl eq_refl))). subst e.
        destruct (listing_up _ _ _ H1 IK d r I) as (q & _ & Le & _). lia.
      + pose proof (listing_depth _ _ _ H2 HL e r I) as D1. pose proof (depth_unique _ _ _ D1 (HD r (or_introl eq_refl))). subst e.
        destruct (listing_up _ _ _ H2 IL d r I) as (q & Hq & Le & U). rewrite Nat.sub_diag in U. inversion U; subst. auto.
    - apply NoDup_app_intro; [apply IH1; auto; apply kids_NoDup|apply IH2; auto|].
      intros x I J. apply in_map_iff in I. destruct I as ([e y] & E & I). simpl in E. subst y. apply in_map_iff in J. destruct J as ([e' y] & E & J). simpl in E. subst y.
      pose proof (depth_unique _ _ _ (listing_depth _ _ _ H1 HK e x I) (listing_depth _ _ _ H2 HL e' x J)). subst e'.
      destruct (listing_up _ _ _ H1 IK e x I) as (q & Hq & Le & U). destruct (listing_up _ _ _ H2 IL e x J) as (q' & Hq' & Le' & U').
      apply kids_In in Hq. destruct Hq as [Iq Eq]. assert (U2 : up (e - d) x r) by (replace (e - d) with (S (e - S d)) by lia; apply (up_last _ x q); auto).
      rewrite (up_fun _ _ _ U2 _ U') in N1. auto.
  Qed.

  (** *** The loop follows it *)
  Definition lines (ls : list (nat * row)) : list string := map (fun z => arrows (fst z) (r_id (snd z))) ls.
  Lemma next_split : forall (l1 : list row) r l2, (forall x y, In x (l1 ++ r :: l2) -> In y (l1 ++ r :: l2) -> r_addr x = r_addr y -> x = y) -> NoDup (l1 ++ r :: l2) ->
    next_row (r_addr r) (l1 ++ r :: l2) = option_map r_addr (hd_error l2).
  Proof.
    intros l1 r l2. induction l1 as [|x l1 IH]; intros HA ND; cbn [app next_row].
    - rewrite Nat.eqb_refl. auto.
    - destruct (Nat.eqb (r_addr x) (r_addr r)) eqn:E.
      + apply Nat.eqb_eq in E. exfalso. assert (x = r) by (apply HA; auto; [left; auto|apply in_app_iff; simpl; auto]). subst. inversion ND; subst. apply H1. apply in_app_iff. simpl. auto.
      + inversion ND; subst. apply IH; auto. intros a b Ha Hb. apply HA; right; auto.
  Qed.

  Definition suffix (l : list row) (p : option nat) : Prop := exists l1, children_of rs p = l1 ++ l.

  Lemma loop_follows : forall d l ls, depth_first rs d l ls -> forall p stack fuel out, suffix l p -> store_loop fuel g stack = Ok out ->
    store_loop (length ls + fuel) g (push_to_stack d (option_map r_addr (hd_error l)) stack) = Ok (lines ls ++ out).
  Proof.
    intros d l ls H. induction H as [|d r l l1 l2 H1 IH1 H2 IH2]; intros p stack fuel out HS HL; [exact HL|].
    assert (HS2 : suffix l p). { destruct HS as (a & E). exists (a ++ [r]). rewrite <- app_assoc. exact E. }
    assert (Ir : In r rs /\ r_parent r = p). { apply kids_In. destruct HS as (a & ->). apply in_app_iff. simpl. auto. }
    destruct Ir as [Ir Ep].
    assert (En : iter_next g r = option_map r_addr (hd_error l)).
    { unfold iter_next. rewrite kids_same, Ep. destruct HS as (a & E). rewrite E. apply next_split; rewrite <- E; [|apply kids_NoDup].
      intros x y Hx Hy. apply fo_addr; [apply kids_In in Hx|apply kids_In in Hy]; tauto. }
    cbn [hd_error option_map push_to_stack length Nat.add store_loop]. rewrite (fo_at r Ir), En, line_arrows.
    unfold iter_children. rewrite kids_same. pose proof (IH2 p stack fuel out HS2 HL) as E2.
    pose proof (IH1 (Some (r_addr r)) _ _ _ (ex_intro _ [] eq_refl) E2) as E1. rewrite app_length, <- Nat.add_assoc, E1.
    unfold lines. cbn [map fst snd app]. rewrite map_app, app_assoc. auto.
  Qed.

  Lemma loop_more : forall fuel stack out, store_loop fuel g stack = Ok out -> forall k, store_loop (fuel + k) g stack = Ok out.
  Proof.
    intros fuel. induction fuel as [|fuel IH]; intros [|[d a] stack] out E k; cbn [store_loop Nat.add] in *; auto; [destruct k; auto|discriminate|].
    destruct (row_at a g) as [r|]; [|discriminate].
    destruct (store_loop fuel g _) as [ls| |] eqn:El; [|discriminate|discriminate]. rewrite (IH _ _ El). auto.
  Qed.

  Lemma print_spec : exists ls, store_print g = Ok (lines ls) /\ depth_first rs 0 (children_of rs None) ls /\ Permutation (map snd ls) rs /\
    forall d r, In (d, r) ls -> exists l, at_path rs r l /\ length l = S d.
  Proof.
    destruct (listing_exists 0 (children_of rs None) top_depth) as (ls & H). exists ls.
    assert (ND : NoDup (map snd ls)) by (apply (listing_NoDup 0 (children_of rs None)); auto; [apply top_depth|apply kids_NoDup]).
    assert (P : Permutation (map snd ls) rs).
    { apply NoDup_Permutation; auto; [destruct F as [N _]; apply (NoDup_map_inv r_addr); auto|]. intros r. split; intros I.
      - apply in_map_iff in I. destruct I as ([d x] & E & I). simpl in E. subst x. destruct (listing_depth _ _ _ H top_depth d r I) as (l & Hl & _). apply (path_in r l Hl).
      - destruct F as [_ HP]. destruct (HP r I) as (l & Hl). apply in_map_iff. exists (pred (length l), r). split; auto. apply listing_all; auto. }
    split; [|split; [exact H|split; [exact P|intros d r I; apply (listing_depth _ _ _ H top_depth d r I)]]].
    pose proof (loop_follows _ _ _ H None [] 0 [] (ex_intro _ [] eq_refl) eq_refl) as E. rewrite app_nil_r, Nat.add_0_r in E.
    unfold store_print. assert (Ln : length ls = length (rows g)) by (rewrite <- (map_length snd ls), P; auto). rewrite <- Ln. unfold iter_children. rewrite kids_same.
    pose proof (loop_more _ _ _ E 1) as E'. rewrite Nat.add_1_r in E'. exact E'.
  Qed.
End Forest.

Lemma at_last : forall rs r l, at_path rs r l -> last l "" = r_id r.
Proof. intros rs r l H. destruct H; auto. apply last_last. Qed.

Lemma depth_branches : forall g, forest (rows g) -> forall d l ls, depth_first (rows g) d l ls -> forall p qs, (forall r, In r l -> at_path (rows g) r (p ++ [r_id r])) ->
  Forall2 (fun z q => at_path (rows g) (snd z) q /\ length q = S (fst z)) ls qs -> branches p qs.
Proof.
  intros g F d l ls H. induction H as [d|d r l l1 l2 H1 IH1 H2 IH2]; intros p qs A Q.
  - inversion Q; subst. constructor.
  - inversion Q as [|z q zs qs' [Hq _] Q']; subst. cbn [fst snd] in Hq. apply Forall2_app_inv_l in Q'. destruct Q' as (q1 & q2 & Q1 & Q2 & ->).
    pose proof (A r (or_introl eq_refl)) as Ar. rewrite (path_unique g F r q Hq (p ++ [r_id r]) Ar). constructor.
    + apply IH1; auto. intros x Hx. apply (kids_In g) in Hx. destruct Hx as [Ix Px]. apply (at_below (rows g) x r (p ++ [r_id r]) Ix Px Ar).
    + apply IH2; [intros x Hx; apply A; right; exact Hx|exact Q2].
Qed.

Lemma print_shown : forall g X, shows (rows g) X ->
  exists qs, NoDup qs /\ (forall q, In q qs <-> X q) /\ branches [] qs /\ store_print g = Ok (map (fun q => arrows (pred (length q)) (last q "")) qs).
Proof.
  intros g X (H1 & H2 & H3 & H4 & H5). assert (F : forest (rows g)) by (split; auto).
  destruct (print_spec g F) as (ls & E & DF & P & D).
  assert (Q : exists qs, Forall2 (fun z q => at_path (rows g) (snd z) q /\ length q = S (fst z)) ls qs).
  { clear E P DF. induction ls as [|[d r] ls IH]; [exists []; constructor|]. destruct IH as (qs & Hq); [intros d' r' I; apply D; right; auto|].
    destruct (D d r (or_introl eq_refl)) as (l & Hl & El). exists (l :: qs). constructor; auto. }
  destruct Q as (qs & Q). exists qs. split; [|split; [|split]].
  - assert (N : NoDup (map snd ls)) by (rewrite P; apply (NoDup_map_inv r_addr); auto). clear E P D DF. induction Q as [|[d r] q ls qs [Hq Eq] Q IH]; [constructor|].
    simpl in N. inversion N as [|? ? N1 N2]; subst. constructor; auto. intros I. apply N1. clear - I Q Hq H5. simpl in Hq.
    induction Q as [|[d' r'] q' ls qs [Hq' _] Q IH]; [destruct I|]. simpl in *. destruct I as [->|I]; auto. left. apply (H5 _ _ q); auto.
  - intros q. split.
    + intros I. assert (Y : exists r, at_path (rows g) r q). { clear - I Q. induction Q as [|z q' ls qs [Hq _] Q IH]; [destruct I|]. destruct I as [->|I]; eauto. }
      destruct Y as (r & Hr). apply (H3 r); auto.
    + intros Hx. destruct (H4 q Hx) as (r & Hr). assert (I : In r (map snd ls)). { apply (Permutation_in _ (Permutation_sym P)). destruct Hr; auto. }
      clear - I Q Hr F. induction Q as [|z q' ls qs [Hq _] Q IH]; [destruct I|]. simpl in I. destruct I as [I|I]; [|right; auto].
      left. subst r. apply (path_unique g F (snd z)); auto.
  - apply (depth_branches g F 0 _ ls DF); auto. intros r Hr. apply (kids_In g) in Hr. destruct Hr. constructor; auto.
  - rewrite E. f_equal. unfold lines. clear - Q. induction Q as [|[d r] q ls qs [Hq Eq] Q IH]; auto. cbn [map fst snd] in *. rewrite IH. f_equal. pose proof (at_last _ _ _ Hq) as El. unfold id in *. rewrite Eq, El. auto.
Qed.

(** *** Any allocator and any signals *)
Lemma orderly_forest : forall g, orderly g -> forest (rows g).
Proof.
  intros g (O1 & O3 & rank & O2). split; auto.
  assert (X : forall k r, rank (r_addr r) < k -> In r (rows g) -> exists l, at_path (rows g) r l).
  { intros k. induction k as [|k IH]; intros r Hk Hr; [lia|]. destruct (r_parent r) as [p|] eqn:P.
    - destruct (O3 r p Hr P) as (q & Hq & <-). pose proof (O2 r (r_addr q) Hr P). destruct (IH q) as (l & Hl); [lia|auto|].
      exists (l ++ [r_id r]). econstructor; eauto.
    - exists [r_id r]. constructor; auto. }
  intros r Hr. apply (X (S (rank (r_addr r)))); auto.
Qed.

Lemma heard_print : forall pf l g o, faithful pf -> on_heard pf l new_gtk = (g, o) ->
  exists ls, store_print g = Ok (map (fun z => arrows (fst z) (r_id (snd z))) ls) /\
  depth_first (rows g) 0 (children_of (rows g) None) ls /\ Permutation (map snd ls) (rows g) /\
  forall d r, In (d, r) ls -> exists l, at_path (rows g) r l /\ length l = S d.
Proof.
  intros pf l g o A E. apply print_spec. apply orderly_forest. eapply orderly_heard; [exact A| |exact E].
  split; [constructor|]. split; [intros r q []|]. exists (fun x => x). intros r q [].
Qed.
