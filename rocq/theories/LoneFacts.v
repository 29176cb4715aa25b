(** Views of trees in which no node has two parents, and their clients. *)
From Coq Require Import Permutation.
From Verif Require Import Base BaseFacts MainTree Spec MainFacts MainInv MainRun MainReg Filters FTree SpecApi SpecView SpecViewing
  FtBase FtTree FtOps FtView FtThm FtSent FtSignals FtHist FtMind Gtk SpecGtk GtkFacts GtkView Widget Sort SpecSort ClientFacts SortFacts
  DataFacts GtkData SpecPaint PaintFacts FtQuiet StorePrint SpecPrint PrintStore StayFacts FtStay StayRows SpecLone LoneTree.

Lemma lone_after : forall ord c t b s, reg t -> one_parent t -> one_parent (base_tree (fst (view_call ord c (t, b, s)))) -> lone_call c t.
Proof.
  intros ord c t b s R L L'. split; auto. destruct c; auto. apply lone_between; auto; [apply reg_plain; auto|].
  cbn [view_call] in L'. destruct (feed ord b (events o t) s). exact L'.
Qed.

(** ** A node is announced once *)
Definition lodged (g : gtk) (cs : list (list id)) : Prop := (exists L, layout L g cs) /\ one_place cs.

Lemma lodged_new : forall pf : platform, lodged new_gtk [].
Proof.
  intros pf. split; [|intros l l' []]. destruct (follows_new pf) as (L & HL & _). exists L. exact HL.
Qed.
Lemma lodged_sort : forall g cs rs, lodged g cs -> Permutation rs (rows g) -> lodged (mkGtk rs (clock g) (Gtk.cache_paths g) (cache_position g)) cs.
Proof.
  intros g cs rs [(L & HL) O] P. split; auto.
  destruct (layout_sort L g (mkGtk rs (clock g) (Gtk.cache_paths g) (cache_position g)) cs HL P eq_refl) as (L' & HL' & _). eauto.
Qed.

Lemma one_place_hear : forall cs x cs', one_place cs -> (forall l, In l cs -> l <> []) -> hear cs x cs' -> newb cs x = true -> one_place cs'.
Proof.
  intros cs x cs' O Nn Hh N. destruct Hh as [cs q n N1 N2|cs q n N1 N2|cs q n N1|cs n a]; auto.
  - pose proof (proj1 (newb_iff _ _ _) N) as N0. clear N. rename N0 into N.
    assert (A : forall l, In l cs -> last l "" <> n).
    { intros l Hl E. destruct (exists_last (Nn l Hl)) as (p & y & ->). rewrite last_last in E. subst y. apply (N p Hl). }
    intros l l' Hl Hl' E. apply in_app_iff in Hl, Hl'. destruct Hl as [Hl|[<-|[]]], Hl' as [Hl'|[<-|[]]]; auto.
    + rewrite last_last in E. destruct (A l); auto.
    + rewrite last_last in E. destruct (A l'); auto.
  - intros l l' Hl Hl' E. apply filter_In in Hl, Hl'. apply O; tauto.
Qed.
Lemma layout_nonempty : forall L g cs l, layout L g cs -> In l cs -> l <> [].
Proof.
  intros L g cs l HL Hl. destruct (lay_cs _ _ _ HL _ Hl) as (r & I). destruct (l_path _ _ _ HL _ _ I) as (q & -> & _). destruct q; discriminate.
Qed.
Lemma lodged_step : forall pf, faithful pf -> forall T x g cs cs', lodged g cs -> hear cs x cs' -> names_live (T, x) -> mindful T x cs' -> (True -> newb cs x = true) ->
  exists g', on_signal pf T x g = (g', Ok tt) /\ lodged g' cs' /\ True.
Proof.
  intros pf AL T x g cs cs' [(L & HL) O] Hh Hn _ N.
  destruct (signal_ok pf T x L g cs cs' AL HL (one_place_cache L g cs HL O) Hh Hn) as (g' & L' & E & HL' & _).
  exists g'. split; auto. split; auto. split; eauto. apply (one_place_hear cs x); auto. intros l. apply (layout_nonempty L g cs l HL).
Qed.
Lemma lodged_keeper : forall pf, faithful pf -> keeper pf lodged.
Proof.
  intros pf AL. split.
  - intros g cs [(L & HL) O]. exists L. split; auto. apply one_place_cache; auto.
  - intros T x q g cs [(L & HL) O] Hq Hx.
    destruct (signal_ok pf T (SModified x (q ++ [x])) L g cs cs AL HL (one_place_cache L g cs HL O)) as (g' & L' & E & HL' & _); [constructor; auto|exact Hx|].
    rewrite E. split; eauto.
Qed.
Lemma cheld_keeps : forall F t b s g, cheld F t b s g -> keeps F t b s g.
Proof. intros F t b s g (l & v & cs & E & C & _ & H & Fg). exists l, v, cs. auto. Qed.

Section Lone.
  Variable ord : nat -> list id -> list id.
  Variable pf : platform.
  Hypothesis HO : forall k l, Permutation (ord k l) l.
  Hypothesis AL : faithful pf.

  Lemma held_reg : forall F t b s (g : gtk), cheld F t b s g -> reg t.
  Proof. intros F t b s g (l & v & cs & _ & C & _). apply (c_reg _ _ _ C). Qed.

  Lemma lone_widget : forall c t b s g, cheld lodged t b s g -> one_parent t -> supported (t, b, s) c ->
    one_parent (base_tree (fst (view_call ord c (t, b, s)))) ->
    exists t' b' s' g', widget_call ord pf c (t, b, s) g = (t', b', s', g', Ok tt) /\ cheld lodged t' b' s' g' /\
      view_call ord c (t, b, s) = (t', b', s', Ok tt).
  Proof.
    intros c t b s g H L X L'.
    destruct (call_one ord HO (on_signal pf) lodged (fun _ _ _ => True) True (fun _ => I) (fun _ _ _ _ _ _ _ => I) (lodged_step pf AL) c t b s g H X
      (fun _ => lone_after ord c t b s (held_reg _ _ _ _ _ H) L L')) as (t' & b' & s' & g' & E & H' & EV & _).
    rewrite client_is_widget in E. exists t', b', s', g'. auto.
  Qed.
  (** The tree after a call does not depend on the clients. *)
  Lemma widget_tree : forall c x g, base_tree (fst (fst (widget_call ord pf c x g))) = base_tree (fst (view_call ord c x)).
  Proof.
    intros c [[t b] s] g. destruct c as [o| | | | | |].
    - cbn [widget_call view_call]. destruct (feed_widget ord pf b (events o t) s g) as [[s1 g1] r]. destruct (feed ord b (events o t) s) as [s2 r2]. reflexivity.
    - cbn [widget_call]. destruct (view_call ord _ _) as [[[t1 b1] s1] [[]|e|]]; try reflexivity. cbn. destruct (on_signals _ _ _ _). reflexivity.
    - cbn [widget_call]. destruct (view_call ord _ _) as [[[t1 b1] s1] [[]|e|]]; try reflexivity. cbn. destruct (on_signals _ _ _ _). reflexivity.
    - cbn [widget_call]. destruct (view_call ord _ _) as [[[t1 b1] s1] [[]|e|]]; try reflexivity. cbn. destruct (on_signals _ _ _ _). reflexivity.
    - cbn [widget_call]. destruct (view_call ord _ _) as [[[t1 b1] s1] [[]|e|]]; try reflexivity. cbn. destruct (on_signals _ _ _ _). reflexivity.
    - cbn [widget_call]. destruct (view_call ord _ _) as [[[t1 b1] s1] [[]|e|]]; try reflexivity. cbn. destruct (on_signals _ _ _ _). reflexivity.
    - cbn [widget_call]. destruct (view_call ord _ _) as [[[t1 b1] s1] [[]|e|]]; try reflexivity. cbn. destruct (on_signals _ _ _ _). reflexivity.
  Qed.
  Lemma lone_connect : forall x, viewing ord x -> one_parent (base_tree x) ->
    exists t b s g, connect pf x = (t, b, s, g, Ok tt) /\ cheld lodged t b s g /\ t = base_tree x.
  Proof.
    intros x V L. destruct (connect_one ord HO (on_signal pf) lodged True (lodged_step pf AL) x new_gtk V (lodged_new pf) (fun _ => L)) as (t & b & s & g & E & H & _).
    rewrite WidgetUse.build_connect in E. exists t, b, s, g. split; auto. split; auto.
    destruct x as [[t0 b0] s0]. unfold connect in E. destruct (get_current_state s0) as [s1 [u|e|]]; [destruct (on_signals pf t0 (news s0 s1) new_gtk)|..]; inversion E; auto.
  Qed.
End Lone.

Section Single.
  Variable ord : nat -> list id -> list id.
  Variable pf : platform.
  Hypothesis HO : forall k l, Permutation (ord k l) l.
  Hypothesis AL : faithful pf.
  Let RF f : faithful (repainted pf f) := re_faithful pf AL f.

  Lemma single_held : forall f k x g, painting_single ord pf f k x g ->
    let '(t, b, s) := x in cheld lodged t b s g /\ one_parent t /\ (k = true -> (forall d, f d <> None) -> fresh_rows (repainted pf f) t g).
  Proof.
    intros f k x g H.
    induction H as [f x x' g' r V L E|f k [[t b] s] g c x' g' r H IH X E L|f k [[t b] s] g x' g' r H IH E|f k [[t b] s] g rs H IH P|f f' k [[t b] s] g H IH].
    - destruct (lone_connect ord (repainted pf f) HO (RF f) x V L) as (t & b & s & g & E2 & Hd & Et). rewrite E2 in E. inversion E; subst x' g' r. clear E.
      split; auto. split; [rewrite Et; auto|]. intros _ CN.
      destruct x as [[t0 b0] s0]. unfold connect in E2. destruct (get_current_state s0) as [s1 [u|e|]]; [|discriminate ..].
      destruct (on_signals (repainted pf f) t0 (news s0 s1) new_gtk) as [g1 q] eqn:E3. inversion E2; subst.
      eapply cols_signals; [exact (RF f)|exact CN|apply within_self| |exact E3]. intros r0 [].
    - destruct IH as (Hd & L0 & Fr).
      pose proof (widget_tree ord (repainted pf f) c (t, b, s) g) as W. rewrite E in W. cbn [fst] in W. rewrite W in L.
      destruct (lone_widget ord (repainted pf f) HO (RF f) c t b s g Hd L0 X L) as (t' & b' & s' & g2 & E2 & H2 & EV). rewrite E2 in E. inversion E; subst x' g' r. clear E.
      split; auto. split; [rewrite EV in L; exact L|]. intros K CN.
      exact (fresh_keeps ord (repainted pf f) HO (RF f) CN lodged (lodged_keeper _ (RF f)) c t b s g t' b' s' g2 (cheld_keeps _ _ _ _ _ Hd) X (Fr K CN) E2 (cheld_keeps _ _ _ _ _ H2) EV).
    - destruct IH as (Hd & L0 & Fr).
      assert (L : one_parent (base_tree (fst (view_call ord (VTree RefreshAll) (t, b, s))))).
      { cbn [view_call]. destruct (feed ord b (events RefreshAll t) s). cbn [fst base_tree]. destruct (announce_events RefreshAll t (or_introl eq_refl)) as (Ea & _). rewrite Ea. auto. }
      destruct (lone_widget ord (repainted pf f) HO (RF f) (VTree RefreshAll) t b s g Hd L0 (refresh_supported _) L) as (t' & b' & s' & g2 & E2 & H2 & EV). rewrite E2 in E. inversion E; subst x' g' r. clear E.
      split; auto. split; [rewrite EV in L; exact L|]. intros _ CN.
      destruct (refresh_keeps ord pf HO AL lodged f t b s g t' b' s' g2 CN (lodged_keeper _ (RF f)) (cheld_keeps _ _ _ _ _ Hd) E2 (cheld_keeps _ _ _ _ _ H2) EV) as [-> Y]. exact Y.
    - destruct IH as ((l & v & cs & E & C & Rd & Hh & Fo) & L0 & Fr). split; [|split; auto].
      + exists l, v, cs. split; auto. split; auto. split; auto. split; auto. apply lodged_sort; auto.
      + intros K CN r Hr. apply (Fr K CN). eapply Permutation_in; [exact P|exact Hr].
    - destruct IH as (Hd & L0 & _). split; auto. split; auto. discriminate.
  Qed.

  Lemma psingle_ok : forall f k x g c, painting_single ord pf f k x g -> supported x c -> one_parent (base_tree (fst (view_call ord c x))) ->
    snd (widget_call ord (repainted pf f) c x g) = Ok tt.
  Proof.
    intros f k [[t b] s] g c H X L. apply single_held in H. destruct H as (Hd & L0 & _).
    destruct (lone_widget ord (repainted pf f) HO (RF f) c t b s g Hd L0 X L) as (t' & b' & s' & g2 & E2 & _). rewrite E2. auto.
  Qed.
  Lemma psingle_shows : forall f k t b s g, painting_single ord pf f k (t, b, s) g -> shows (rows g) (view_path s).
  Proof.
    intros f k t b s g H. apply single_held in H. destruct H as ((l & v & cs & -> & C & _ & Hh & (L & HL) & _) & _).
    destruct (current_heard _ _ _ C) as (cs' & Hh' & K). rewrite (hear_all_det _ _ _ _ Hh' Hh) in K. apply (layout_shows L g cs); auto.
  Qed.
  Lemma psingle_data : forall f t b s g r, (forall d, f d <> None) -> painting_single ord pf f true (t, b, s) g -> In r (rows g) ->
    option_map f (SpecFrame.data_at t (r_id r)) = Some (r_col r).
  Proof. intros f t b s g r CN H Hr. apply single_held in H. destruct H as (_ & _ & Fr). apply (Fr eq_refl CN r Hr). auto. Qed.

  Lemma repainted_self : repainted pf (column pf) = pf.
  Proof. destruct pf. reflexivity. Qed.
  Lemma single_paints : forall x g, watching_single ord pf x g -> painting_single ord pf (column pf) true x g.
  Proof.
    intros x g H. induction H as [x x' g' r V L E|x g c x' g' r H IH X E L|x g rs H IH P].
    - eapply psingle_start; [exact V|exact L|]. rewrite repainted_self. exact E.
    - eapply psingle_call; [exact IH|exact X| |exact L]. rewrite repainted_self. exact E.
    - apply psingle_sort; auto.
  Qed.
  Lemma wsingle_connect : forall x, viewing ord x -> one_parent (base_tree x) -> snd (connect pf x) = Ok tt.
  Proof. intros x V L. destruct (lone_connect ord pf HO AL x V L) as (t & b & s & g & E & _). rewrite E. auto. Qed.
  Lemma wsingle_ok : forall x g c, watching_single ord pf x g -> supported x c -> one_parent (base_tree (fst (view_call ord c x))) ->
    snd (widget_call ord pf c x g) = Ok tt.
  Proof. intros x g c H X L. pose proof (psingle_ok (column pf) true x g c (single_paints x g H) X L) as Y. rewrite repainted_self in Y. exact Y. Qed.
  Lemma wsingle_shows : forall t b s g, watching_single ord pf (t, b, s) g -> shows (rows g) (view_path s).
  Proof. intros t b s g H. apply (psingle_shows (column pf) true t b s g). apply single_paints. auto. Qed.
  Lemma wsingle_data : (forall d, column pf d <> None) -> forall t b s g r, watching_single ord pf (t, b, s) g -> In r (rows g) ->
    option_map (column pf) (SpecFrame.data_at t (r_id r)) = Some (r_col r).
  Proof. intros CN t b s g r H Hr. apply (psingle_data (column pf) t b s g r CN); auto. apply single_paints. auto. Qed.
  Lemma wsingle_print : forall t b s g, watching_single ord pf (t, b, s) g ->
    exists qs, NoDup qs /\ (forall q, In q qs <-> view_path s q) /\ SpecPrint.branches [] qs /\
      StorePrint.store_print g = Ok (map (fun q => SpecPrint.arrows (pred (length q)) (last q "")) qs).
  Proof. intros t b s g H. apply PrintStore.print_shown. apply (wsingle_shows t b s g H). Qed.
End Single.

(** ** Rows that stay *)
Lemma lodged_seated : forall pf, faithful pf -> forall T x g cs cs', lodged g cs -> hear cs x cs' -> names_live (T, x) -> mindful T x cs' -> (True -> newb cs x = true) ->
  exists g', on_signal pf T x g = (g', Ok tt) /\ lodged g' cs' /\ seated g g' [x].
Proof.
  intros pf AL T x g cs cs' Lo Hh Hn Hm N. destruct (lodged_step pf AL T x g cs cs' Lo Hh Hn Hm N) as (g' & E & Lo' & _). exists g'. split; auto. split; auto.
  destruct Lo as [(L & HL) O]. apply (seated_step pf T x L g cs cs' g' AL HL (one_place_cache L g cs HL O) Hh Hn E).
Qed.
Lemma wsingle_stays : forall ord pf, (forall k l, Permutation (ord k l) l) -> faithful pf ->
  forall o t b s g t' b' s' g' r0, watching_single ord pf (t, b, s) g -> supported (t, b, s) (VTree o) -> one_parent (after o t) ->
  widget_call ord pf (VTree o) (t, b, s) g = (t', b', s', g', r0) ->
  forall r q, at_path (rows g) r q -> view_path s' q -> exists r', at_path (rows g') r' q /\ r_addr r' = r_addr r.
Proof.
  intros ord pf HO AL o t b s g t' b' s' g' r0 W X L E r q P V.
  pose proof (single_held ord pf HO AL _ _ _ _ (single_paints ord pf AL _ _ W)) as (Hd & L0 & _).
  assert (L1 : one_parent (base_tree (fst (view_call ord (VTree o) (t, b, s))))).
  { cbn [view_call]. destruct (feed ord b (events o t) s). exact L. }
  destruct (call_one ord HO (on_signal pf) lodged seated True seated_nil seated_app (lodged_seated pf AL) (VTree o) t b s g Hd X
    (fun _ => lone_after ord (VTree o) t b s (held_reg _ _ _ _ _ Hd) L0 L1)) as (t2 & b2 & s2 & g2 & E2 & _ & E3 & R & _).
  rewrite client_is_widget, E in E2. inversion E2; subst t2 b2 s2 g2 r0. clear E2. apply R; auto.
  pose proof (wsingle_shows ord pf HO AL t b s g W) as (_ & _ & S3 & _). assert (V0 : view_path s q) by (apply (S3 r); auto).
  assert (Et : t' = after o t /\ b' = b) by (cbn [view_call] in E3; destruct (feed ord b (events o t) s); inversion E3; auto). destruct Et; subst t' b'.
  destruct Hd as (l & v & cs & -> & C & _). intros n. destruct (current_call ord HO (VTree o) t b v C X) as (v' & E1 & _). cbn [new_tree new_bank] in E1.
  rewrite pre_call, E1 in E3. inversion E3; subst. rewrite news_pre. apply (stays_current ord HO o t b v v' (Ok tt)); auto.
Qed.

(** ** Whom the view announces *)
Definition noted (T : mtree) (x : sig) (cs : list (list id)) : list (list id) * res unit := (learn cs x, Ok tt).
Definition all_new (p p' : list (list id)) (l : list sig) : Prop := p' = fold_left learn l p /\ freshb p l = true.
Lemma freshb_app : forall a b cs, freshb cs (a ++ b) = freshb cs a && freshb (fold_left learn a cs) b.
Proof. induction a; intros b cs; simpl; auto. rewrite IHa. apply andb_assoc. Qed.
Lemma noted_step : forall T x p cs cs', p = cs -> hear cs x cs' -> names_live (T, x) -> mindful T x cs' -> (True -> newb cs x = true) ->
  exists p', noted T x p = (p', Ok tt) /\ p' = cs' /\ all_new p p' [x].
Proof.
  intros T x p cs cs' -> Hh _ _ N. exists cs'. rewrite (hear_learn _ _ _ Hh). split; [reflexivity|]. split; auto. split; auto. simpl. rewrite N; auto.
Qed.

Lemma hear_alike : forall cs x c1 ds, hear cs x c1 -> (forall l, In l cs <-> In l ds) -> exists d1, hear ds x d1 /\ forall l, In l c1 <-> In l d1.
Proof.
  intros cs x c1 ds H E. destruct H.
  - exists (ds ++ [q ++ [n]]). split; [constructor; rewrite <- E; auto; destruct H0; auto; right; apply E; auto|].
    intros y. rewrite !in_app_iff, E. reflexivity.
  - exists (filter (fun p => negb (path_eqb p (q ++ [n]))) ds). split; [constructor; [apply E; auto|intros bl Hb; rewrite <- E; auto]|].
    intros y. rewrite !filter_In, E. reflexivity.
  - exists ds. split; [constructor; apply E; auto|]. auto.
  - exists ds. split; [constructor|]. auto.
Qed.
Lemma hear_all_alike : forall l cs c1 ds, hear_all cs l c1 -> (forall x, In x cs <-> In x ds) -> exists d1, hear_all ds l d1 /\ forall x, In x c1 <-> In x d1.
Proof.
  induction l as [|x l IH] using rev_ind; intros cs c1 ds H S.
  - apply hear_all_nil in H. subst. exists ds. split; auto. constructor.
  - apply hear_all_snoc in H. destruct H as (c & A & B). destruct (IH _ _ _ A S) as (d & D1 & D2).
    destruct (hear_alike _ _ _ _ B D2) as (e & E1 & E2). exists e. split; auto. econstructor; eauto.
Qed.

Section New.
  Variable ord : nat -> list id -> list id.
  Hypothesis HO : forall k l, Permutation (ord k l) l.

  Lemma announces_new : forall t b s c, viewing ord (t, b, s) -> supported (t, b, s) c -> one_parent t ->
    let '(t', _, s') := fst (view_call ord c (t, b, s)) in one_parent t' ->
    forall cs a n q rest cs1, (forall l, In l cs <-> view_path s l) -> news s s' = a ++ SAdded n q :: rest -> hear_all cs a cs1 ->
    forall p, ~ In (p ++ [n]) cs1.
  Proof.
    intros t b s c V X L. destruct (view_call ord c (t, b, s)) as [[[t' b'] s'] r] eqn:E. cbn [fst].
    intros L' cs a n q rest cs1 K N H p Hp. pose proof (viewing_current ord HO _ V) as C. simpl in C.
    destruct (current_heard _ _ _ C) as (cs0 & Hh & K0).
    assert (Hd : cheld (fun p cs => p = cs) t b s cs0).
    { exists [], s, cs0. split; [destruct s; reflexivity|]. split; auto. split; [apply (viewing_ready ord HO _ V)|]. auto. }
    assert (LC : lone_call c t).
    { apply (lone_after ord c t b s (c_reg _ _ _ C) L). rewrite E. exact L'. }
    destruct (call_one ord HO noted (fun p cs => p = cs) all_new True (fun p => conj eq_refl eq_refl)) with (c := c) (t := t) (b := b) (s := s) (p := cs0)
      as (t2 & b2 & s2 & p2 & _ & _ & EV & (_ & R) & _); auto.
    { intros p0 q0 r0 l l' [-> H1] [-> H2]. split; [rewrite fold_left_app; auto|]. rewrite freshb_app, H1, H2. auto. }
    { intros T x p0 c0 c1. apply noted_step. }
    rewrite E in EV. inversion EV; subst t2 b2 s2. rewrite N, freshb_app in R. apply andb_prop in R. destruct R as [_ R]. cbn [freshb] in R. apply andb_prop in R. destruct R as [R _].
    destruct (hear_all_alike a cs cs1 cs0 H) as (d1 & H1 & S1); [intros l; rewrite K, K0; tauto|].
    rewrite <- (hear_all_learn _ _ _ H1) in R. pose proof (proj1 (newb_iff _ _ _) R p) as Y. apply Y, S1. exact Hp.
  Qed.

  Lemma single_path : forall t b s p q n, viewing ord (t, b, s) -> one_parent t -> view_path s (p ++ [n]) -> view_path s (q ++ [n]) -> p = q.
  Proof.
    intros t b s p q n V L. pose proof (viewing_current ord HO _ V) as C. simpl in C. pose proof (current_lone t b s C L) as LC.
    pose proof (synced_sound _ _ _ (c_sync _ _ _ C)) as So.
    assert (Top : forall x y z, In x (kids s y) -> ~ (y = froot s /\ exists u, In y (kids s u) /\ z = u)).
    { intros x y z _ (-> & u & Hu & _). apply (so_sym _ So) in Hu. rewrite (so_top _ So) in Hu. destruct Hu. }
    revert q n. induction p as [|x p IH] using rev_ind; intros q n [_ P] [_ Q].
    - destruct q as [|y q _] using rev_ind; auto. exfalso. apply downward_app in Q. destruct Q as [Q1 [Q2 _]].
      rewrite last_last in Q2. simpl in P. pose proof (LC n _ _ (proj1 P) Q2) as <-.
      apply downward_app in Q1. destruct Q1 as [_ [Q1 _]]. apply (Top n (froot s) (last q (froot s)) (proj1 P)). eauto.
    - apply downward_app in P. destruct P as [P1 [P2 _]]. rewrite last_last in P2. destruct q as [|y q _] using rev_ind.
      + exfalso. simpl in Q. pose proof (LC n _ _ (proj1 Q) P2) as <-.
        apply downward_app in P1. destruct P1 as [_ [P1 _]]. apply (Top n (froot s) (last p (froot s)) (proj1 Q)). eauto.
      + apply downward_app in Q. destruct Q as [Q1 [Q2 _]]. rewrite last_last in Q2. pose proof (LC n _ _ P2 Q2) as <-.
        f_equal. apply (IH q x); split; auto; destruct p + destruct q; discriminate.
  Qed.
End New.
