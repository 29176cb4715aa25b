(** The widget: an open row stays open. *)
From Coq Require Import Permutation.
From Verif Require Import Base BaseFacts MainTree Spec MainFacts MainInv MainRun MainReg MainTight MainPaths SpecMove MoveFacts Filters FTree SpecApi SpecView SpecViewing
  FtBase FtWalk FtEdge FtUp FtFront FtDown FtSync FtTree FtOps FtSent FtKeep FtState FtView FtThm FtSignals FtHist FtQuiet FtRead
  Gtk SpecGtk GtkFacts GtkView GtkRemove Widget SpecWidget FtMind ClientFacts ConnectFacts WidgetFacts WidgetUse SpecExpand WidgetExpand WidgetClose WidgetStill
  WidgetLast SpecLone LoneTree LoneFacts LoneWidget SpecExpandLone WidgetExpandLone SpecSteady.
Open Scope f_scope.

Lemma wide_same : forall p p' q a, rows (store p') = rows (store p) -> expanded p' = expanded p -> wide p q a -> wide p' q a.
Proof. intros p p' q a R X (A & B & C). unfold wide. rewrite R, X. split; [exact A|]. split; [exact B|]. rewrite (has_rows_rows a (store p) (store p') R). exact C. Qed.

Section Steady.
  Variable ord : nat -> list id -> list id.
  Variable pf : platform.
  Hypothesis HO : forall k l, Permutation (ord k l) l.
  Hypothesis AL : faithful pf.
  Variable QO : Prop.
  Variable CI : list (list id * row) -> gtk -> list (list id) -> Prop.
  Hypothesis CR : cache_rule pf QO CI.

  Lemma wide_paths : forall opening m q a cs ps p, kept CI p cs -> (opening = false -> ~ In m q) -> (forall z, In z ps -> z = [] \/ In z cs) -> wide p q a ->
    wide (fst (collapse_paths opening m ps p)) q a.
  Proof.
    intros opening m q a cs ps. induction ps as [|z ps IH]; intros p D Hm Hp W; [exact W|]. destruct D as (L & HL & FC).
    cbn [collapse_paths]. destruct (get_iter_fwd L cs z (store p) HL (cr_good _ _ _ CR _ _ _ HL FC) (Hp z (or_introl eq_refl))) as (g1 & it & E1 & Fo & R). rewrite E1.
    pose proof (layout_recached _ _ _ _ HL R) as HL1. pose proof (cr_step _ _ _ CR _ _ _ _ _ _ _ HL FC (recached_evolves pf L _ _ R) (hear_run cs "" 0) (fun _ => eq_refl)) as FC1.
    assert (Hp' : forall z, In z ps -> z = [] \/ In z cs) by (intros; apply Hp; right; auto).
    assert (D1 : kept CI (set_store g1 p) cs) by (exists L; auto).
    apply (wide_spot L cs p q a HL) in W. destruct W as (S & B & C).
    assert (W1 : wide (set_store g1 p) q a) by (apply (wide_spot L cs (set_store g1 p) q a HL1); auto).
    destruct it as [x|]; [|apply IH; auto]. destruct (match row_at x g1 with Some r => String.eqb (r_id r) m | None => false end) eqn:Er; [|apply IH; auto].
    cbn [fst]. destruct (row_at x g1) as [r|] eqn:Ra; [|discriminate]. apply String.eqb_eq in Er. destruct opening.
    - destruct (rows_paths_store x false (set_store g1 p)) as (T1 & _ & _). apply IH; auto.
      + exists L. change (store (remember z (expand_row x false (set_store g1 p)))) with (store (expand_row x false (set_store g1 p))). rewrite T1. auto.
      + apply (wide_spot L cs _ q a). { change (store (remember z (expand_row x false (set_store g1 p)))) with (store (expand_row x false (set_store g1 p))). rewrite T1. exact HL1. }
        split; [exact S|]. split; [|exact C]. apply one_row_open. left. exact B.
    - apply IH; [exists L; auto|exact Hm|exact Hp'|]. apply (wide_spot L cs (remember z (collapse_row x (set_store g1 p))) q a HL1). split; [exact S|]. split; [|exact C].
      cbn [expanded remember collapse_row set_expanded]. apply filter_In. split; [exact B|]. apply negb_true_iff. apply not_true_iff_false. intros X.
      apply existsb_exists in X. destruct X as (y & Hy & Ey). apply Nat.eqb_eq in Ey. subst y.
      destruct (lay_row_at _ _ _ Ra) as [Ir Ea]. destruct (lay_row _ _ _ HL1 r Ir) as (l & Il). assert (Sl : spot L l x) by (exists r; auto).
      apply (rows_under_spots _ _ _ HL1 l x a Sl) in Hy. destruct Hy as (w & Sw). apply (Hm eq_refl). rewrite (spot_path _ _ _ HL1 q (l ++ w) a S Sw).
      apply in_app_iff. left. destruct (l_path _ _ _ HL1 _ _ Il) as (q0 & -> & _). apply in_app_iff. right. left. exact Er.
  Qed.

  Lemma wide_id : forall opening m q a t b s p s' p' r, cheld (kept CI) t b s p -> (opening = false -> ~ In m q) -> wide p q a -> collapse_id opening m s p = (s', p', r) -> wide p' q a.
  Proof.
    intros opening m q a t b s p s' p' r D Hm W. unfold collapse_id. destruct (truthy m) eqn:Tn; cbn [negb]; [|intros E; inversion E; subst; exact W].
    destruct D as (l & v & cs & -> & C & Rd & Hh & Fp). rewrite pre_paths.
    destruct (current_heard _ _ _ C) as (cs' & Hh' & K). rewrite (hear_all_det _ _ _ _ Hh' Hh) in K. clear cs' Hh'.
    pose proof (synced_sound _ _ _ (c_sync _ _ _ C)) as So.
    assert (PS : exists P, view_paths v m = Ok P /\ forall z, In z P -> z = [] \/ In z cs).
    { destruct (in_dec id_dec m (view_all_nodes v)) as [Hv|Hv].
      - destruct (sound_paths v m So Hv) as (P & EP & _ & HP). exists P. split; auto. intros z Hz. right. apply K. apply HP. exact Hz.
      - exists [[]]. split; [|intros z [<-|[]]; auto]. apply other_paths. destruct (is_displayed v m) eqn:Dn; auto. right. destruct (id_dec m (froot v)); auto. exfalso. apply Hv. apply all_nodes_In; [apply So|auto]. }
    destruct PS as (P & -> & HP). pose proof (wide_paths opening m q a cs P p Fp Hm HP W) as W1. destruct (collapse_paths opening m P p) as [p1 seen]. cbn [fst] in W1.
    destruct seen; [intros E; inversion E; subst; exact W1|]. destruct (queue_action m (if opening then 1 else 0) (pre l v)) as [s0 [[]|e|]]; intros E; inversion E; subst; try exact W1;
      repeat match goal with H : context [if ?c then _ else _] |- _ => destruct c end; exact W1.
  Qed.

  Lemma wide_user : forall p q a l, wide p q a -> In a l -> wide (set_expanded l p) q a.
  Proof. intros p q a l (A & _ & C) H. split; [exact A|]. split; [exact H|exact C]. Qed.

  (** What is kept along a history. *)
  Definition goes_on (q : list id) (a : nat) (x : viewed) (p : panel) : Prop := (let '(t, b, s) := x in cheld (kept CI) t b s p) /\ wide p q a.

  Lemma on_call : forall q a t b s p c x' p' r, goes_on q a (t, b, s) p -> supported (t, b, s) c -> (QO -> lone_call c t) -> panel_call pf ord c (t, b, s) p = (x', p', r) ->
    (forall m, ~ In (SDeleted m (q ++ [m])) (news s (snd x'))) -> goes_on q a x' p'.
  Proof.
    intros q a t b s p c x' p' r [D W] X Lc E N. destruct (keeping_call ord pf HO AL QO CI CR c t b s p D X Lc) as (t2 & b2 & s2 & p2 & E2 & D2 & _).
    pose proof (last_call ord pf HO AL QO CI CR c t b s p t2 b2 s2 p2 (Ok tt) D X Lc E2) as La. rewrite E2 in E. inversion E; subst. split; [exact D2|]. apply La; auto.
  Qed.
  Lemma on_sort : forall q a x p rs, goes_on q a x p -> Permutation rs (rows (store p)) ->
    goes_on q a x (set_store (mkGtk rs (clock (store p)) (Gtk.cache_paths (store p)) (cache_position (store p))) p).
  Proof.
    intros q a [[t b] s] p rs [D W] P. split; [apply (keeping_sort pf QO CI CR); auto|].
    destruct W as ((r & A & Ea) & B & C). destruct D as (l & v & cs & _ & _ & _ & _ & (L & HL & FC)).
    set (g' := mkGtk rs (clock (store p)) (Gtk.cache_paths (store p)) (cache_position (store p))).
    destruct (layout_sort L (store p) g' cs HL P eq_refl) as (L' & HL' & PL). apply (wide_spot L' cs (set_store g' p) q a HL').
    assert (S : spot L q a) by (exists r; split; [apply (layout_at _ _ _ HL); exact A|exact Ea]).
    split; [destruct S as (r1 & I1 & E1); exists r1; split; [apply (Permutation_in _ (Permutation_sym PL)); exact I1|exact E1]|]. split; [exact B|]. apply (below_rows _ _ _ HL _ _ S). exact C.
  Qed.
  Lemma on_node : forall q a opening (llpath : list id) t b s p s' p' r, goes_on q a (t, b, s) p -> (QO -> lone_tree t) ->
    (forall (above : list id) (n : id), llpath = above ++ [n] -> opening = false -> ~ In (strip n) q) -> collapse_node opening llpath s p = (s', p', r) -> goes_on q a (t, b, s') p'.
  Proof.
    intros q a opening llpath t b s p s' p' r [D W] Lt Hm E. split; [apply (keeping_node ord pf HO AL QO CI CR opening llpath t b s p s' p' r D Lt E)|].
    unfold collapse_node in E. destruct (@rev id llpath) as [|n rest] eqn:Er; [inversion E; subst; exact W|].
    apply (wide_id opening (strip n) q a t b s p s' p' r D); auto. apply (Hm (rev rest)). rewrite <- (rev_involutive llpath), Er. reflexivity.
  Qed.
  Lemma on_idle : forall q a t b s p s' p' r, goes_on q a (t, b, s) p -> (QO -> lone_tree t) -> (forall n rest, idle_calls p = (n, false) :: rest -> ~ In n q) ->
    run_idle s p = (s', p', r) -> goes_on q a (t, b, s') p'.
  Proof.
    intros q a t b s p s' p' r [D W] Lt Hi E. split; [apply (keeping_turn ord pf HO AL QO CI CR t b s p s' p' r D Lt E)|].
    unfold run_idle in E. destruct (idle_calls p) as [|[n o] rest] eqn:Ei; [inversion E; subst; exact W|].
    apply (wide_id o n q a t b s (set_idle rest p) s' p' r (keeping_idle CI _ _ _ _ _ D)); auto. intros ->. apply (Hi n rest). reflexivity.
  Qed.
  Lemma on_user : forall q a x p l, goes_on q a x p -> In a l -> goes_on q a x (set_expanded l p).
  Proof. intros q a [[t b] s] p l [D W] H. split; [apply keeping_user; exact D|apply wide_user; auto]. Qed.

  Lemma steady_on : forall q a x0 p0, ~ QO -> goes_on q a x0 p0 -> forall x p, steady ord pf q a x0 p0 x p -> goes_on q a x p.
  Proof.
    intros q a x0 p0 NQ D0 x p H.
    induction H as [|[[t b] s] p c x' p' r H IH X E N|x p rs H IH P|opening llpath t b s p s' p' r H IH Hm E|t b s p s' p' r H IH Hi E|x p l H IH Hl].
    - exact D0.
    - apply (on_call q a t b s p c x' p' r); auto. tauto.
    - apply on_sort; auto.
    - apply (on_node q a opening llpath t b s p s' p' r); auto. tauto.
    - apply (on_idle q a t b s p s' p' r); auto. tauto.
    - apply on_user; auto.
  Qed.
  Lemma ssteady_on : forall q a x0 p0, goes_on q a x0 p0 -> one_parent (base_tree x0) -> forall x p, steady_single ord pf q a x0 p0 x p -> goes_on q a x p /\ one_parent (base_tree x).
  Proof.
    intros q a x0 p0 D0 L0 x p H.
    induction H as [|[[t b] s] p c x' p' r H IH X E N L|x p rs H IH P|opening llpath t b s p s' p' r H IH Hm E|t b s p s' p' r H IH Hi E|x p l H IH Hl].
    - auto.
    - destruct IH as [D L1]. split; [|exact L]. apply (on_call q a t b s p c x' p' r); auto. intros _.
      pose proof (panel_base ord pf c (t, b, s) p) as PB. rewrite E in PB. cbn [fst] in PB.
      apply (lone_after ord c t b s); [apply (chel_reg _ _ _ _ _ (proj1 D))|exact L1|rewrite <- PB; exact L].
    - destruct IH. split; [apply on_sort; auto|auto].
    - destruct IH as [D L1]. split; [|exact L1]. apply (on_node q a opening llpath t b s p s' p' r); auto.
    - destruct IH as [D L1]. split; [|exact L1]. apply (on_idle q a t b s p s' p' r); auto.
    - destruct IH. split; [apply on_user; auto|auto].
  Qed.
End Steady.

Lemma found_wide : forall p q r, at_path (rows (store p)) r q -> is_open p r -> has_below (rows (store p)) r -> wide p q (r_addr r).
Proof. intros p q r A B C. split; [exists r; auto|]. split; [exact B|]. apply has_rows_below; exact C. Qed.
Lemma wide_found : forall p q a, wide p q a -> exists r, at_path (rows (store p)) r q /\ r_addr r = a /\ is_open p r /\ has_below (rows (store p)) r.
Proof. intros p q a ((r & A & E) & B & C). exists r. split; [exact A|]. split; [exact E|]. split; [unfold is_open; rewrite E; exact B|]. apply has_rows_below. rewrite E. exact C. Qed.

Lemma use_steady : forall ord pf, (forall k l, Permutation (ord k l) l) -> faithful pf -> never_reuses pf ->
  forall x p r q x' p', handled ord pf x p -> at_path (rows (store p)) r q -> is_open p r -> has_below (rows (store p)) r -> steady ord pf q (r_addr r) x p x' p' ->
  exists r', at_path (rows (store p')) r' q /\ r_addr r' = r_addr r /\ is_open p' r' /\ has_below (rows (store p')) r'.
Proof.
  intros ord pf HO AL NR x p r q x' p' H A B C S.
  apply wide_found. apply (steady_on ord pf HO AL False (by_address pf) (address_rule pf NR) q (r_addr r) x p (fun f => f)) in S; [exact (proj2 S)|].
  split; [exact (handled_inv ord pf HO AL NR _ _ H)|]. apply found_wide; auto.
Qed.

Lemma use_steady_single : forall ord pf, (forall k l, Permutation (ord k l) l) -> faithful pf ->
  forall x p r q x' p', handled_single ord pf x p -> at_path (rows (store p)) r q -> is_open p r -> has_below (rows (store p)) r -> steady_single ord pf q (r_addr r) x p x' p' ->
  exists r', at_path (rows (store p')) r' q /\ r_addr r' = r_addr r /\ is_open p' r' /\ has_below (rows (store p')) r'.
Proof.
  intros ord pf HO AL x p r q x' p' H A B C S. pose proof (hsingle_inv ord pf HO AL _ _ H) as I. destruct x as [[t b] s]. destruct I as [D L].
  apply wide_found. apply (ssteady_on ord pf HO AL True _ (place_rule pf) q (r_addr r) (t, b, s) p) in S; [exact (proj2 (proj1 S))| |exact L].
  split; [exact D|]. apply found_wide; auto.
Qed.

Lemma goes_sight : forall CI q a x p, goes_on CI q a x p -> forall r n, at_path (rows (store p)) r (q ++ [n]) -> q <> [] -> r_parent r = Some a /\ in_sight p r.
Proof.
  intros CI q a [[t b] s] p [D ((r0 & A0 & E0) & B & C)] r n A Nq. destruct (keeping_shows CI t b s p D) as (_ & _ & _ & _ & U). unfold in_sight.
  remember (q ++ [n]) as z eqn:Ez. destruct A as [r I1 P1|r q1 l1 I1 P1 A1].
  - exfalso. change ([] ++ [r_id r] = q ++ [n]) in Ez. apply app_inj_tail in Ez. destruct Ez as [E1 _]. apply Nq. symmetry. exact E1.
  - apply app_inj_tail in Ez. destruct Ez as [-> _]. rewrite P1. rewrite (U _ _ _ A1 A0), E0. split; [reflexivity|exact B].
Qed.

Lemma use_sight : forall ord pf, (forall k l, Permutation (ord k l) l) -> faithful pf -> never_reuses pf ->
  forall x p r q x' p', handled ord pf x p -> at_path (rows (store p)) r q -> is_open p r -> has_below (rows (store p)) r -> steady ord pf q (r_addr r) x p x' p' ->
  forall r' n, at_path (rows (store p')) r' (q ++ [n]) -> r_parent r' = Some (r_addr r) /\ in_sight p' r'.
Proof.
  intros ord pf HO AL NR x p r q x' p' H A B C S r' n A'.
  apply (steady_on ord pf HO AL False (by_address pf) (address_rule pf NR) q (r_addr r) x p (fun f => f)) in S.
  - apply (goes_sight _ _ _ _ _ S r' n A'). inversion A; [discriminate|]. intros Z. symmetry in Z. apply app_cons_not_nil in Z. exact Z.
  - split; [exact (handled_inv ord pf HO AL NR _ _ H)|]. apply found_wide; auto.
Qed.
Lemma use_sight_single : forall ord pf, (forall k l, Permutation (ord k l) l) -> faithful pf ->
  forall x p r q x' p', handled_single ord pf x p -> at_path (rows (store p)) r q -> is_open p r -> has_below (rows (store p)) r -> steady_single ord pf q (r_addr r) x p x' p' ->
  forall r' n, at_path (rows (store p')) r' (q ++ [n]) -> r_parent r' = Some (r_addr r) /\ in_sight p' r'.
Proof.
  intros ord pf HO AL x p r q x' p' H A B C S r' n A'. pose proof (hsingle_inv ord pf HO AL _ _ H) as I. destruct x as [[t b] s]. destruct I as [D L].
  apply (ssteady_on ord pf HO AL True _ (place_rule pf) q (r_addr r) (t, b, s) p) in S; [| |exact L].
  - apply (goes_sight _ _ _ _ _ (proj1 S) r' n A'). inversion A; [discriminate|]. intros Z. symmetry in Z. apply app_cons_not_nil in Z. exact Z.
  - split; [exact D|]. apply found_wide; auto.
Qed.
