(** The widget: open rows stay open. *)
From Coq Require Import Permutation.
From Verif Require Import Base BaseFacts MainTree Spec MainFacts MainInv MainRun MainReg MainTight MainPaths SpecMove MoveFacts Filters FTree SpecApi SpecView SpecViewing
  FtBase FtWalk FtEdge FtUp FtFront FtDown FtSync FtTree FtOps FtSent FtKeep FtState FtView FtThm FtSignals FtHist FtQuiet FtRead
  Gtk SpecGtk GtkFacts GtkView GtkRemove Widget SpecWidget FtMind ClientFacts ConnectFacts WidgetFacts WidgetUse SpecExpand WidgetExpand WidgetClose WidgetStill
  SpecLone LoneTree LoneFacts LoneWidget SpecExpandLone WidgetExpandLone.
Open Scope f_scope.

(** The row with address [a] is at the path, is open and has rows below it. *)
Definition wide (p : panel) (q : list id) (a : nat) : Prop :=
  (exists r, at_path (rows (store p)) r q /\ r_addr r = a) /\ In a (expanded p) /\ has_rows a (store p) = true.
Definition lasting (p p' : panel) (l : list sig) : Prop :=
  forall q a, wide p q a -> (forall m, ~ In (SDeleted m (q ++ [m])) l) -> wide p' q a.

Lemma lasting_nil : forall p, lasting p p [].
Proof. intros p q a H _. exact H. Qed.
Lemma lasting_app : forall p p1 p2 l l', lasting p p1 l -> lasting p1 p2 l' -> lasting p p2 (l ++ l').
Proof. intros p p1 p2 l l' A B q a H N. apply B; [apply A; [exact H|]|]; intros m I; apply (N m); apply in_app_iff; auto. Qed.

Lemma toggled_more : forall a p, store (on_child_toggled a p) = store p /\ incl (expanded p) (expanded (on_child_toggled a p)).
Proof.
  intros a p. unfold on_child_toggled. destruct (row_at a (store p)) as [r|]; [|split; [auto|apply incl_refl]].
  destruct (_ && _); [|split; [auto|apply incl_refl]]. unfold expand_row. destruct (_ && _); [|split; [auto|apply incl_refl]].
  split; [reflexivity|]. intros x Hx. cbn [expanded set_expanded]. apply in_app_iff. auto.
Qed.

Section Last.
  Variable ord : nat -> list id -> list id.
  Variable pf : platform.
  Hypothesis HO : forall k l, Permutation (ord k l) l.
  Hypothesis AL : faithful pf.
  Variable QO : Prop.
  Variable CI : list (list id * row) -> gtk -> list (list id) -> Prop.
  Hypothesis CR : cache_rule pf QO CI.

  Lemma wide_spot : forall L cs p q a, layout L (store p) cs -> (wide p q a <-> spot L q a /\ In a (expanded p) /\ exists n, In (q ++ [n]) cs).
  Proof.
    intros L cs p q a HL. unfold wide. split.
    - intros ((r & A & E) & B & C). assert (S : spot L q a) by (exists r; split; [apply (layout_at _ _ _ HL); exact A|exact E]).
      split; [exact S|]. split; [exact B|]. apply (below_rows _ _ _ HL _ _ S). exact C.
    - intros (S & B & C). split; [destruct S as (r & I & E); exists r; split; [apply (layout_at _ _ _ HL); exact I|exact E]|].
      split; [exact B|]. apply (below_rows _ _ _ HL _ _ S). exact C.
  Qed.

  Lemma last_step : forall T x p cs cs', kept CI p cs -> hear cs x cs' -> names_live (T, x) -> mindful T x cs' -> (QO -> newb cs x = true) ->
    exists p', on_panel_signal pf T x p = (p', Ok tt) /\ kept CI p' cs' /\ lasting p p' [x].
  Proof.
    intros T x p cs cs' (L & HL & FC) H Hn _ Nw. pose proof H as H0. destruct H as [cs q m N1 N2|cs q m N1 N2|cs q m N1|cs m k]; cbn [on_panel_signal].
    - rewrite removelast_last. destruct (get_iter_fwd L cs q (store p) HL (cr_good _ _ _ CR _ _ _ HL FC) N2) as (g0 & it & E0 & Fo & _). rewrite E0. cbn [snd].
      destruct (added_ok pf T L (store p) cs m q AL HL (cr_good _ _ _ CR _ _ _ HL FC) Hn N1 N2) as (g1 & L1 & E1 & HL1 & EV & r & Fr & Er & P).
      rewrite E1. pose proof (cr_step _ _ _ CR _ _ _ _ _ _ _ HL FC EV H0 Nw) as FC1.
      eexists. split; [reflexivity|].
      match goal with |- kept CI ?p2 _ /\ _ => assert (Z : store p2 = g1 /\ incl (expanded p) (expanded p2)) end.
      { destruct it as [a|]; [|split; [auto|apply incl_refl]]. destruct (Nat.eqb _ 1); [|split; [auto|apply incl_refl]]. apply (toggled_more a (set_store g1 p)). }
      destruct Z as [Z1 Z2]. split; [exists L1; rewrite Z1; auto|]. intros q' a W _. apply (wide_spot L cs p q' a HL) in W. destruct W as (S & B & n & C).
      apply (wide_spot L1 (cs ++ [q ++ [m]])); [rewrite Z1; exact HL1|]. split; [apply (spots_added L L1 (q ++ [m], r)); auto|]. split; [apply Z2; exact B|].
      exists n. apply in_app_iff. auto.
    - destruct (deleted_ok pf T L (store p) cs m q HL (cr_good _ _ _ CR _ _ _ HL FC) N1 N2) as (g1 & L1 & E1 & HL1 & EV & EL).
      rewrite E1. pose proof (cr_step _ _ _ CR _ _ _ _ _ _ _ HL FC EV H0 Nw) as FC1.
      eexists. split; [reflexivity|]. split; [exists L1; auto|]. intros q' a W Nd. apply (wide_spot L cs p q' a HL) in W. destruct W as (S & B & n & C).
      assert (Keep : forall l, In l cs -> l <> q ++ [m] -> In l (filter (fun l => negb (path_eqb l (q ++ [m]))) cs)).
      { intros l Il Nl. apply filter_In. split; [exact Il|]. destruct (path_eqb l (q ++ [m])) eqn:Q; auto. apply path_eqb_eq in Q. contradiction. }
      assert (C1 : In (q' ++ [n]) (filter (fun l => negb (path_eqb l (q ++ [m]))) cs)).
      { apply Keep; [exact C|]. intros X. apply app_inj_tail in X. destruct X as [-> ->]. apply (Nd m). left. reflexivity. }
      assert (Q1 : In q' (filter (fun l => negb (path_eqb l (q ++ [m]))) cs)).
      { apply Keep; [apply (spot_cs _ _ _ HL _ _ S)|]. intros ->. apply (N2 [n]); [discriminate|]. rewrite app_assoc. exact C. }
      destruct (lay_cs _ _ _ HL1 _ Q1) as (r1 & I1). assert (I0 : In (q', r1) L) by (rewrite EL in I1; apply filter_In in I1; apply I1).
      assert (S1 : spot L1 q' a) by (exists r1; split; [exact I1|]; apply (spot_addr _ _ _ HL q'); [exists r1; auto|exact S]).
      apply (wide_spot L1 _ (mkPanel g1 _ _ _) q' a HL1). split; [exact S1|]. split; [|exists n; exact C1].
      cbn [expanded]. apply filter_In. split; [exact B|]. apply (below_rows _ _ _ HL1 _ _ S1). exists n. exact C1.
    - destruct (modified_ok pf T L (store p) cs m q AL HL (cr_good _ _ _ CR _ _ _ HL FC) Hn N1) as (g1 & L1 & E1 & HL1 & EV & r & nd & Ir & _ & EL).
      rewrite E1. pose proof (cr_step _ _ _ CR _ _ _ _ _ _ _ HL FC EV H0 Nw) as FC1. eexists. split; [reflexivity|]. split; [exists L1; auto|].
      assert (SP : forall l a, spot L1 l a <-> spot L l a).
      { apply (spot_modified L L1 (store p) g1 cs HL HL1). intros l a (r' & I & <-). destruct (EL _ I) as ([l0 r0] & I0 & E2 & E3). cbn [fst snd] in *.
        subst l0 r'. exists r0. split; auto. destruct (Nat.eqb (r_addr r0) (r_addr r)) eqn:Q; auto. apply Nat.eqb_eq in Q. auto. }
      intros q' a W _. apply (wide_spot L cs p q' a HL) in W. destruct W as (S & B & C). apply (wide_spot L1 cs (set_store g1 p) q' a HL1).
      split; [apply SP; exact S|]. split; [exact B|exact C].
    - assert (DX : forall c, kept CI (set_idle c p) cs) by (intros c; exists L; auto).
      destruct k as [|[|k]]; cbn [on_panel_signal]; eexists; (split; [reflexivity|]); (split; [first [apply DX|exists L; auto]|]); intros q' a W _; exact W.
  Qed.

  Lemma last_call : forall c t b s p t' b' s' p' r, cheld (kept CI) t b s p -> supported (t, b, s) c -> (QO -> lone_call c t) ->
    panel_call pf ord c (t, b, s) p = (t', b', s', p', r) -> lasting p p' (news s s').
  Proof.
    intros c t b s p t' b' s' p' r D X Lc E.
    destruct (call_one ord HO (on_panel_signal pf) (kept CI) lasting QO lasting_nil lasting_app last_step c t b s p D X Lc) as (t2 & b2 & s2 & p2 & E2 & _ & _ & R & _).
    unfold panel_call in E. rewrite E2 in E. inversion E; subst. exact R.
  Qed.
End Last.

Definition stays_open (p p' : panel) (l : list sig) : Prop :=
  forall r q, at_path (rows (store p)) r q -> is_open p r -> has_below (rows (store p)) r -> (forall m, ~ In (SDeleted m (q ++ [m])) l) ->
  exists r', at_path (rows (store p')) r' q /\ r_addr r' = r_addr r /\ is_open p' r' /\ has_below (rows (store p')) r'.
Lemma lasting_open : forall p p' l, lasting p p' l -> stays_open p p' l.
Proof.
  intros p p' l H r q A B C N. destruct (H q (r_addr r)) as ((r' & A' & E') & B' & C'); [|exact N|].
  - split; [exists r; auto|]. split; [exact B|]. apply has_rows_below. exact C.
  - exists r'. split; [exact A'|]. split; [exact E'|]. split; [unfold is_open; rewrite E'; exact B'|]. apply has_rows_below. rewrite E'. exact C'.
Qed.

Lemma use_lasts : forall ord pf, (forall k l, Permutation (ord k l) l) -> faithful pf -> never_reuses pf ->
  forall t b s p c t' b' s' p' res, handled ord pf (t, b, s) p -> supported (t, b, s) c -> panel_call pf ord c (t, b, s) p = (t', b', s', p', res) ->
  forall r q, at_path (rows (store p)) r q -> is_open p r -> has_below (rows (store p)) r -> (forall m, ~ In (SDeleted m (q ++ [m])) (news s s')) ->
  exists r', at_path (rows (store p')) r' q /\ r_addr r' = r_addr r /\ is_open p' r' /\ has_below (rows (store p')) r'.
Proof.
  intros ord pf HO AL NR t b s p c t' b' s' p' res H X E. apply lasting_open.
  apply (last_call ord pf HO AL False (by_address pf) (address_rule pf NR) c t b s p t' b' s' p' res (handled_inv ord pf HO AL NR _ _ H) X (False_ind _) E).
Qed.

Lemma use_lasts_single : forall ord pf, (forall k l, Permutation (ord k l) l) -> faithful pf ->
  forall t b s p c t' b' s' p' res, handled_single ord pf (t, b, s) p -> supported (t, b, s) c -> panel_call pf ord c (t, b, s) p = (t', b', s', p', res) -> one_parent t' ->
  forall r q, at_path (rows (store p)) r q -> is_open p r -> has_below (rows (store p)) r -> (forall m, ~ In (SDeleted m (q ++ [m])) (news s s')) ->
  exists r', at_path (rows (store p')) r' q /\ r_addr r' = r_addr r /\ is_open p' r' /\ has_below (rows (store p')) r'.
Proof.
  intros ord pf HO AL t b s p c t' b' s' p' res H X E L'. apply lasting_open. destruct (hsingle_inv ord pf HO AL _ _ H) as [D L].
  pose proof (panel_base ord pf c (t, b, s) p) as PB. rewrite E in PB. cbn [fst] in PB.
  apply (last_call ord pf HO AL True _ (place_rule pf) c t b s p t' b' s' p' res D X); [|exact E].
  intros _. apply (lone_after ord c t b s); [apply (chel_reg _ _ _ _ _ D)|exact L|rewrite <- PB; exact L'].
Qed.
