(** The Gtk model: the rows show the current data of their nodes. *)
From Coq Require Import Permutation.
From Verif Require Import Base BaseFacts MainTree Spec MainFacts MainInv MainRun MainReg MainTight Filters FTree SpecApi ApiFacts CountFacts DataFacts FrameFacts
  SpecView SpecViewing SpecTold SpecFrame FtBase FtOps FtView FtThm FtSent FtSignals FtQuiet FtAny FtTold Gtk SpecGtk GtkFacts GtkView GtkRemove.

(** The rows of nodes outside [X] have the data [D]. *)
Definition cols (pf : platform) (X : id -> Prop) (D : id -> option nat) (g : gtk) : Prop :=
  forall r, In r (rows g) -> ~ X (r_id r) -> option_map (column pf) (D (r_id r)) = Some (r_col r).
Definition within (X : id -> Prop) (D : id -> option nat) (T : mtree) : Prop :=
  forall x v, ~ X x -> data_of T x = Some v -> D x = Some v.

Lemma cols_rows : forall pf X D g g', rows g' = rows g -> cols pf X D g -> cols pf X D g'.
Proof. intros pf X D g g' E H r. rewrite E. auto. Qed.

Lemma cols_signal : forall pf T X D x g g' o, faithful pf -> (forall d, column pf d <> None) -> within X D T -> cols pf X D g -> on_signal pf T x g = (g', o) -> cols pf X D g'.
Proof.
  intros pf T X D x g g' o AL CN W C E. destruct x as [n p|n p|n p|f n]; simpl in E.
  - unfold add_task in E. destruct (dget n (nodes T)) as [nd|] eqn:En; [|inversion E; subst; auto].
    destruct (my_get_iter (removelast p) g) as [g1 it] eqn:I. apply get_iter_rows' in I. destruct I as [I1 _]. inversion E; subst. clear E.
    intros r Hr Nx. simpl in Hr. apply (Permutation_in _ (proj2 AL _ _)) in Hr. apply in_app_iff in Hr. rewrite I1 in Hr. destruct Hr as [Hr|[<-|[]]]; auto. simpl in *.
    rewrite (W n (data nd)); auto. unfold data_of. rewrite En. auto.
  - unfold remove_task in E. destruct (my_get_iter p g) as [g1 it] eqn:I. apply get_iter_rows' in I. destruct I as [I1 _].
    assert (C1 : cols pf X D g1) by (apply (cols_rows pf X D g); auto).
    destruct it as [a|]; [|inversion E; subst; auto]. destruct (row_at a g1) as [r|]; [|inversion E; subst; auto].
    destruct (String.eqb (r_id r) n); [|inversion E; subst; auto].
    assert (Z : rows g' = drop_rows a (rows g)).
    { cbv zeta in E. destruct (pget p _); inversion E; subst; simpl; rewrite I1; auto. }
    intros q Hq. rewrite Z in Hq. apply drop_incl in Hq. auto.
  - unfold update_task in E. destruct (dget n (nodes T)) as [nd|] eqn:En; [|inversion E; subst; auto].
    destruct (my_get_iter p g) as [g1 it] eqn:I. apply get_iter_rows' in I. destruct I as [I1 _].
    destruct it as [a|]; inversion E; subst; [|apply (cols_rows pf X D g); auto].
    intros r Hr Nx. simpl in Hr. apply (Permutation_in _ (proj2 AL _ _)) in Hr. apply in_map_iff in Hr. destruct Hr as (r0 & <- & Hr). rewrite I1 in Hr.
    destruct (Nat.eqb (r_addr r0) a); auto. simpl in *. rewrite (W n (data nd)); auto; [|unfold data_of; rewrite En; auto].
    pose proof (CN (data nd)). simpl. destruct (column pf (data nd)); congruence.
  - inversion E; subst. auto.
Qed.

Lemma cols_signals : forall pf T X D l g g' o, faithful pf -> (forall d, column pf d <> None) -> within X D T -> cols pf X D g -> on_signals pf T l g = (g', o) -> cols pf X D g'.
Proof.
  intros pf T X D l. induction l as [|x l IH]; simpl; intros g g' o AL CN W C E; [inversion E; subst; auto|].
  destruct (on_signal pf T x g) as [g1 [u|e|]] eqn:S; [|inversion E; subst; eapply cols_signal; eauto ..].
  eapply IH; [auto|auto|auto| |exact E]. eapply cols_signal; eauto.
Qed.

Lemma cols_feed : forall ord pf X D b es s g s' g' o, faithful pf -> (forall d, column pf d <> None) -> (forall e, In e es -> within X D (ev_tree e)) -> cols pf X D g ->
  feed_widget ord pf b es s g = (s', g', o) -> cols pf X D g'.
Proof.
  intros ord pf X D b es. induction es as [|e es IH]; simpl; intros s g s' g' o AL CN W C E; [inversion E; subst; auto|].
  destruct (external_modify ord b (ev_tree e) (ev_id e) s) as [s1 [u|x|]]; [|inversion E; subst; auto ..].
  destruct (on_signals pf (ev_tree e) (news s s1) g) as [g1 [u1|x|]] eqn:S.
  - eapply IH; [auto|auto| | |exact E]; [intros; apply W; auto|]. eapply cols_signals; eauto.
  - inversion E; subst. eapply cols_signals; eauto.
  - inversion E; subst. eapply cols_signals; eauto.
Qed.

(** The data of a new node. *)
Lemma add_within : forall n nd p t, has_node t n = false ->
  let D := fun x => if String.eqb x n then Some (data nd) else data_of t x in
  wp (run_op (AddNode n nd p)) (fun t' es _ => within (fun _ => False) D t' /\ Forall (fun e => within (fun _ => False) D (ev_tree e)) es) t.
Proof.
  intros n nd p t Hn D.
  set (P := fun A (m : M A) => forall t1, within (fun _ => False) D t1 ->
    wp m (fun t' es _ => within (fun _ => False) D t' /\ Forall (fun e => within (fun _ => False) D (ev_tree e)) es) t1).
  assert (PD : forall A (m : M A), dk (fun _ => False) m -> P _ m).
  { intros A m H t1 W. specialize (H t1). unfold wp in *. destruct (m t1) as [[t2 es] q]. destruct H as [H1 H2]. split.
    - intros x v Nx Hx. apply W; auto.
    - eapply Forall_impl; [|exact H2]. intros e He x v Nx Hx. apply W; auto. }
  assert (PB : forall A B (m : M A) (k : A -> M B), P _ m -> (forall a, P _ (k a)) -> P _ (bind m k)).
  { intros A B m k Hm Hk t1 W. apply wp_bind. pose proof (Hm t1 W) as H. unfold wp in *.
    destruct (m t1) as [[t2 e1] q]. cbn [fst snd] in *. destruct H as [H1 H2]. destruct q as [a|e|]; auto.
    pose proof (Hk a t2 H1) as H. unfold wp in H. destruct (k a t2) as [[t3 e2] q2]. cbn [fst snd] in *. destruct H as [H3 H4]. split; auto. apply Forall_app. auto. }
  assert (W0 : within (fun _ => False) D t).
  { intros x v _ Hx. unfold D. deq x n; auto. subst. unfold data_of in Hx. unfold has_node, dmem in Hn. destruct (dget n (nodes t)); discriminate. }
  enough (PA : P _ (run_op (AddNode n nd p))) by (apply (PA t W0)). cbn [run_op]. unfold add_node.
  repeat first
    [ apply PD; first [apply dk_build_pendings | apply dk_ret | apply dk_raise | apply dk_get | apply dk_is_circular | apply dk_create
      | apply dk_pend_append | apply dk_callback | apply dk_modify; intros; apply dd_nodes; reflexivity]
    | apply PB; [|intros]
    | match goal with |- context [if ?b then _ else _] => destruct b end
    | match goal with |- context [match ?b with _ => _ end] => destruct b end ].
  intros t1 W1. unfold wp. cbn [modify fst snd]. split; [|constructor]. intros x v _ Hx. unfold data_of in Hx. simpl in Hx. rewrite dget_dset in Hx.
  unfold D. deq x n; [inversion Hx; auto|]. specialize (W1 x v (fun f => f)). unfold D in W1. apply String.eqb_neq in E. rewrite E in W1. apply W1. exact Hx.
Qed.

(** A client state that is laid out, with good caches, and stays so when rows change. *)
Definition keeper (pf : platform) (F : gtk -> list (list id) -> Prop) : Prop :=
  (forall g cs, F g cs -> exists L, layout L g cs /\ forall p, In p cs -> cache_good L g p) /\
  (forall T x q g cs, F g cs -> In (q ++ [x]) cs -> has_node T x = true -> F (fst (on_signal pf T (SModified x (q ++ [x])) g)) cs).

Lemma follows_keeper : forall pf, faithful pf -> never_reuses pf -> keeper pf (follows pf).
Proof.
  intros pf AL NR. split.
  - intros g cs (L & HL & FC). exists L. split; auto. intros p _. apply (fc_good _ _ _ FC).
  - intros T x q g cs F Hq Hx. destruct (follows_signal pf T (SModified x (q ++ [x])) g cs cs AL NR F) as (g' & E & F'); [constructor; auto|exact Hx|].
    rewrite E. auto.
Qed.

(** Rows that get a modified signal show the new data. *)
Lemma mods_fresh : forall pf F T n nd l g cs done, (forall d, column pf d <> None) -> faithful pf -> keeper pf F -> F g cs ->
  (forall y, In y l -> exists q x, y = SModified x (q ++ [x]) /\ In (q ++ [x]) cs /\ has_node T x = true) -> dget n (nodes T) = Some nd ->
  (forall p r, at_path (rows g) r p -> r_id r = n -> In p done -> r_col r = column pf (data nd)) ->
  exists g', on_signals pf T l g = (g', Ok tt) /\ F g' cs /\
    forall p r, at_path (rows g') r p -> r_id r = n -> In p done \/ In (SModified n p) l -> r_col r = column pf (data nd).
Proof.
  intros pf F T n nd l. induction l as [|y l IH]; intros g cs done CN AL KF Fg Hl Hn Hd.
  - exists g. split; [reflexivity|]. split; auto. intros p r A I [H|[]]. eauto.
  - destruct (Hl y (or_introl eq_refl)) as (q & x & -> & Hq & Hx). destruct (proj1 KF g cs Fg) as (L & HL & FC).
    destruct (modified_ok pf T L g cs x q AL HL FC Hx Hq) as (g1 & L1 & E1 & HL1 & EV & r0 & nx & I0 & Nx & EL).
    assert (F1 : F g1 cs) by (pose proof (proj2 KF T x q g cs Fg Hq Hx) as F1; rewrite E1 in F1; exact F1).
    destruct (IH g1 cs ((q ++ [x]) :: done) CN AL KF F1) as (g2 & E2 & F2 & H2); auto.
    { intros p r A I Hp. apply (layout_at _ _ _ HL1) in A. destruct (EL _ A) as ([p' r'] & A' & Ez1 & Ez2). cbn [fst snd] in Ez1, Ez2. subst p' r. clear A. rename A' into A.
      destruct (Nat.eqb (r_addr r') (r_addr r0)) eqn:Ea.
      - simpl in I. subst x. rewrite Hn in Nx. inversion Nx; subst. simpl. pose proof (CN (data nx)). destruct (column pf (data nx)); congruence.
      - destruct Hp as [<-|Hp].
        + rewrite (lay_fun _ _ _ HL _ _ _ A I0), Nat.eqb_refl in Ea. discriminate.
        + apply (Hd p r'); auto. apply (layout_at _ _ _ HL). auto. }
    exists g2. cbn [on_signals]. rewrite E1. split; auto. split; auto. intros p r A I Hp. apply (H2 p r A I).
    destruct Hp as [Hp|[Hp|Hp]]; [left; right; auto|left; left; congruence|auto].
Qed.

Section Data.
  Variable ord : nat -> list id -> list id.
  Variable pf : platform.
  Hypothesis HO : forall k l, Permutation (ord k l) l.
  Hypothesis AL : faithful pf.
  Hypothesis CN : forall d, column pf d <> None.
  Variable F : gtk -> list (list id) -> Prop.
  Hypothesis KF : keeper pf F.

  Definition keeps (t : mtree) (b : bank) (s : ft) (g : gtk) : Prop :=
    exists l v cs, s = pre l v /\ current t b v /\ hear_all [] (sent v) cs /\ F g cs.

  Lemma current_uptodate : forall t b v, current t b v -> uptodate t b v /\ no_clash t v.
  Proof.
    intros t b v C. split; [apply synced_uptodate; apply C|]. destruct (c_apt _ _ _ C). split; auto.
  Qed.

  Lemma path_node : forall t b s q x, uptodate t b s -> view_path s (q ++ [x]) -> In x (view_all_nodes s) /\ has_node t x = true.
  Proof.
    intros t b s q x U [_ V].
    assert (Hx : In x (view_all_nodes s)).
    { apply downward_app in V. destruct V as [_ [V _]]. apply (so_sym _ (up_sound _ _ _ U)) in V.
      apply all_nodes_In; [apply (so_keys _ (up_sound _ _ _ U))|]. split; [eapply FtEdge.pars_disp; eauto|]. intros ->. rewrite (so_top _ (up_sound _ _ _ U)) in V. destruct V. }
    split; auto. apply (proj2 (proj2 (up_nodes _ _ _ U))) in Hx. apply satisfying_In in Hx. tauto.
  Qed.

  Lemma held_row : forall t b s g r, keeps t b s g -> In r (rows g) -> exists q, at_path (rows g) r (q ++ [r_id r]) /\ view_path s (q ++ [r_id r]) /\
    In (r_id r) (view_all_nodes s) /\ has_node t (r_id r) = true.
  Proof.
    intros t b s g r (l & v & cs & -> & C & Hh & Fg) Hr. destruct (proj1 KF g cs Fg) as (L & HL & _). destruct (lay_row _ _ _ HL r Hr) as (p & Hp).
    destruct (l_path _ _ _ HL p r Hp) as (q & -> & _). exists q. split; [apply (layout_at _ _ _ HL); auto|].
    destruct (current_heard _ _ _ C) as (cs' & Hh' & K). rewrite (hear_all_det _ _ _ _ Hh' Hh) in K.
    pose proof (proj1 (K _) (lay_in_cs _ _ _ HL _ _ Hp)) as V. destruct (current_uptodate _ _ _ C) as [U _].
    split; [exact V|]. apply (path_node t b v q (r_id r) U V).
  Qed.

  Definition fresh_rows (t : mtree) (g : gtk) : Prop := cols pf (fun _ => False) (data_of t) g.

  Lemma within_self : forall X T, within X (data_of T) T.
  Proof. intros X T x v _ H. auto. Qed.

  Lemma fresh_end : forall D t b s g, keeps t b s g -> cols pf (fun _ => False) D g -> within (fun _ => False) D t -> fresh_rows t g.
  Proof.
    intros D t b s g H C W r Hr Nx. destruct (held_row t b s g r H Hr) as (q & _ & _ & _ & Ln).
    specialize (C r Hr Nx). destruct (has_node_get _ _ Ln) as (nd & E). unfold data_of at 1. rewrite E. simpl.
    assert (E' : data_of t (r_id r) = Some (data nd)) by (unfold data_of; rewrite E; auto). apply W in E'; auto. rewrite E' in C. exact C.
  Qed.

  Lemma fresh_keeps : forall c t b s g t' b' s' g', keeps t b s g -> supported (t, b, s) c -> fresh_rows t g ->
    widget_call ord pf c (t, b, s) g = (t', b', s', g', Ok tt) -> keeps t' b' s' g' -> view_call ord c (t, b, s) = (t', b', s', Ok tt) -> fresh_rows t' g'.
  Proof.
    intros c t b s g t' b' s' g' H X FR E H1 EV.
    destruct c as [o|n p rs|n| | |n a|c].
    2-7: (assert (T' : t' = t) by (cbn [view_call] in EV; repeat match type of EV with context [match ?x with _ => _ end] => destruct x end; inversion EV; auto));
      subst t'; cbn [widget_call] in E; rewrite EV in E; cbn [snd] in E; destruct (on_signals pf t (news s s') g) as [g2 q] eqn:E2; inversion E; subst;
      eapply cols_signals; [exact AL|exact CN|apply within_self|exact FR|exact E2].
    cbn [widget_call] in E. destruct (feed_widget ord pf b (events o t) s g) as [[s2 g2] q] eqn:E2. inversion E; subst. clear E.
    pose proof H as (l & v & cs & -> & C & Hh & Fo). destruct X as [Cm X]. pose proof (c_reg _ _ _ C) as R.
    assert (Other : (forall x, ~ touches o x) -> fresh_rows (after o t) g').
    { intros NT. pose proof (op_data _ o t (r_good _ R)) as OD. unfold wp in OD. destruct OD as [O1 O2].
      assert (W : forall T, dd (touches o) t T -> within (fun _ => False) (data_of t) T) by (intros T HT x w _ Hx; apply HT; auto).
      eapply fresh_end; [exact H1| |apply W; exact O1]. eapply cols_feed; [exact AL|exact CN| |exact FR|exact E2].
      intros e He. apply W. rewrite Forall_forall in O2. apply O2. auto. }
    destruct o as [n nd p|n rec|n|n w| | | | | | | | | | |]; try (apply Other; simpl; intros; tauto).
    - destruct (has_node t n) eqn:Hn.
      + assert (EE : events (AddNode n nd p) t = [] /\ after (AddNode n nd p) t = t).
        { unfold events, after. cbn [run_op]. unfold add_node. unfold has_node in Hn. cbn. unfold has_node. rewrite Hn. auto. }
        destruct EE as [E3 E4]. rewrite E3 in E2. rewrite E4. inversion E2; subst. auto.
      + pose proof (add_within n nd p t Hn) as W. cbv zeta in W. unfold wp in W. destruct W as [W1 W2].
        eapply fresh_end; [exact H1| |exact W1]. eapply cols_feed; [exact AL|exact CN| | |exact E2].
        * intros e He. rewrite Forall_forall in W2. apply W2. exact He.
        * intros r Hr Nx. destruct (held_row _ _ _ _ r H Hr) as (q & _ & _ & _ & Ln). deq (r_id r) n; [congruence|]. apply FR; auto.
    - destruct (has_node t n) eqn:Hn.
      2:{ assert (EE : events (SetData n w) t = [] /\ after (SetData n w) t = t).
        { unfold events, after. cbn [run_op]. unfold set_node_data, live, bind, has_node, dmem in *. destruct (dget n (nodes t)); [discriminate|]. cbn. auto. }
        destruct EE as [E3 E4]. rewrite E3 in E2. rewrite E4. inversion E2; subst. auto. }
      assert (Nm : n <> main_root) by (intros ->; rewrite (r_main _ R) in Hn; discriminate).
      set (t1 := upd_node n (set_data w) t) in *.
      assert (Ea : after (SetData n w) t = t1 /\ events (SetData n w) t = [Ev EModified n t1]) by (unfold events, after; rewrite (data_exact t n w Nm Hn); auto).
      destruct Ea as [Ea Ee]. rewrite Ea in *. rewrite Ee in E2.
      assert (DO : forall x, x <> n -> data_of t1 x = data_of t x) by (intros; apply data_of_upd; auto).
      assert (C1 : cols pf (eq n) (data_of t1) g') by
        (eapply cols_feed; [exact AL|exact CN| | |exact E2]; [intros e [<-|[]]; apply within_self|intros r Hr Nx; rewrite DO by congruence; apply FR; auto]).
      intros r Hr _. destruct (id_dec n (r_id r)) as [En|En]; [|apply C1; auto].
      destruct (held_row _ _ _ _ r H1 Hr) as (q & At & V & Hd & Ln). rewrite <- En in *.
      destruct (in_dec id_dec n (view_all_nodes v)) as [Hv|Hv].
      + destruct (current_uptodate _ _ _ C) as [U NC].
        destruct (current_call ord HO (VTree (SetData n w)) t b' v C (conj Cm X)) as (v' & E5 & C' & F5 & _).
        cbn [new_tree new_bank new_filters] in *. rewrite Ea in *. rewrite pre_call, E5 in EV. inversion EV; subst s'. clear EV.
        destruct (current_uptodate _ _ _ C') as [U' _].
        assert (Sat : In n (satisfying b' t1 (filters v))) by (rewrite <- F5; apply (proj2 (proj2 (up_nodes _ _ _ U'))); exact Hd).
        destruct (change_uptodate t b' v n w R NC (c_local _ _ _ C) U Hv Sat) as (R1 & NC1 & U1 & _).
        destruct (event_announces ord HO t1 b' v n R1 NC1 U1 Hv) as (s2 & lm & E6 & F1 & F2 & _ & _ & _ & Es & An).
        cbn [feed_widget] in E2. cbn [ev_tree ev_id] in E2. rewrite (blind_external ord b' t1 n l v), E6 in E2. cbn [fst snd] in E2.
        assert (Nw : news (pre l v) (pre l s2) = lm).
        { unfold news. simpl. rewrite Es, app_assoc, skipn_app, skipn_all, Nat.sub_diag. reflexivity. }
        rewrite Nw in E2.
        destruct (current_heard _ _ _ C) as (cs' & Hh' & K). rewrite (hear_all_det _ _ _ _ Hh' Hh) in K. clear Hh'.
        destruct (has_node_get _ _ Ln) as (nd & End).
        destruct (mods_fresh pf F t1 n nd lm g cs [] CN AL KF Fo) as (g2 & E7 & F7 & H7); auto.
        { intros y Hy. apply An in Hy. destruct Hy as (q0 & x & m & -> & [_ V0] & _). exists q0, x. split; auto.
          change (x :: m) with ([x] ++ m) in V0. rewrite app_assoc in V0. apply downward_app in V0. destruct V0 as [V0 _].
          assert (V1 : view_path v (q0 ++ [x])) by (split; [destruct q0; discriminate|auto]). split; [apply K; auto|apply (path_node t1 b' v q0 x U1 V1)]. }
        { intros p r0 _ _ []. }
        rewrite E7 in E2. inversion E2; subst g2. clear E2.
        unfold data_of. rewrite End. simpl. f_equal. symmetry. apply (H7 (q ++ [n]) r); auto. right. apply An. exists q, n, []. split; auto. split; auto.
        destruct V as [V1 V2]. split; auto. unfold kids in *. simpl in V2.
        match type of V2 with downward _ ?f _ => replace f with (froot v) in V2 by congruence end. rewrite <- F1, H3. exact V2.
      + assert (C2 : cols pf (fun _ => False) (data_of t1) g'); [|rewrite En; apply C2; auto].
        eapply cols_feed; [exact AL|exact CN| | |exact E2]; [intros e [<-|[]]; apply within_self|].
        intros r' Hr' _. destruct (held_row _ _ _ _ r' H Hr') as (q' & _ & _ & Hd' & _). rewrite DO; [apply FR; auto|]. intros E'. apply Hv. rewrite <- E'. exact Hd'.
  Qed.

End Data.

Section Watch.
  Variable ord : nat -> list id -> list id.
  Variable pf : platform.
  Hypothesis HO : forall k l, Permutation (ord k l) l.
  Hypothesis AL : faithful pf.
  Hypothesis NR : never_reuses pf.
  Hypothesis CN : forall d, column pf d <> None.

  Lemma fresh_call : forall c t b s g t' b' s' g', held pf t b s g -> supported (t, b, s) c -> fresh_rows pf t g ->
    widget_call ord pf c (t, b, s) g = (t', b', s', g', Ok tt) -> fresh_rows pf t' g'.
  Proof.
    intros c t b s g t' b' s' g' H X FR E.
    destruct (held_call ord pf HO AL NR c t b s g H X) as (t1 & b1 & s1 & g1 & E1 & H1 & EV). rewrite E in E1. inversion E1; subst t1 b1 s1 g1. clear E1.
    exact (fresh_keeps ord pf HO AL CN (follows pf) (follows_keeper pf AL NR) c t b s g t' b' s' g' H X FR E H1 EV).
  Qed.

  Lemma watching_data : forall x g, watching ord pf x g -> let '(t, b, s) := x in fresh_rows pf t g.
  Proof.
    intros x g H. induction H as [x x' g' r V E|[[t b] s] g c x' g' r H IH X E|[[t b] s] g rs H IH P].
    - destruct (held_connect ord pf HO AL NR x V) as (t & b & s & g & E2 & Hd & _). rewrite E2 in E. inversion E; subst. clear E.
      destruct x as [[t0 b0] s0]. unfold connect in E2. destruct (get_current_state s0) as [s1 [u|e|]]; [|discriminate ..].
      destruct (on_signals pf t0 (news s0 s1) new_gtk) as [g1 q] eqn:E3. inversion E2; subst. eapply cols_signals; [exact AL|exact CN|apply within_self| |exact E3]. intros r0 [].
    - pose proof (watching_held ord pf HO AL NR _ _ H) as Hd. cbv beta iota in Hd, IH.
      destruct (held_call ord pf HO AL NR c t b s g Hd X) as (t' & b' & s' & g2 & E2 & _). rewrite E2 in E. inversion E; subst.
      eapply fresh_call; eauto.
    - intros r Hr. apply IH. eapply Permutation_in; [exact P|exact Hr].
  Qed.

  Lemma watching_current_data : forall t b s g r, watching ord pf (t, b, s) g -> In r (rows g) -> option_map (column pf) (data_at t (r_id r)) = Some (r_col r).
  Proof. intros t b s g r H Hr. apply (watching_data _ _ H); auto. Qed.
End Watch.
