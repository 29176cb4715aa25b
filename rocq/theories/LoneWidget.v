(** The widget on trees in which no node has two parents. *)
From Coq Require Import Permutation.
From Verif Require Import Base BaseFacts MainTree Spec MainFacts MainInv MainRun MainReg MainTight MainPaths SpecMove MoveFacts Filters FTree SpecApi SpecView SpecViewing
  FtBase FtTree FtOps FtView FtThm FtSent FtSignals FtHist FtMind FtStay Gtk SpecGtk GtkFacts GtkView Widget SpecWidget ClientFacts ConnectFacts WidgetFacts
  WidgetUse WidgetPlaces StayFacts StayRows SpecLone LoneTree LoneFacts.

Lemma place_rule : forall pf, cache_rule pf True (fun _ _ cs => one_place cs).
Proof.
  intros pf. constructor; auto.
  - intros L g cs HL OP. apply one_place_cache; auto.
  - intros L g cs L' g' cs' x HL OP _ Hh N. apply (one_place_hear cs x); auto. intros l. apply (layout_nonempty L g cs l HL).
  - intros l l' [].
Qed.

(** A move leaves every node with one parent. *)
Lemma survivors_one : forall p l, length l <= 1 -> survivors p l = [] \/ survivors p l = [p].
Proof. intros p [|x [|y l]] H; simpl in *; auto; [|lia]. destruct (String.eqb x p); auto. Qed.
Lemma one_length : forall t n, reg t -> one_parent t -> length (parents t n) <= 1.
Proof.
  intros t n R L. pose proof (ok_ndp _ (reg_ok _ R) n) as ND. destruct (parents t n) as [|p [|q l]] eqn:E; simpl; try lia.
  assert (p = q) by (apply (L n); rewrite E; simpl; auto). subst. inversion ND as [|? ? N1 N2]; subst. exfalso. apply N1. left. auto.
Qed.
Lemma move_lone : forall t n d, reg t -> one_parent t -> one_parent (after (MoveNode n d) t).
Proof.
  intros t n d R L.
  assert (R' : reg (after (MoveNode n d) t)) by (apply (reg_ordinary (MoveNode n d) t); auto).
  assert (HG : forall t x, reg t -> get_parents t x = parents t x) by (intros t0 x R0; apply get_parents_reg; [apply reg_ok; auto|apply R0]).
  set (t' := after (MoveNode n d) t) in *.
  assert (Fin : (forall p q, p <> q -> In p (get_parents t' n) -> In q (get_parents t' n) -> False) -> (forall x, x <> n -> get_parents t' x = get_parents t x) -> one_parent t').
  { intros A B x p q. rewrite <- HG by auto. destruct (id_dec x n) as [->|N].
    - intros H1 H2. destruct (id_dec p q); auto. exfalso. apply (A p q); auto.
    - rewrite B, HG by auto. apply L. }
  destruct (has_node t n) eqn:Hn.
  2:{ unfold t'. destruct (move_idle t n d (or_introl Hn)) as (-> & _). auto. }
  destruct d as [p|].
  - destruct (id_dec p n) as [->|Np]; [unfold t'; destruct (move_idle t n (Some n) (or_intror eq_refl)) as (-> & _); auto|].
    destruct (has_node t p) eqn:Hp.
    + destruct (move_exact_reg t R n p Hn Hp Np) as (A1 & A2 & _ & A4). fold t' in A1, A2, A4. apply Fin; auto.
      assert (S1 : survivors p (get_parents t n) = [] \/ survivors p (get_parents t n) = [p]) by (apply survivors_one; rewrite HG by auto; apply one_length; auto).
      intros a b Nab Ha Hb. assert (NA : ~ anc t n p).
      { intros A. destruct (A1 A) as (_ & E). rewrite E in Ha, Hb. destruct S1 as [S1|S1]; rewrite S1 in Ha, Hb; simpl in *; intuition congruence. }
      destruct (A2 NA) as (_ & E). rewrite E in Ha, Hb. unfold add_last in Ha, Hb. destruct S1 as [S1|S1]; rewrite S1 in Ha, Hb; simpl in *; rewrite ?eqb_refl in *; simpl in *; intuition congruence.
    + destruct (move_away_reg t R n (Some p) Hn (conj Np Hp)) as (_ & _ & A & B & _). fold t' in A, B. apply Fin; auto. rewrite A. intros ? ? ? [].
  - destruct (move_away_reg t R n None Hn I) as (_ & _ & A & B & _). fold t' in A, B. apply Fin; auto. rewrite A. intros ? ? ? [].
Qed.

(** ** The widget *)
Section Wide.
  Variable ord : nat -> list id -> list id.
  Variable pf : platform.
  Variable full : Prop.
  Hypothesis HO : forall k l, Permutation (ord k l) l.
  Hypothesis AL : faithful pf.
  Let CI (L : list (list id * row)) (g : gtk) (cs : list (list id)) : Prop := one_place cs.
  Let CR : cache_rule pf True CI := place_rule pf.

  Lemma chel_reg : forall F t b s (p : panel), cheld F t b s p -> reg t.
  Proof. intros F t b s p (l & v & cs & _ & C & _). apply (c_reg _ _ _ C). Qed.
  Lemma panel_tree : forall asked c t b s p x' p' r, chel full CI t b s p -> tracked asked s p -> one_parent t -> supported (t, b, s) c ->
    (forall n a, c = VQueue n a -> 2 <= a) -> one_parent (base_tree (fst (view_call ord c (t, b, s)))) ->
    panel_call pf ord c (t, b, s) p = (x', p', r) ->
    exists t' b' s', x' = (t', b', s') /\ r = Ok tt /\ chel full CI t' b' s' p' /\ tracked asked s' p' /\ view_call ord c (t, b, s) = (t', b', s', Ok tt).
  Proof.
    intros asked c t b s p x' p' r D T L X Hq L' E.
    destruct (use_call_ok ord pf full HO AL True CI CR asked c t b s p D T X Hq) as (t' & b' & s' & p2 & E2 & D' & T' & EV).
    { intros _. apply (lone_after ord c t b s); auto. apply (chel_reg _ _ _ _ _ D). }
    rewrite E2 in E. inversion E; subst. exists t', b', s'. auto 6.
  Qed.
  (** The tree after a call does not depend on the widget. *)
  Lemma panel_base : forall c x p, base_tree (fst (fst (panel_call pf ord c x p))) = base_tree (fst (view_call ord c x)).
  Proof.
    intros c [[t b] s] p. unfold panel_call. destruct c as [o| | | | | |].
    1:{ cbn [client_call view_call]. destruct (feed_client ord (on_panel_signal pf) b (events o t) s p) as [[s1 g1] r]. destruct (feed ord b (events o t) s) as [s2 r2]. reflexivity. }
    all: cbn [client_call]; destruct (view_call ord _ _) as [[[t1 b1] s1] [[]|e|]]; try reflexivity; cbn; destruct (tell _ _ _ _); reflexivity.
  Qed.

  Lemma usingle_inv : forall (start : viewed -> Prop) asked x p, (full -> forall x, start x -> no_nesting x) -> in_use_single ord pf start asked x p ->
    let '(t, b, s) := x in chel full CI t b s p /\ tracked asked s p /\ one_parent t.
  Proof.
    intros start asked x p St H. induction H as [x x' p r V L Sx Hw E|asked [[t b] s] p c x' p' r H IH X Hq E L|asked [[t b] s] p rs H IH P
      |asked t b s p above n s' p' r H IH Hn E|asked t b s p s' p' r H IH E].
    - destruct (start_ok ord pf full HO AL True CI CR x V) as (t & b & s & p0 & E0 & D & T & _); auto. rewrite E0 in E. inversion E; subst.
      split; auto. split; auto. unfold build_panel, client_connect in E0. destruct x as [[t0 b0] s0]. destruct (get_current_state s0) as [s1 [u|e|]]; [|discriminate E0 ..].
      destruct (tell _ _ _ _). inversion E0; subst. exact L.
    - destruct IH as (D & T & L0). pose proof (panel_base c (t, b, s) p) as PB. rewrite E in PB. cbn [fst] in PB. rewrite PB in L.
      destruct (panel_tree asked c t b s p x' p' r D T L0 X Hq L E) as (t' & b' & s' & -> & _ & D' & T' & EV). rewrite EV in L. auto.
    - destruct IH as ((l & v & cs & E & C & Rd & Hh & Fp) & [T1 T2 T3 T4] & L). split; [|split; auto].
      + exists l, v, cs. split; auto. split; auto. split; auto. split; auto. apply (sort_drawn pf full True CI CR); auto.
      + constructor; auto.
    - destruct IH as (D & T & L). unfold collapse_node in E. rewrite rev_app_distr in E. cbn [rev app] in E.
      destruct (collapse_id_ok ord pf full HO AL True CI CR (strip n) t b s p D Hn (fun _ => L)) as (s2 & p2 & E2 & D' & Fn & Fr & M & A & I1 & I2 & W1 & W2 & _). rewrite E2 in E. inversion E; subst.
      split; auto. split; auto. apply (tracked_collapse asked (strip n) s p s' p'); auto.
    - destruct IH as (D & T & L). destruct (idle_ok ord pf full HO AL True CI CR asked t b s p D T (fun _ => L)) as (s2 & p2 & E2 & D' & T' & _). rewrite E2 in E. inversion E; subst. auto.
  Qed.
End Wide.

Section Thm.
  Variable ord : nat -> list id -> list id.
  Variable pf : platform.
  Hypothesis HO : forall k l, Permutation (ord k l) l.
  Hypothesis AL : faithful pf.
  Let CI (L : list (list id * row)) (g : gtk) (cs : list (list id)) : Prop := one_place cs.
  Let CR : cache_rule pf True CI := place_rule pf.

  Lemma usingle_any : forall start asked t b s p, in_use_single ord pf start asked (t, b, s) p -> chel False CI t b s p /\ tracked asked s p /\ one_parent t.
  Proof. intros start asked t b s p H. apply (usingle_inv ord pf False HO AL start asked (t, b, s) p); auto. contradiction. Qed.

  Lemma usingle_shows : forall start asked t b s p, in_use_single ord pf start asked (t, b, s) p -> shows (rows (store p)) (view_path s).
  Proof. intros start asked t b s p H. apply usingle_any in H. destruct H as [H _]. eapply chel_shows; eauto. Qed.

  Lemma usingle_build : forall x, viewing ord x -> one_parent (base_tree x) -> (forall n a, In a (waiting (snd x) n) -> 2 <= a) ->
    exists t b s p, build_panel pf x = (t, b, s, p, Ok tt) /\ expanded p = [] /\ forall q, view_path s q <-> view_path (snd x) q.
  Proof.
    intros x V L Hw. destruct (start_ok ord pf False HO AL True CI CR x V) as (t & b & s & p & E & _ & _ & P & X & _); auto; try contradiction. exists t, b, s, p. auto.
  Qed.

  Lemma usingle_fine : forall start asked t b s p, in_use_single ord pf start asked (t, b, s) p ->
    (forall c, supported (t, b, s) c -> (forall n a, c = VQueue n a -> 2 <= a) -> one_parent (base_tree (fst (view_call ord c (t, b, s)))) ->
      exists p', panel_call pf ord c (t, b, s) p = (fst (view_call ord c (t, b, s)), p', Ok tt)) /\
    (forall above n, strip n <> "" -> exists s' p', collapse_node false (above ++ [n]) s p = (s', p', Ok tt) /\ fnodes s' = fnodes s) /\
    (exists s' p', run_idle s p = (s', p', Ok tt) /\ fnodes s' = fnodes s /\
      forall n o rest, idle_calls p = (n, o) :: rest -> n <> froot s -> idle_calls p' = rest).
  Proof.
    intros start asked t b s p H. apply usingle_any in H. destruct H as (D & T & L). split; [|split].
    - intros c X Hq L'. destruct (panel_call pf ord c (t, b, s) p) as [[x' p'] r] eqn:E.
      destruct (panel_tree ord pf False HO AL asked c t b s p x' p' r D T L X Hq L' E) as (t' & b' & s' & -> & -> & _ & _ & EV). exists p'. rewrite EV. auto.
    - intros above n Hn. unfold collapse_node. rewrite rev_app_distr. cbn [rev app].
      destruct (collapse_id_ok ord pf False HO AL True CI CR (strip n) t b s p D Hn (fun _ => L)) as (s2 & p2 & E2 & D' & Fn & _). exists s2, p2. auto.
    - destruct (idle_ok ord pf False HO AL True CI CR asked t b s p D T (fun _ => L)) as (s2 & p2 & E2 & D' & T' & Ix & F & _). exists s2, p2. auto.
  Qed.

  Lemma usingle_closed : forall start asked t b s p, in_use_single ord pf start asked (t, b, s) p -> idle_calls p = [] ->
    forall r l n, at_path (rows (store p)) r l -> In n l -> In n asked -> ~ is_open p r.
  Proof.
    intros start asked t b s p H Ei r l n Hr Hn Ha Op. apply usingle_any in H. destruct H as (D & T & _).
    destruct (chel_open False CI asked t b s p D T Ei r l Hr) as [A _]. destruct (A Op) as [_ B]. apply (B n); auto.
  Qed.

  Lemma usingle_exact : forall asked t b s p, in_use_single ord pf no_nesting asked (t, b, s) p -> idle_calls p = [] ->
    forall r l, at_path (rows (store p)) r l -> (is_open p r <-> has_below (rows (store p)) r /\ forall n, In n l -> ~ In n asked).
  Proof.
    intros asked t b s p H Ei r l Hr. destruct (usingle_inv ord pf True HO AL no_nesting asked (t, b, s) p (fun _ x Hx => Hx) H) as (D & T & _).
    destruct (chel_open True CI asked t b s p D T Ei r l Hr) as [A B]. split; [exact A|]. intros [X Y]. apply B; auto.
  Qed.

  (** *** Places and drops *)
  Lemma usingle_layout : forall start asked t b s p, in_use_single ord pf start asked (t, b, s) p -> exists L cs, layout L (store p) cs.
  Proof.
    intros start asked t b s p H. apply usingle_any in H. destruct H as [(l & v & cs & _ & _ & _ & _ & (L & HL & _)) _]. exists L, cs. auto.
  Qed.

  Lemma seated_panel : forall T x p cs cs', drawn CI False p cs -> hear cs x cs' -> names_live (T, x) -> mindful T x cs' -> (True -> newb cs x = true) ->
    exists p', on_panel_signal pf T x p = (p', Ok tt) /\ drawn CI False p' cs' /\ seated (store p) (store p') [x].
  Proof.
    intros T x p cs cs' D H Hn _ N. destruct (panel_step pf False AL True CI CR T x p cs cs' D H Hn N) as (p' & E & D' & Hd). exists p'. split; auto. split; auto.
    destruct D as (L & HL & FC & _). destruct (signal_ok pf T x L (store p) cs cs' AL HL (cr_good _ _ _ CR _ _ _ HL FC) H Hn) as (g' & L' & E1 & _).
    pose proof (signal_store pf T x p g' E1) as Es. rewrite E in Es. cbn [fst] in Es. rewrite Es.
    apply (seated_step pf T x L (store p) cs cs'); auto. apply (cr_good _ _ _ CR _ _ _ HL FC).
  Qed.

  Lemma usingle_move : forall asked n dest t b s p start, in_use_single ord pf start asked (t, b, s) p ->
    exists s' p', panel_call pf ord (VTree (MoveNode n dest)) (t, b, s) p = (after (MoveNode n dest) t, b, s', p', Ok tt) /\
      in_use_single ord pf start asked (after (MoveNode n dest) t, b, s') p' /\
      view_call ord (VTree (MoveNode n dest)) (t, b, s) = (after (MoveNode n dest) t, b, s', Ok tt) /\
      forall l a, ~ In n l -> seat p l a -> seat p' l a.
  Proof.
    intros asked n dest t b s p start U. pose proof (usingle_any _ _ _ _ _ _ U) as (D & _ & L0).
    pose proof (chel_reg _ _ _ _ _ D) as R. pose proof (move_lone t n dest R L0) as L1.
    assert (X : supported (t, b, s) (VTree (MoveNode n dest))) by (cbn; repeat split).
    assert (L2 : one_parent (base_tree (fst (view_call ord (VTree (MoveNode n dest)) (t, b, s))))) by (cbn [view_call]; destruct (feed ord b (events (MoveNode n dest) t) s); exact L1).
    destruct (call_one ord HO (on_panel_signal pf) (drawn CI False) (fun p p' => seated (store p) (store p')) True (fun p => seated_nil (store p))
      (fun p q r => seated_app (store p) (store q) (store r)) seated_panel _ t b s p D X (fun _ => lone_after ord _ t b s R L0 L2))
      as (t' & b' & s' & p' & E & D' & E' & Se & _).
    pose proof E' as Z. cbn [view_call] in Z. destruct (feed ord b (events (MoveNode n dest) t) s) as [s1 r1]. inversion Z; subst t' b' s1 r1.
    exists s', p'. split; [exact E|]. split; [eapply usingle_call; [exact U|exact X|discriminate|exact E|exact L1]|]. split; auto.
    intros l a Nl (r & P & <-). apply Se; auto.
    destruct D as (l0 & v & cs & -> & C & _ & Hh & (L & HL & _)).
    destruct (current_call ord HO (VTree (MoveNode n dest)) t b v C X) as (v' & E1 & _). cbn [new_tree new_bank] in E1.
    rewrite pre_call, E1 in E'. inversion E'; subst. rewrite news_pre.
    assert (V : view_path v l).
    { destruct (current_heard _ _ _ C) as (cs2 & Hh2 & K). rewrite (hear_all_det _ _ _ _ Hh2 Hh) in K. apply K, (l_cs _ _ _ HL).
      apply (layout_at _ _ _ HL) in P. apply in_map_iff. exists (l, r). auto. }
    apply (elsewhere_current ord HO (MoveNode n dest) n t b v v' (Ok tt) C X eq_refl E1 l V Nl).
  Qed.

  Lemma usingle_drop_one : forall start asked t b s p info dest ix r, in_use_single ord pf start asked (t, b, s) p ->
    destination info (store p) = Ok dest -> row_for ix (store p) = Some r ->
    exists p', drop_here pf ord info [ix] (t, b, s) p = (fst (view_call ord (VTree (MoveNode (r_id r) dest)) (t, b, s)), p', Ok tt).
  Proof.
    intros start asked t b s p info dest ix r U Ed Er. destruct (usingle_layout _ _ _ _ _ _ U) as (L & cs & HL).
    destruct (row_for_spot L (store p) cs HL ix r Er) as (W & l & I & _). unfold drop_here. rewrite Ed. cbn [dragged]. rewrite W. cbn [move_rows]. rewrite (lay_row_at_ok _ _ _ HL l r I).
    destruct (usingle_move asked (r_id r) dest t b s p start U) as (s1 & p1 & E1 & _ & E2 & _). rewrite E1, E2. exists p1. auto.
  Qed.

  (** Rows that are apart: all are moved, and the rows to be moved stay until then. *)
  Lemma usingle_moves : forall old start asked dest rs, (forall r, In r rs -> exists l, at_path old r l) -> apart old rs ->
    forall t b s p, in_use_single ord pf start asked (t, b, s) p -> (forall r l, In r rs -> at_path old r l -> seat p l (r_addr r) /\ last l "" = r_id r) ->
    exists s' p', move_rows pf ord (map r_addr rs) dest (t, b, s) p = (moved (map r_id rs) dest t, b, s', p') /\
      in_use_single ord pf start asked (moved (map r_id rs) dest t, b, s') p'.
  Proof.
    intros old start asked dest rs. induction rs as [|r rs IH]; intros Pa Ap t b s p U St; cbn [map move_rows].
    - exists s, p. split; auto.
    - destruct (Pa r (or_introl eq_refl)) as (l & P). destruct (St r l (or_introl eq_refl) P) as [(r' & P' & Ea) El].
      destruct (usingle_layout _ _ _ _ _ _ U) as (L & cs & HL). pose proof (proj1 (layout_at _ _ _ HL _ _) P') as I'.
      rewrite <- Ea, (lay_row_at_ok _ _ _ HL l r' I').
      assert (Ei : r_id r' = r_id r) by (destruct (l_path _ _ _ HL _ _ I') as (q & -> & _); rewrite last_last in El; auto). rewrite Ei.
      destruct (usingle_move asked (r_id r) dest t b s p start U) as (s1 & p1 & E1 & U1 & _ & St1). rewrite E1. destruct Ap as [A1 A2].
      destruct (IH (fun z Hz => Pa z (or_intror Hz)) A2 _ b s1 p1 U1) as (s2 & p2 & E2 & U2).
      + intros r2 l2 I2 P2. destruct (St r2 l2 (or_intror I2) P2) as [S2 L2]. split; auto. apply St1; auto. apply (A1 r2 l2 I2 P2).
      + rewrite E2. exists s2, p2. split; auto.
  Qed.

  Lemma usingle_drop_all : forall start asked t b s p info dest data, in_use_single ord pf start asked (t, b, s) p ->
    destination info (store p) = Ok dest -> apart (rows (store p)) (rows_for data (store p)) ->
    exists s' p', drop_here pf ord info data (t, b, s) p = (moved (map r_id (rows_for data (store p))) dest t, b, s', p', Ok tt) /\
      in_use_single ord pf start asked (moved (map r_id (rows_for data (store p))) dest t, b, s') p'.
  Proof.
    intros start asked t b s p info dest data U Ed A. destruct (usingle_layout _ _ _ _ _ _ U) as (L & cs & HL).
    unfold drop_here. rewrite Ed, (dragged_rows L (store p) cs HL data).
    destruct (usingle_moves (rows (store p)) start asked dest (rows_for data (store p))) with (t := t) (b := b) (s := s) (p := p) as (s2 & p2 & E2 & U2); auto.
    - intros r Hr. apply (rows_for_In L (store p) cs HL data) in Hr. destruct (lay_row _ _ _ HL r Hr) as (l & I). exists l. apply (layout_at _ _ _ HL). auto.
    - intros r l Hr P. split; [exists r; auto|]. apply (layout_at _ _ _ HL) in P. destruct (l_path _ _ _ HL _ _ P) as (q & -> & _). apply last_last.
    - exists s2, p2. rewrite E2. auto.
  Qed.
End Thm.
