(** The widget: which rows are open. *)
From Coq Require Import Permutation.
From Verif Require Import Base BaseFacts MainTree Spec MainFacts MainReg MainTight Filters FTree SpecApi
  SpecView SpecViewing FtBase FtWalk FtEdge FtUp FtFront FtDown FtSync FtTree FtOps FtSent FtKeep FtState FtView FtThm FtSignals FtHist FtQuiet FtRead
  Gtk SpecGtk GtkFacts GtkView GtkRemove Widget SpecWidget FtMind ClientFacts.
Open Scope f_scope.

(** ** Rows and their paths *)
Definition spot (L : list (list id * row)) (l : list id) (a : nat) : Prop := exists r, In (l, r) L /\ r_addr r = a.

Section Rows.
  Variable L : list (list id * row).
  Variable g : gtk.
  Variable cs : list (list id).
  Hypothesis HL : layout L g cs.

  Lemma spot_cs : forall l a, spot L l a -> In l cs.
  Proof. intros l a (r & I & _). apply (lay_in_cs _ _ _ HL _ _ I). Qed.
  Lemma cs_spot : forall l, In l cs -> exists a, spot L l a.
  Proof. intros l I. destruct (lay_cs _ _ _ HL _ I) as (r & Ir). exists (r_addr r), r. auto. Qed.
  Lemma spot_path : forall l l' a, spot L l a -> spot L l' a -> l = l'.
  Proof. intros l l' a (r & I & E) (r' & I' & E'). destruct (lay_addr _ _ _ HL l r l' r' I I'); auto. congruence. Qed.
  Lemma spot_addr : forall l a a', spot L l a -> spot L l a' -> a = a'.
  Proof. intros l a a' (r & I & E) (r' & I' & E'). rewrite (lay_fun _ _ _ HL _ _ _ I I') in E. congruence. Qed.
  Lemma spot_row : forall l a, spot L l a -> exists r, row_at a g = Some r /\ r_addr r = a /\ In (l, r) L /\ r_id r = last l "".
  Proof.
    intros l a (r & I & <-). exists r. split; [apply (lay_row_at_ok _ _ _ HL l); auto|]. split; auto. split; auto.
    destruct (l_path _ _ _ HL _ _ I) as (q & -> & _). rewrite last_last. auto.
  Qed.
  Lemma spot_nonempty : forall l a, spot L l a -> l <> [].
  Proof. intros l a (r & I & _) ->. destruct (l_path _ _ _ HL _ _ I) as (q & E & _). destruct q; discriminate. Qed.

  Lemma cs_above : forall l z, In (l ++ z) cs -> l = [] \/ In l cs.
  Proof.
    intros l z. induction z as [|n z IH] using rev_ind; intros I; [rewrite app_nil_r in I; auto|].
    rewrite app_assoc in I. destruct (lay_prefix _ _ _ _ _ HL I) as [E|I']; auto. apply app_eq_nil in E. destruct E. auto.
  Qed.

  Lemma below_rows : forall l a, spot L l a -> (has_rows a g = true <-> exists n, In (l ++ [n]) cs).
  Proof.
    intros l a (r & I & <-). assert (Fo : found L l (Some (r_addr r))) by (right; exists r; auto). unfold has_rows. split.
    - destruct (store_children (Some (r_addr r)) g) as [|c t] eqn:E; [discriminate|]. intros _.
      assert (Ic : In c (store_children (Some (r_addr r)) g)) by (rewrite E; left; auto).
      apply (store_children_In _ _ _ _ _ _ HL Fo) in Ic. exists (r_id c). apply (lay_in_cs _ _ _ HL _ _ Ic).
    - intros (n & In'). destruct (lay_cs _ _ _ HL _ In') as (c & Ic).
      assert (r_id c = n) by (destruct (l_path _ _ _ HL _ _ Ic) as (q & E & _); apply app_inj_tail in E; destruct E; auto). subst n.
      apply (store_children_In _ _ _ _ _ _ HL Fo) in Ic. destruct (store_children (Some (r_addr r)) g); [destruct Ic|auto].
  Qed.

  Lemma lay_parent : forall q n r, In (q ++ [n], r) L -> (q = [] /\ r_parent r = None) \/ exists b, spot L q b /\ r_parent r = Some b.
  Proof.
    intros q n r I. destruct (l_path _ _ _ HL _ _ I) as (q' & E & X). apply app_inj_tail in E. destruct E as [<- _].
    destruct X as [X|(rq & I' & E)]; auto. right. exists (r_addr rq). split; auto. exists rq. auto.
  Qed.

  Definition depth (a : nat) : nat := match find (fun z => Nat.eqb (r_addr (snd z)) a) L with Some z => length (fst z) | None => 0 end.
  Lemma depth_spot : forall l a, spot L l a -> depth a = length l.
  Proof.
    intros l a (r & I & <-). unfold depth. destruct (find (fun z => Nat.eqb (r_addr (snd z)) (r_addr r)) L) as [[l' r']|] eqn:E.
    - apply find_some in E. destruct E as [E1 E2]. apply Nat.eqb_eq in E2. destruct (lay_addr _ _ _ HL _ _ _ _ E1 I E2) as [-> _]. auto.
    - pose proof (find_none _ _ E _ I) as X. simpl in X. rewrite Nat.eqb_refl in X. discriminate.
  Qed.
  Lemma lay_ranked : ranked depth (rows g).
  Proof.
    intros r p I E. destruct (lay_row _ _ _ HL r I) as (l & Il). destruct (l_path _ _ _ HL _ _ Il) as (q & -> & _).
    destruct (lay_parent _ _ _ Il) as [[_ X]|(b & Sb & X)]; [congruence|]. assert (p = b) by congruence. subst p.
    rewrite (depth_spot _ _ Sb), (depth_spot (q ++ [r_id r]) (r_addr r)) by (exists r; auto). rewrite app_length. simpl. lia.
  Qed.

  Lemma under_path : forall la a r, spot L la a -> under (rows g) a r -> forall l, In (l, r) L -> exists z, l = la ++ z.
  Proof.
    intros la a r Sa U. induction U as [r I E|r q I E U IH]; intros l Il.
    - exists []. rewrite app_nil_r. apply (spot_path _ _ a); auto. exists r. auto.
    - destruct (l_path _ _ _ HL _ _ Il) as (q' & -> & _). destruct (lay_parent _ _ _ Il) as [[_ X]|(b & Sb & X)]; [congruence|].
      assert (b = r_addr q) by congruence. subst b. assert (Iq : In q (rows g)) by (inversion U; auto).
      destruct (lay_row _ _ _ HL q Iq) as (lq & Ilq). assert (q' = lq) by (apply (spot_path _ _ (r_addr q)); auto; exists q; auto). subst q'.
      destruct (IH lq Ilq) as (z & ->). exists (z ++ [r_id r]). rewrite app_assoc. auto.
  Qed.

  Lemma path_under : forall la a z r, spot L la a -> In (la ++ z, r) L -> under (rows g) a r.
  Proof.
    intros la a z. induction z as [|n z IH] using rev_ind; intros r Sa I.
    - rewrite app_nil_r in I. apply under_self; [apply (lay_in _ _ _ HL _ _ I)|]. apply (spot_addr la); auto. exists r. auto.
    - rewrite app_assoc in I. destruct (lay_parent _ _ _ I) as [[E _]|(b & (q & Iq & <-) & X)].
      + apply app_eq_nil in E. exfalso. apply (spot_nonempty _ _ Sa). tauto.
      + apply (under_below _ _ r q); [apply (lay_in _ _ _ HL _ _ I)|auto|]. apply IH; auto.
  Qed.

  Lemma rows_under_spots : forall la a x, spot L la a -> (In x (map r_addr (rows_under a g)) <-> exists z, spot L (la ++ z) x).
  Proof.
    intros la a x Sa. unfold rows_under. rewrite in_map_iff. split.
    - intros (r & <- & I). apply filter_In in I. destruct I as [I1 I2]. destruct (lay_row _ _ _ HL r I1) as (l & Il).
      apply is_under_sound in I2; auto. destruct (under_path la a r Sa I2 l Il) as (z & ->). exists z, r. auto.
    - intros (z & r & I & <-). exists r. split; auto. apply filter_In. split; [apply (lay_in _ _ _ HL _ _ I)|].
      apply (is_under_complete (rows g) a depth); [apply (l_addr _ _ _ HL)|apply lay_ranked|]. apply (path_under la a z); auto.
  Qed.
End Rows.

(** ** Open rows *)
Definition marked (p : panel) (n : id) : Prop := exists q, In q (collapsed_paths p) /\ last q "" = n.
Definition unmarked (p : panel) (l : list id) : Prop := forall n, In n l -> ~ marked p n.

Definition open_ok (L : list (list id * row)) (cs : list (list id)) (p : panel) : Prop :=
  forall a, In a (expanded p) -> exists l, spot L l a /\ (exists n, In (l ++ [n]) cs) /\ unmarked p l.
Definition all_open (L : list (list id * row)) (cs : list (list id)) (p : panel) : Prop :=
  forall l a n, spot L l a -> In (l ++ [n]) cs -> unmarked p l -> In a (expanded p).

(** Why the caches can be trusted: [CI] is kept by every signal, if [QO] implies that no
    node is announced while a path to it is known. *)
Record cache_rule (pf : platform) (QO : Prop) (CI : list (list id * row) -> gtk -> list (list id) -> Prop) : Prop := {
  cr_good : forall L g cs, layout L g cs -> CI L g cs -> forall z, In z cs -> cache_good L g z;
  cr_step : forall L g cs L' g' cs' x, layout L g cs -> CI L g cs -> evolves pf L g L' g' -> hear cs x cs' -> (QO -> newb cs x = true) -> CI L' g' cs';
  cr_sort : forall L g cs L' rs, layout L g cs -> CI L g cs -> Permutation rs (rows g) -> Permutation L' L ->
    CI L' (mkGtk rs (clock g) (cache_paths g) (cache_position g)) cs;
  cr_new : CI [] new_gtk []
}.

Definition drawn (CI : list (list id * row) -> gtk -> list (list id) -> Prop) (full : Prop) (p : panel) (cs : list (list id)) : Prop :=
  exists L, layout L (store p) cs /\ CI L (store p) cs /\ open_ok L cs p /\ (full -> all_open L cs p).

Definition callbacks (l : list sig) : list (id * bool) :=
  flat_map (fun x => match x with SRun n 0 => [(n, false)] | SRun n 1 => [(n, true)] | _ => [] end) l.
Definition heeded (p p' : panel) (l : list sig) : Prop :=
  collapsed_paths p' = collapsed_paths p /\ idle_calls p' = idle_calls p ++ callbacks l.

Lemma heeded_nil : forall p, heeded p p [].
Proof. intros p. split; auto. unfold callbacks. simpl. rewrite app_nil_r. auto. Qed.
Lemma heeded_app : forall p q r l l', heeded p q l -> heeded q r l' -> heeded p r (l ++ l').
Proof.
  intros p q r l l' [A1 A2] [B1 B2]. split; [congruence|]. rewrite B2, A2. unfold callbacks. rewrite flat_map_app, app_assoc. auto.
Qed.

Section Panel.
  Variable pf : platform.
  Variable full : Prop.
  Hypothesis AL : faithful pf.
  Variable QO : Prop.
  Variable CI : list (list id * row) -> gtk -> list (list id) -> Prop.
  Hypothesis CR : cache_rule pf QO CI.

  Lemma row_expanded_In : forall a p, row_expanded a p = true <-> In a (expanded p).
  Proof.
    intros a p. unfold row_expanded. rewrite existsb_exists. split.
    - intros (x & I & E). apply Nat.eqb_eq in E. subst. auto.
    - intros I. exists a. split; auto. apply Nat.eqb_refl.
  Qed.

  Lemma known_spec : forall L p cs q n a, layout L (store p) cs -> spot L (q ++ [n]) a ->
    (known a p = true <-> q = [] \/ exists b, spot L q b /\ In b (expanded p)).
  Proof.
    intros L p cs q n a HL S. destruct (spot_row _ _ _ HL _ _ S) as (r & E & Ea & I & _). unfold known. rewrite E.
    destruct (lay_parent _ _ _ HL _ _ _ I) as [[-> X]|(b & Sb & X)]; rewrite X.
    - split; auto.
    - rewrite row_expanded_In. split.
      + intros H. right. exists b. auto.
      + intros [->|(b' & Sb' & H)]; [exfalso; apply (spot_nonempty _ _ _ HL _ _ Sb); auto|]. rewrite (spot_addr _ _ _ HL _ _ _ Sb Sb'). auto.
  Qed.

  Lemma marked_existsb : forall p n, existsb (fun c => String.eqb (last c "") n) (collapsed_paths p) = true <-> marked p n.
  Proof.
    intros p n. rewrite existsb_exists. split; intros (q & I & E); exists q; (split; [exact I|]).
    - apply String.eqb_eq in E. auto.
    - apply String.eqb_eq. auto.
  Qed.

  Lemma spot_modified : forall L L' g g' cs, layout L g cs -> layout L' g' cs -> (forall l a, spot L' l a -> spot L l a) ->
    forall l a, spot L' l a <-> spot L l a.
  Proof.
    intros L L' g g' cs HL HL' H l a. split; auto. intros S. pose proof (spot_cs _ _ _ HL _ _ S) as Hc.
    destruct (cs_spot _ _ _ HL' _ Hc) as (a' & S'). rewrite (spot_addr _ _ _ HL _ _ _ S (H _ _ S')). auto.
  Qed.

  Lemma open_same : forall L L' cs p p', (forall l a, spot L' l a <-> spot L l a) -> expanded p' = expanded p -> collapsed_paths p' = collapsed_paths p ->
    (open_ok L cs p -> open_ok L' cs p') /\ (all_open L cs p -> all_open L' cs p').
  Proof.
    intros L L' cs p p' H E1 E2. assert (U : forall l, unmarked p' l <-> unmarked p l) by (intros l; unfold unmarked, marked; rewrite E2; tauto). split.
    - intros O a Ha. rewrite E1 in Ha. destruct (O a Ha) as (l & S & X & Y). exists l. rewrite H, U. auto.
    - intros O l a n S X Y. rewrite E1. apply H in S. apply U in Y. apply (O l a n); auto.
  Qed.

  Lemma spots_added : forall L L' (x : list id * row) l a, Permutation L' (L ++ [x]) -> (spot L' l a <-> spot L l a \/ (l = fst x /\ a = r_addr (snd x))).
  Proof.
    intros L L' [q r] l a P. unfold spot. split.
    - intros (r' & I & E). apply (Permutation_in _ P) in I. apply in_app_iff in I. destruct I as [I|[I|[]]]; [left; exists r'; auto|]. inversion I; subst. auto.
    - intros [(r' & I & E)|[-> ->]].
      + exists r'. split; auto. apply (Permutation_in _ (Permutation_sym P)). apply in_app_iff. auto.
      + exists r. split; auto. apply (Permutation_in _ (Permutation_sym P)). apply in_app_iff. right. left. auto.
  Qed.


  Lemma step_added : forall T n q p cs, drawn CI full p cs -> ~ In (q ++ [n]) cs -> q = [] \/ In q cs -> has_node T n = true -> (QO -> newb cs (SAdded n (q ++ [n])) = true) ->
    exists p', on_panel_signal pf T (SAdded n (q ++ [n])) p = (p', Ok tt) /\ drawn CI full p' (cs ++ [q ++ [n]]) /\ heeded p p' [SAdded n (q ++ [n])].
  Proof.
    intros T n q p cs (L & HL & FC & O1 & O2) Hn Hq Ht Nw. cbn [on_panel_signal]. rewrite removelast_last.
    destruct (get_iter_fwd L cs q (store p) HL (cr_good _ _ _ CR _ _ _ HL FC) Hq) as (g0 & it & E0 & Fo & _). rewrite E0. cbn [snd].
    destruct (added_ok pf T L (store p) cs n q AL HL (cr_good _ _ _ CR _ _ _ HL FC) Ht Hn Hq) as (g1 & L1 & E1 & HL1 & EV & r & Fr & Er & P).
    rewrite E1. pose proof (cr_step _ _ _ CR _ _ _ _ _ _ _ HL FC EV (hear_added cs q n Hn Hq) Nw) as FC1.
    assert (SP : forall l a, spot L1 l a <-> spot L l a \/ (l = q ++ [n] /\ a = r_addr r)) by (intros l a; apply (spots_added L L1 (q ++ [n], r)); auto).
    set (cs1 := cs ++ [q ++ [n]]) in *.
    assert (CS : forall l, In l cs1 <-> In l cs \/ l = q ++ [n]).
    { intros l. unfold cs1. rewrite in_app_iff. simpl. split; intros [|]; auto. destruct H; [right; auto|contradiction]. }
    (* nothing is below the new row *)
    assert (NW : forall z, z <> [] -> ~ In ((q ++ [n]) ++ z) cs1).
    { intros z Hz I. apply CS in I. destruct I as [I|I].
      - destruct (cs_above _ _ _ HL _ _ I) as [X|X]; [destruct q; discriminate|contradiction].
      - rewrite <- (app_nil_r (q ++ [n])) in I at 2. apply app_inv_head in I. contradiction. }
    set (p1 := set_store g1 p).
    assert (OK1 : open_ok L1 cs1 p1).
    { intros a Ha. destruct (O1 a Ha) as (l & S & (m & X) & Y). exists l. split; [apply SP; auto|]. split; [exists m; apply CS; auto|exact Y]. }
    assert (Keep : (forall a, spot L q a -> unmarked p q -> In a (expanded p)) -> full -> all_open L1 cs1 p1).
    { intros K Fu l a m S X Y. apply CS in X. apply SP in S. change (unmarked p l) in Y. change (In a (expanded p)).
      destruct S as [S| [-> ->]].
      - destruct X as [X|X]; [apply (O2 Fu l a m); auto|]. apply app_inj_tail in X. destruct X as [-> _]. apply K; auto.
      - exfalso. apply (NW [m]); [discriminate|]. apply CS. auto. }
    destruct it as [a|].
    2:{ exists p1. split; [reflexivity|]. split; [|split; [reflexivity|unfold callbacks; simpl; rewrite app_nil_r; reflexivity]].
        exists L1. split; [exact HL1|]. split; [exact FC1|]. split; [exact OK1|]. apply Keep. intros a S. destruct Fo as [[-> _]|(rq & _ & X)]; [|discriminate].
        exfalso. apply (spot_nonempty _ _ _ HL _ _ S). auto. }
    destruct Fo as [[_ X]|(rq & Iq & X)]; [discriminate|]. inversion X; subst a. clear X. set (a := r_addr rq) in *.
    assert (Sq : spot L q a) by (exists rq; auto). assert (Sq1 : spot L1 q a) by (apply SP; auto).
    assert (Fo1 : found L1 q (Some a)) by (destruct Sq1 as (r1 & I1 & X); right; exists r1; split; auto; congruence).
    assert (Ir : In (q ++ [r_id r], r) L1) by (rewrite Er; apply (Permutation_in _ (Permutation_sym P)); apply in_app_iff; right; left; auto).
    assert (Old : forall m, In (q ++ [m]) cs -> 2 <= length (store_children (Some a) g1)).
    { intros m Hm. destruct (lay_cs _ _ _ HL1 (q ++ [m])) as (c & Ic); [apply CS; auto|].
      assert (Ec : r_id c = m) by (destruct (l_path _ _ _ HL1 _ _ Ic) as (q' & X & _); apply app_inj_tail in X; destruct X; auto).
      rewrite <- Ec in Ic. pose proof (proj2 (store_children_In _ _ _ _ _ _ HL1 Fo1) Ic) as Jc. pose proof (proj2 (store_children_In _ _ _ _ _ _ HL1 Fo1) Ir) as Jr.
      destruct (store_children (Some a) g1) as [|x [|y t]]; simpl in *; [contradiction| |lia]. destruct Jc as [Jc|[]]. destruct Jr as [Jr|[]].
      exfalso. apply Hn. rewrite <- Er, <- Jr, Jc, Ec. auto. }
    destruct (Nat.eqb (length (store_children (Some a) g1)) 1) eqn:Len.
    2:{ exists p1. split; [reflexivity|]. split; [|split; [reflexivity|unfold callbacks; simpl; rewrite app_nil_r; reflexivity]].
        exists L1. split; [exact HL1|]. split; [exact FC1|]. split; [exact OK1|]. intros Fu. apply Keep; auto. intros b Sb Ub.
        rewrite (spot_addr _ _ _ HL _ _ _ Sb Sq).
        (* a child was there before *)
        assert (Two : exists c, In c (store_children (Some a) g1) /\ c <> r).
        { pose proof (proj2 (store_children_In _ _ _ _ _ _ HL1 Fo1) Ir) as Jr.
          assert (ND : NoDup (store_children (Some a) g1)).
          { apply NoDup_filter. apply (NoDup_map_inv r_addr). apply (l_addr _ _ _ HL1). }
          destruct (store_children (Some a) g1) as [|x [|y t]]; [destruct Jr|discriminate|]. inversion ND as [|? ? N1 N2]; subst.
          destruct Jr as [<-|Jr].
          - exists y. split; [right; left; auto|]. intros ->. apply N1. left. auto.
          - exists x. split; [left; auto|]. intros ->. contradiction. }
        destruct Two as (c & Jc & Nc). apply (store_children_In _ _ _ _ _ _ HL1 Fo1) in Jc. pose proof (lay_in_cs _ _ _ HL1 _ _ Jc) as Kc.
        apply CS in Kc. destruct Kc as [Kc|Kc].
        - apply (O2 Fu q a (r_id c)); auto.
        - exfalso. apply Nc. apply (lay_fun _ _ _ HL1 (q ++ [r_id c])); auto. rewrite Kc, <- Er. auto. }
    apply Nat.eqb_eq in Len.
    assert (None' : forall m, ~ In (q ++ [m]) cs) by (intros m Hm; apply Old in Hm; lia).
    assert (Shut : ~ In a (expanded p)).
    { intros Ha. destruct (O1 a Ha) as (l & S & (m & X) & _). rewrite (spot_path _ _ _ HL _ _ _ S Sq) in X. apply (None' m). auto. }
    assert (Hd1 : forall p2, collapsed_paths p2 = collapsed_paths p -> idle_calls p2 = idle_calls p -> heeded p p2 [SAdded n (q ++ [n])]).
    { intros p2 A1 A2. split; auto. unfold callbacks. simpl. rewrite app_nil_r. auto. }
    unfold on_child_toggled. destruct (spot_row _ _ _ HL1 _ _ Sq1) as (r1 & R1 & R2 & R3 & R4). change (store p1) with g1. rewrite R1.
    assert (RE : row_expanded a p1 = false) by (apply not_true_iff_false; rewrite row_expanded_In; exact Shut). rewrite RE. cbn [negb andb].
    destruct (existsb (fun c => String.eqb (last c "") (r_id r1)) (collapsed_paths p1)) eqn:Mk; cbn [negb].
    { exists p1. split; [reflexivity|]. split; [|apply Hd1; auto]. exists L1. split; [exact HL1|]. split; [exact FC1|]. split; [exact OK1|]. apply Keep.
      intros b _ Ub. exfalso. apply marked_existsb in Mk. apply (Ub (r_id r1)); auto. rewrite R4.
      destruct (exists_last (spot_nonempty _ _ _ HL _ _ Sq)) as (q' & m & ->). rewrite last_last. apply in_app_iff. right. left. auto. }
    unfold expand_row. change (store p1) with g1.
    destruct (exists_last (spot_nonempty _ _ _ HL _ _ Sq)) as (q' & m & Eq).
    assert (KN : known a p1 = true <-> q' = [] \/ exists b, spot L1 q' b /\ In b (expanded p)).
    { apply (known_spec L1 p1 cs1 q' m a); [exact HL1|rewrite <- Eq; exact Sq1]. }
    assert (HR : has_rows a g1 = true) by (apply (below_rows _ _ _ HL1 q a Sq1); exists n; apply CS; auto). rewrite HR, andb_true_r.
    destruct (known a p1) eqn:Kn.
    2:{ exists p1. split; [reflexivity|]. split; [|apply Hd1; auto]. exists L1. split; [exact HL1|]. split; [exact FC1|]. split; [exact OK1|]. intros Fu. apply Keep; auto.
        intros b _ Ub. exfalso. enough (false = true) by discriminate. apply KN. destruct q' as [|y q'']; auto. right.
        assert (Hc : In (y :: q'') cs). { destruct (cs_above _ _ _ HL (y :: q'') [m]) as [Bad|Hc]; auto; [rewrite <- Eq; apply (spot_cs _ _ _ HL _ _ Sq)|discriminate]. }
        destruct (cs_spot _ _ _ HL _ Hc) as (c & Sc). exists c. split; [apply SP; auto|]. apply (O2 Fu (y :: q'') c m); auto.
        - rewrite <- Eq. apply (spot_cs _ _ _ HL _ _ Sq).
        - intros x Hx. apply Ub. rewrite Eq. apply in_app_iff. auto. }
    set (below := filter (fun x => has_rows x g1) (map r_addr (rows_under a g1))).
    assert (Bl : forall x, In x below -> x = a).
    { intros x Hx. apply filter_In in Hx. destruct Hx as [Hx Hr]. apply (rows_under_spots _ _ _ HL1 q a x Sq1) in Hx. destruct Hx as (z & Sz).
      destruct z as [|y z]; [rewrite app_nil_r in Sz; apply (spot_addr _ _ _ HL1 _ _ _ Sz Sq1)|]. exfalso.
      apply (below_rows _ _ _ HL1 _ _ Sz) in Hr. destruct Hr as (w & Hw). apply CS in Hw. destruct Hw as [Hw|Hw].
      - replace ((q ++ y :: z) ++ [w]) with ((q ++ [y]) ++ z ++ [w]) in Hw by (rewrite <- !app_assoc; auto).
        destruct (cs_above _ _ _ HL _ _ Hw) as [X|X]; [destruct q; discriminate|]. apply (None' y). auto.
      - rewrite <- app_assoc in Hw. apply app_inv_head in Hw. destruct z; discriminate. }
    assert (InE : forall x, In x (expanded p ++ a :: below) <-> In x (expanded p) \/ x = a).
    { intros x. rewrite in_app_iff. simpl. split; [intros [|[|]]; auto|intros [|]; auto]. }
    eexists. split; [reflexivity|]. split; [|apply Hd1; reflexivity]. exists L1. split; [exact HL1|]. split; [exact FC1|].
    split.
    - intros x Hx. cbn [expanded set_expanded p1 set_store] in Hx. apply InE in Hx. destruct Hx as [Hx| ->]; [apply OK1; exact Hx|].
      exists q. split; auto. split; [exists n; apply CS; auto|]. intros y Hy. rewrite Eq in Hy. apply in_app_iff in Hy. destruct Hy as [Hy|[<-|[]]].
      + destruct (proj1 KN eq_refl) as [->|(b & Sb & Hb)]; [destruct Hy|]. destruct (OK1 b Hb) as (l & Sl & _ & Y).
        rewrite (spot_path _ _ _ HL1 _ _ _ Sl Sb) in Y. apply Y. auto.
      + intros M. apply not_true_iff_false in Mk. apply Mk. apply marked_existsb. rewrite R4, Eq, last_last. exact M.
    - intros Fu l x w S X Y. cbn [expanded set_expanded p1 set_store]. apply InE. change (unmarked p l) in Y. apply CS in X. apply SP in S.
      destruct S as [S| [-> ->]].
      + destruct X as [X|X]; [left; apply (O2 Fu l x w); auto|]. apply app_inj_tail in X. destruct X as [-> _]. right. apply (spot_addr _ _ _ HL _ _ _ S Sq).
      + exfalso. apply (NW [w]); [discriminate|]. apply CS. auto.
  Qed.

  Lemma step_deleted : forall T n q p cs, drawn CI full p cs -> In (q ++ [n]) cs -> (forall below, below <> [] -> ~ In (q ++ [n] ++ below) cs) ->
    exists p', on_panel_signal pf T (SDeleted n (q ++ [n])) p = (p', Ok tt) /\
      drawn CI full p' (filter (fun l => negb (path_eqb l (q ++ [n]))) cs) /\ heeded p p' [SDeleted n (q ++ [n])].
  Proof.
    intros T n q p cs (L & HL & FC & O1 & O2) Hn Hb. cbn [on_panel_signal].
    destruct (deleted_ok pf T L (store p) cs n q HL (cr_good _ _ _ CR _ _ _ HL FC) Hn Hb) as (g1 & L1 & E1 & HL1 & EV & EL).
    rewrite E1. pose proof (cr_step _ _ _ CR _ _ _ _ _ _ _ HL FC EV (hear_deleted cs q n Hn Hb) (fun _ => eq_refl)) as FC1. set (cs1 := filter (fun l => negb (path_eqb l (q ++ [n]))) cs) in *.
    assert (CS : forall l, In l cs1 <-> In l cs /\ l <> q ++ [n]).
    { intros l. unfold cs1. rewrite filter_In. split; intros [A B]; (split; [exact A|]).
      - intros ->. rewrite path_eqb_refl' in B. discriminate.
      - rewrite path_eqb_neq; auto. }
    assert (SP : forall l a, spot L1 l a <-> spot L l a /\ l <> q ++ [n]).
    { intros l a. rewrite EL. unfold spot. split.
      - intros (r & I & E). apply filter_In in I. destruct I as [I B]. split; [exists r; auto|]. simpl in B. intros ->. rewrite path_eqb_refl' in B. discriminate.
      - intros [(r & I & E) B]. exists r. split; auto. apply filter_In. split; auto. simpl. rewrite path_eqb_neq; auto. }
    eexists. split; [reflexivity|]. split; [|split; [reflexivity|unfold callbacks; simpl; rewrite app_nil_r; reflexivity]].
    exists L1. split; [exact HL1|]. split; [exact FC1|]. split.
    - intros a Ha. cbn [expanded] in Ha. apply filter_In in Ha. destruct Ha as [Ha Hr]. destruct (O1 a Ha) as (l & S & (m & X) & Y).
      assert (Nl : l <> q ++ [n]). { intros ->. apply (Hb [m]); [discriminate|]. rewrite app_assoc. auto. }
      exists l. assert (S1 : spot L1 l a) by (apply SP; auto). split; auto. split; [|exact Y]. apply (below_rows _ _ _ HL1 l a S1). auto.
    - intros Fu l a m S X Y. cbn [expanded]. apply filter_In. split.
      + apply (O2 Fu l a m); [apply SP in S; tauto|apply CS in X; tauto|exact Y].
      + apply (below_rows _ _ _ HL1 l a S). exists m. auto.
  Qed.

  Lemma panel_step : forall T x p cs cs', drawn CI full p cs -> hear cs x cs' -> names_live (T, x) -> (QO -> newb cs x = true) ->
    exists p', on_panel_signal pf T x p = (p', Ok tt) /\ drawn CI full p' cs' /\ heeded p p' [x].
  Proof.
    intros T x p cs cs' D H Hn Nw. destruct H as [cs q n N1 N2|cs q n N1 N2|cs q n N1|cs n k].
    - apply step_added; auto.
    - apply step_deleted; auto.
    - cbn [on_panel_signal]. destruct D as (L & HL & FC & O1 & O2).
      destruct (modified_ok pf T L (store p) cs n q AL HL (cr_good _ _ _ CR _ _ _ HL FC) Hn N1) as (g1 & L1 & E1 & HL1 & EV & r & nd & Ir & _ & EL).
      rewrite E1. eexists. split; [reflexivity|]. split; [|split; [reflexivity|unfold callbacks; simpl; rewrite app_nil_r; reflexivity]].
      exists L1. split; [exact HL1|]. split; [apply (cr_step _ _ _ CR _ _ _ _ _ _ _ HL FC EV (hear_modified cs q n N1) (fun _ => eq_refl))|].
      assert (SP : forall l a, spot L1 l a <-> spot L l a).
      { apply (spot_modified L L1 (store p) g1 cs HL HL1). intros l a (r' & I & <-). destruct (EL _ I) as ([l0 r0] & I0 & E2 & E3). cbn [fst snd] in *.
        subst l0 r'. exists r0. split; auto. destruct (Nat.eqb (r_addr r0) (r_addr r)) eqn:Q; auto. apply Nat.eqb_eq in Q. auto. }
      destruct (open_same L L1 cs p (set_store g1 p) SP eq_refl eq_refl). auto.
    - assert (DX : forall c, drawn CI full (set_idle c p) cs).
      { intros c. destruct D as (L & HL & FC & O1 & O2). exists L. split; [exact HL|]. split; [exact FC|]. split; [exact O1|exact O2]. }
      destruct k as [|[|k]]; cbn [on_panel_signal]; eexists; (split; [reflexivity|]); (split; [auto|]); split; try reflexivity.
      unfold callbacks. simpl. rewrite app_nil_r. auto.
  Qed.
End Panel.

(** With addresses that are not used again, and with nodes that are announced once. *)
Definition by_address (pf : platform) (L : list (list id * row)) (g : gtk) (cs : list (list id)) : Prop := fresh_caches pf L g.
Lemma address_rule : forall pf, never_reuses pf -> cache_rule pf False (by_address pf).
Proof.
  intros pf NR. constructor.
  - intros L g cs _ FC z _. apply (fc_good _ _ _ FC z).
  - intros L g cs L' g' cs' x HL FC EV _ _. apply (fresh_evolves pf L g cs L' g'); auto.
  - intros L g cs L' rs HL [G C R] P PL. assert (IN : forall z, In z L' -> In z L) by (intros z; apply Permutation_in; exact PL). constructor.
    + intros q a l r H1 H2. apply (G q a l r); auto.
    + exact C.
    + intros l r I. apply (R l r). auto.
  - destruct (follows_new pf) as (L & HL & FC). assert (L = []) by (destruct L as [|[l r] L]; auto; destruct (lay_in _ _ _ HL l r (or_introl eq_refl))). subst L. exact FC.
Qed.
