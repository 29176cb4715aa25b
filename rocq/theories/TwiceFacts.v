(** What a second show() does. *)
From Coq Require Import Permutation.
From Verif Require Import Base BaseFacts MainTree Spec MainFacts MainReg MainTight MainPaths Filters FTree SpecApi
  SpecView SpecViewing FtBase FtWalk FtEdge FtUp FtFront FtDown FtSync FtTree FtMind FtOps FtSent FtKeep FtState FtView FtThm FtSignals FtHist FtQuiet FtRead
  Gtk SpecGtk GtkFacts GtkView Widget ClientFacts WidgetUse Sort SpecSort SortFacts GtkRemove Twice SpecTwice.

Lemma iter_rows : forall rp g, rows (fst (my_get_iter_rev rp g)) = rows g.
Proof.
  intros rp. induction rp as [|n rp IH]; intros g; auto. cbn [my_get_iter_rev].
  destruct (match pget (rev (n :: rp)) (cache_paths g) with Some (Some a) => _ | _ => None end); auto.
  specialize (IH g). destruct (my_get_iter_rev rp g) as [g1 root]. exact IH.
Qed.

Lemma added_one : forall pf T n q g, faithful pf -> has_node T n = true ->
  exists g', on_signal pf T (SAdded n q) g = (g', Ok tt) /\ length (rows g') = S (length (rows g)).
Proof.
  intros pf T n q g AL Hn. unfold has_node, dmem in Hn. cbn [on_signal]. unfold add_task. destruct (dget n (nodes T)) as [nd|]; [|discriminate].
  pose proof (iter_rows (rev (removelast q)) g) as E. unfold my_get_iter. destruct (my_get_iter_rev (rev (removelast q)) g) as [g1 it]. cbn [fst] in E.
  eexists. split; [reflexivity|]. unfold store_sort. cbn [rows]. rewrite (Permutation_length (proj2 AL _ _)). cbn [store_insert rows]. rewrite app_length, E. simpl. lia.
Qed.

Lemma twice_tells : forall pf T, faithful pf -> forall ps g, (forall q, In q ps -> has_node T (last q "") = true) ->
  exists g', tell (twice pf) T (map (fun q => SAdded (last q "") q) ps) g = (g', Ok tt) /\ length (rows g') = 2 * length ps + length (rows g).
Proof.
  intros pf T AL ps. induction ps as [|q ps IH]; intros g H; [exists g; auto|]. cbn [map tell]. unfold twice at 1.
  destruct (added_one pf T (last q "") q g AL (H q (or_introl eq_refl))) as (g1 & -> & L1).
  destruct (added_one pf T (last q "") q g1 AL (H q (or_introl eq_refl))) as (g2 & -> & L2).
  destruct (IH g2) as (g3 & E3 & L3); [intros p Hp; apply H; right; auto|]. exists g3. split; auto. simpl. lia.
Qed.

Lemma at_in : forall rs r l, at_path rs r l -> In r rs.
Proof. intros rs r l H. destruct H; auto. Qed.

Lemma shows_length : forall rs X ps, shows rs X -> NoDup ps -> (forall q, In q ps <-> X q) -> length ps = length rs.
Proof.
  intros rs X ps (H1 & H2 & H3 & H4 & H5) ND HX.
  assert (U : forall r l, at_path rs r l -> forall l', at_path rs r l' -> l = l').
  { assert (A : forall r q, In r rs -> In q rs -> r_addr r = r_addr q -> r = q).
    { clear - H1. induction rs as [|x l IH]; intros r q Hr Hq E; [destruct Hr|]. simpl in H1. inversion H1; subst.
      destruct Hr as [->|Hr]; destruct Hq as [->|Hq]; auto; exfalso; apply H2; [rewrite E|rewrite <- E]; apply in_map; auto. }
    intros r l H. induction H as [r I E|r q l I E H IH]; intros l' H'; inversion H' as [r1 I1 E1|r1 q1 l1 I1 E1 H6]; subst; auto; try congruence.
    assert (q = q1) by (apply A; [eapply at_in; eauto|eapply at_in; eauto|congruence]). subst q1. rewrite (IH _ H6). auto. }
  assert (Q : exists qs, Forall2 (fun r q => at_path rs r q) rs qs).
  { assert (Y : forall xs, (forall r, In r xs -> In r rs) -> exists qs, Forall2 (fun r q => at_path rs r q) xs qs).
    { intros xs. induction xs as [|x xs IH]; intros H; [exists []; constructor|]. destruct IH as (qs & Hq); [intros r Hr; apply H; right; auto|].
      destruct (H2 x (H x (or_introl eq_refl))) as (l & Hl). exists (l :: qs). constructor; auto. }
    apply Y. auto. }
  destruct Q as (qs & Q).
  assert (Lq : length rs = length qs) by (clear - Q; induction Q; simpl; auto).
  assert (Iq : forall q, In q qs <-> X q).
  { intros q. split.
    - intros I. assert (Z : exists r, at_path rs r q). { clear - I Q. revert Q. generalize rs at 2. intros xs Q. induction Q; [destruct I|]. destruct I as [->|I]; eauto. }
      destruct Z as (r & Hr). eauto.
    - intros Hq. destruct (H4 q Hq) as (r & Hr). pose proof (at_in _ _ _ Hr) as I. clear - U Hr I Q. revert Q I. generalize rs at 2 3. intros xs Q I.
      induction Q as [|x y xs qs E Q IH]; [destruct I|]. destruct I as [->|I]; [left; apply (U r); auto|right; auto]. }
  assert (Nq : NoDup qs).
  { assert (Nr : NoDup rs) by (apply (NoDup_map_inv r_addr); auto). clear - Nr Q H5. revert Q Nr. generalize rs at 2 3. intros xs Q Nr.
    induction Q as [|x y xs qs E Q IH]; [constructor|]. inversion Nr as [|? ? N1 N2]; subst. constructor; auto. intros I. apply N1. clear - I Q E H5.
    induction Q as [|x' y' xs qs E' Q IH]; [destruct I|]. destruct I as [->|I]; [left; apply (H5 _ _ y); auto|right; auto]. }
  rewrite Lq. apply Permutation_length. apply NoDup_Permutation; auto. intros q. rewrite HX, Iq. tauto.
Qed.

Section Twice.
  Variable ord : nat -> list id -> list id.
  Variable pf : platform.
  Hypothesis HO : forall k l, Permutation (ord k l) l.
  Hypothesis AL : faithful pf.
  Hypothesis NR : never_reuses pf.

  Lemma shown_again : forall x g, watching ord pf x g ->
    exists x' g', show_again pf x g = (x', g', Ok tt) /\ length (rows g') = 3 * length (rows g).
  Proof.
    intros [[t b] s] g W. pose proof (watching_shows ord pf HO AL NR t b s g W) as Sh.
    pose proof (watching_cheld ord pf HO AL NR (t, b, s) g W) as (l & v & cs & Es & Cu & [Rd1 Rd2] & Hh & Fo).
    assert (So : sound s) by (subst s; apply (sound_same v); auto; apply (synced_sound _ _ _ (c_sync _ _ _ Cu))).
    assert (Pv : proper v) by (apply (synced_proper t b v (c_reg _ _ _ Cu) (c_apt _ _ _ Cu) (c_sync _ _ _ Cu))).
    assert (Pr : proper s) by (subst s; exact Pv).
    assert (Id : idle s) by (subst s; exact Rd2).
    destruct (current_state s So Pr Id) as (ps & s' & E & _ & _ & Es' & ND & Hp & _).
    unfold show_again, client_connect. rewrite E.
    assert (Nw : news s s' = map (fun q => SAdded (last q "") q) ps) by (unfold news; rewrite Es', skipn_app, skipn_all, Nat.sub_diag; auto).
    rewrite Nw. destruct (twice_tells pf t AL ps g) as (g' & E' & L').
    - intros q Hq. apply Hp in Hq. destruct Sh as (_ & _ & _ & H4 & _). destruct (H4 q Hq) as (r & Hr).
      assert (El : last q "" = r_id r) by (destruct Hr; auto; apply last_last). rewrite El.
      destruct (watching_data ord pf HO AL NR t b s g r W (at_in _ _ _ Hr)) as (d & D1 & _). unfold SpecFrame.data_at in D1. unfold has_node, dmem.
      destruct (dget (r_id r) (nodes t)); auto; discriminate.
    - rewrite E'. exists (t, b, s'), g'. split; auto. pose proof (shows_length _ _ ps Sh ND Hp) as Z. unfold id in *. rewrite L', Z. lia.
  Qed.

End Twice.

(** *** Removals *)
Definition tidy_dict (g : gtk) : Prop := NoDup (map fst (cache_position g)).

Lemma path_eqb_true : forall p q, path_eqb p q = true -> p = q.
Proof. intros p. induction p as [|x p IH]; intros [|y q] H; simpl in H; try discriminate; auto. apply andb_true_iff in H. destruct H as [H1 H2]. apply String.eqb_eq in H1. rewrite (IH q H2), H1. auto. Qed.
Lemma path_eqb_self : forall p, path_eqb p p = true.
Proof. intros p. induction p as [|x p IH]; simpl; auto. rewrite String.eqb_refl. auto. Qed.
Lemma pset_keys : forall V q (v : V) d p, In p (map fst (pset q v d)) -> p = q \/ In p (map fst d).
Proof. intros V q v d. induction d as [|[k w] d IH]; simpl; intros p; [intuition|]. destruct (path_eqb q k) eqn:E; simpl; intros [H|H]; auto. destruct (IH p H); auto. Qed.
Lemma pset_tidy : forall V q (v : V) d, NoDup (map fst d) -> NoDup (map fst (pset q v d)).
Proof.
  intros V q v d. induction d as [|[k w] d IH]; simpl; intros ND; [repeat constructor; auto|]. inversion ND; subst. destruct (path_eqb q k) eqn:E; simpl.
  - apply path_eqb_true in E. subst. constructor; auto.
  - constructor; auto. intros I. apply pset_keys in I. destruct I as [->|I]; auto. rewrite path_eqb_self in E. discriminate.
Qed.
Lemma pdel_keys : forall V q (d : list (list id * V)) p, In p (map fst (pdel q d)) -> In p (map fst d).
Proof. intros V q d. induction d as [|[k w] d IH]; simpl; intros p; auto. destruct (path_eqb q k); simpl; auto. intros [H|H]; auto. Qed.
Lemma pdel_tidy : forall V q (d : list (list id * V)), NoDup (map fst d) -> NoDup (map fst (pdel q d)).
Proof.
  intros V q d. induction d as [|[k w] d IH]; simpl; intros ND; auto. inversion ND; subst. destruct (path_eqb q k); simpl; auto. constructor; auto. intros I. apply pdel_keys in I. auto.
Qed.
Lemma pget_none : forall V q (d : list (list id * V)), ~ In q (map fst d) -> pget q d = None.
Proof. intros V q d. induction d as [|[k w] d IH]; simpl; intros H; auto. destruct (path_eqb q k) eqn:E; [apply path_eqb_true in E; subst; tauto|]. apply IH. tauto. Qed.
Lemma pdel_gone : forall V q (d : list (list id * V)), NoDup (map fst d) -> pget q (pdel q d) = None.
Proof.
  intros V q d. induction d as [|[k w] d IH]; simpl; intros ND; auto. inversion ND; subst. destruct (path_eqb q k) eqn:E.
  - apply path_eqb_true in E. subst. apply pget_none. auto.
  - simpl. rewrite E. auto.
Qed.

Lemma iter_position : forall p g, cache_position (fst (my_get_iter p g)) = cache_position g.
Proof.
  intros p g. unfold my_get_iter. generalize (rev p). intros rp. induction rp as [|n rp IH]; auto. cbn [my_get_iter_rev].
  destruct (match pget (rev (n :: rp)) (cache_paths g) with Some (Some a) => _ | _ => None end); auto.
  destruct (my_get_iter_rev rp g) as [g1 root]. exact IH.
Qed.

Section Tidy.
  Variable pf : platform.

  Lemma tidy_signal : forall T x g, tidy_dict g -> tidy_dict (fst (on_signal pf T x g)).
  Proof.
    intros T x g H. unfold tidy_dict in *. destruct x as [n q|n q|n q|n a]; cbn [on_signal]; auto.
    - unfold add_task. destruct (dget n (nodes T)); auto. pose proof (iter_position (removelast q) g) as E. destruct (my_get_iter (removelast q) g) as [g1 it].
      cbn in *. rewrite E. apply pset_tidy. auto.
    - unfold remove_task. pose proof (iter_position q g) as E. destruct (my_get_iter q g) as [g1 [a|]]; cbn [fst] in E; rewrite <- E in H; auto.
      destruct (row_at a g1) as [r|]; auto. destruct (String.eqb (r_id r) n); auto.
      cbv zeta. cbn [store_remove cache_position]. destruct (pget q (cache_position g1)); auto. cbn [fst cache_position]. apply pdel_tidy. auto.
    - unfold update_task. destruct (dget n (nodes T)); auto. pose proof (iter_position q g) as E. destruct (my_get_iter q g) as [g1 [a|]]; cbn in *; rewrite E; auto.
  Qed.

  (** The second removal of a path raises. *)
  Lemma removed_twice : forall T n q g, tidy_dict g -> snd (twice pf T (SDeleted n q) g) <> Ok tt.
  Proof.
    intros T n q g H. unfold twice. destruct (on_signal pf T (SDeleted n q) g) as [g1 [[]|e|]] eqn:E1; cbn [snd]; try discriminate.
    assert (G : pget q (cache_position g1) = None).
    { cbn [on_signal] in E1. unfold remove_task in E1. pose proof (iter_position q g) as E. destruct (my_get_iter q g) as [g0 [a|]]; [|discriminate]. cbn [fst] in E.
      destruct (row_at a g0) as [r|]; [|discriminate]. destruct (String.eqb (r_id r) n); [|discriminate]. cbn [store_remove cache_position] in E1.
      destruct (pget q (cache_position g0)); [|discriminate]. inversion E1; subst. cbn [cache_position]. rewrite E. apply pdel_gone. auto. }
    cbn [on_signal]. unfold remove_task. pose proof (iter_position q g1) as E. destruct (my_get_iter q g1) as [g2 [a|]]; [|discriminate]. cbn [fst] in E.
    destruct (row_at a g2) as [r|]; [|discriminate]. destruct (String.eqb (r_id r) n); [|discriminate]. cbn [store_remove cache_position]. rewrite E, G. discriminate.
  Qed.

  Lemma tidy_twice : forall T x g, tidy_dict g -> tidy_dict (fst (twice pf T x g)).
  Proof.
    intros T x g H. unfold twice. pose proof (tidy_signal T x g H) as H1. destruct (on_signal pf T x g) as [g1 [u|e|]]; auto. apply tidy_signal. auto.
  Qed.

  Section Any.
    Variable ord : nat -> list id -> list id.
    Variable react : mtree -> sig -> gtk -> gtk * res unit.
    Hypothesis RT : forall T x g, tidy_dict g -> tidy_dict (fst (react T x g)).

    Lemma tidy_tell : forall T l g, tidy_dict g -> tidy_dict (fst (tell react T l g)).
    Proof.
      intros T l. induction l as [|x l IH]; intros g H; auto. cbn [tell]. pose proof (RT T x g H) as H1. destruct (react T x g) as [g1 [u|e|]]; auto.
    Qed.
    Lemma tidy_feed : forall b es s g, tidy_dict g -> tidy_dict (snd (fst (feed_client ord react b es s g))).
    Proof.
      intros b es. induction es as [|e es IH]; intros s g H; auto. cbn [feed_client]. destruct (external_modify ord b (ev_tree e) (ev_id e) s) as [s1 [u|x|]]; auto.
      pose proof (tidy_tell (ev_tree e) (news s s1) g H) as H1. destruct (tell react (ev_tree e) (news s s1) g) as [g1 [v|x|]]; auto.
    Qed.
    Lemma tidy_client : forall c x g, tidy_dict g -> tidy_dict (snd (fst (client_call ord react c x g))).
    Proof.
      intros c [[t b] s] g H. unfold client_call.
      assert (G : forall x1 r1, tidy_dict (snd (fst (match (x1, r1) : viewed * res unit with
                                       | (x2, Ok _) => let '(p1, r) := tell react t (news s (snd x2)) g in (x2, p1, r)
                                       | (x2, r) => (x2, g, r) end)))).
      { intros x1 [u|e|]; auto. pose proof (tidy_tell t (news s (snd x1)) g H) as H1. destruct (tell react t (news s (snd x1)) g). auto. }
      destruct c; try (match goal with |- context [view_call ord ?c ?x] => destruct (view_call ord c x) as [x1 r1] end; apply G).
      pose proof (tidy_feed b (events o t) s g H) as H1. destruct (feed_client ord react b (events o t) s g) as [[s1 p1] r]. auto.
    Qed.
    Lemma tidy_connect : forall x g, tidy_dict g -> tidy_dict (snd (fst (client_connect react x g))).
    Proof.
      intros [[t b] s] g H. unfold client_connect. destruct (get_current_state s) as [s1 [u|e|]]; auto.
      pose proof (tidy_tell t (news s s1) g H) as H1. destruct (tell react t (news s s1) g). auto.
    Qed.

    (** A signal that always raises is not among those told without an exception. *)
    Variable bad : sig -> Prop.
    Hypothesis RB : forall T x g, tidy_dict g -> bad x -> snd (react T x g) <> Ok tt.
    Lemma tell_bad : forall T l g g', tidy_dict g -> tell react T l g = (g', Ok tt) -> forall x, In x l -> ~ bad x.
    Proof.
      intros T l. induction l as [|y l IH]; intros g g' H E x Hx Bx; [destruct Hx|]. cbn [tell] in E. pose proof (RT T y g H) as H1.
      destruct Hx as [->|Hx].
      - pose proof (RB T x g H Bx) as N. destruct (react T x g) as [g1 [[]|e|]]; try discriminate. apply N. auto.
      - destruct (react T y g) as [g1 [[]|e|]]; try discriminate. apply (IH g1 g' H1 E x Hx Bx).
    Qed.

    Lemma feed_longer : forall b es s g, longer s (fst (fst (feed_client ord react b es s g))).
    Proof.
      intros b es. induction es as [|e es IH]; intros s g; [apply longer_refl|]. cbn [feed_client].
      pose proof (blind_extends _ (external_modify ord b (ev_tree e) (ev_id e)) s (blind_external ord b (ev_tree e) (ev_id e))) as L.
      destruct (external_modify ord b (ev_tree e) (ev_id e) s) as [s1 [u|x|]]; cbn [fst] in *; auto.
      destruct (tell react (ev_tree e) (news s s1) g) as [g1 [v|x|]]; cbn [fst]; auto. eapply longer_trans; [exact L|apply IH].
    Qed.
    Lemma feed_bad : forall b es s g s' g', tidy_dict g -> feed_client ord react b es s g = (s', g', Ok tt) -> forall x, In x (news s s') -> ~ bad x.
    Proof.
      intros b es. induction es as [|e es IH]; intros s g s' g' H E x Hx Bx; cbn [feed_client] in E.
      - inversion E; subst. rewrite news_same in Hx by auto. destruct Hx.
      - pose proof (blind_extends _ (external_modify ord b (ev_tree e) (ev_id e)) s (blind_external ord b (ev_tree e) (ev_id e))) as L.
        destruct (external_modify ord b (ev_tree e) (ev_id e) s) as [s1 [u|y|]]; try discriminate. cbn [fst] in L.
        pose proof (tidy_tell (ev_tree e) (news s s1) g H) as H1. pose proof (tell_bad (ev_tree e) (news s s1) g) as TB.
        destruct (tell react (ev_tree e) (news s s1) g) as [g1 [[]|y|]]; try discriminate.
        pose proof (feed_longer b es s1 g1) as L2. rewrite E in L2. cbn [fst] in L2. rewrite (news_app s s1 s' L L2), in_app_iff in Hx.
        destruct Hx as [Hx|Hx]; [apply (TB g1 H eq_refl x Hx Bx)|apply (IH s1 g1 s' g' H1 E x Hx Bx)].
    Qed.
    Lemma client_bad : forall c t b s g x' g', tidy_dict g -> client_call ord react c (t, b, s) g = (x', g', Ok tt) -> forall x, In x (news s (snd x')) -> ~ bad x.
    Proof.
      intros c t b s g x' g' H E x Hx Bx. unfold client_call in E.
      assert (G : forall x1 r1, match (x1, r1) : viewed * res unit with
                                | (x2, Ok _) => let '(p1, r) := tell react t (news s (snd x2)) g in (x2, p1, r)
                                | (x2, r) => (x2, g, r) end = (x', g', Ok tt) -> False).
      { intros x1 [u|e|] G; try discriminate. pose proof (tell_bad t (news s (snd x1)) g) as TB.
        destruct (tell react t (news s (snd x1)) g) as [p1 r] eqn:Et. inversion G; subst. apply (TB g' H eq_refl x Hx Bx). }
      destruct c; try (match type of E with context [view_call ord ?c ?y] => destruct (view_call ord c y) as [x1 r1] end; apply (G _ _ E)).
      destruct (feed_client ord react b (events o t) s g) as [[s1 p1] r] eqn:Ef. inversion E; subst. apply (feed_bad b (events o t) s g s1 g' H Ef x Hx Bx).
    Qed.
  End Any.
End Tidy.

Section Removals.
  Variable ord : nat -> list id -> list id.
  Variable pf : platform.

  Lemma watching_tidy : forall x g, watching ord pf x g -> tidy_dict g.
  Proof.
    intros x g H. induction H as [x x' g' r V E|x g c x' g' r H IH X E|x g rs H IH P]; auto.
    - rewrite <- build_connect in E. pose proof (tidy_connect (on_signal pf) (tidy_signal pf) x new_gtk) as T. rewrite E in T. apply T. constructor.
    - rewrite <- client_is_widget in E. pose proof (tidy_client ord (on_signal pf) (tidy_signal pf) c x g IH) as T. rewrite E in T. exact T.
  Qed.
  Lemma shown_tidy : forall x g, shown_twice ord pf x g -> tidy_dict g.
  Proof.
    intros x g H. induction H as [x g x' g' r W E|x g c x' g' r H IH E].
    - pose proof (tidy_connect (twice pf) (tidy_twice pf) x g (watching_tidy _ _ W)) as T. unfold show_again in E. rewrite E in T. exact T.
    - pose proof (tidy_client ord (twice pf) (tidy_twice pf) c x g IH) as T. unfold call_again in E. rewrite E in T. exact T.
  Qed.

  Lemma removal_raises : forall c t b s g x' g', shown_twice ord pf (t, b, s) g -> call_again ord pf c (t, b, s) g = (x', g', Ok tt) ->
    forall n q, ~ In (SDeleted n q) (news s (snd x')).
  Proof.
    intros c t b s g x' g' H E n q I. apply shown_tidy in H.
    assert (RB : forall T x g0, tidy_dict g0 -> (exists n q, x = SDeleted n q) -> snd (twice pf T x g0) <> Ok tt) by (intros T x g0 H0 (m & p & ->); apply removed_twice; auto).
    apply (client_bad ord (twice pf) (tidy_twice pf) (fun x => exists n q, x = SDeleted n q) RB c t b s g x' g' H E (SDeleted n q) I). eauto.
  Qed.
End Removals.
