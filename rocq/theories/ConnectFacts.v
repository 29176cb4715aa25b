(** Connecting a client to a view. *)
From Coq Require Import Permutation.
From Verif Require Import Base BaseFacts MainTree Spec SpecFrame MainFacts MainReg MainTight MainPaths Filters FTree SpecApi
  SpecView SpecViewing FtBase FtWalk FtEdge FtUp FtFront FtDown FtSync FtTree FtMind FtOps FtSent FtKeep FtState FtView FtThm FtSignals FtHist FtQuiet FtRead
  Gtk SpecGtk GtkFacts GtkView Widget ClientFacts.
Open Scope f_scope.

Section ConnectOne.
  Context {C : Type}.
  Variable ord : nat -> list id -> list id.
  Hypothesis HO : forall k l, Permutation (ord k l) l.
  Variable react : mtree -> sig -> C -> C * res unit.
  Variable F : C -> list (list id) -> Prop.
  Variable O : Prop.
  Hypothesis step : forall T x p cs cs', F p cs -> hear cs x cs' -> names_live (T, x) -> mindful T x cs' -> (O -> newb cs x = true) ->
    exists p', react T x p = (p', Ok tt) /\ F p' cs' /\ True.

  Lemma connect_one : forall x p0, viewing ord x -> F p0 [] -> (O -> lone_tree (fst (fst x))) -> exists t b s p, client_connect react x p0 = (t, b, s, p, Ok tt) /\
    cheld F t b s p /\ (forall q, view_path s q <-> view_path (snd x) q).
  Proof.
    intros [[t b] s] p0 V Hp Ho. cbn [fst] in Ho. pose proof (viewing_current ord HO _ V) as Cu. simpl in Cu.
    pose proof (synced_sound _ _ _ (c_sync _ _ _ Cu)) as So. unfold client_connect.
    assert (W' : fwp get_current_state (fun _ s' => like (unsent s) s' /\ @knows (tree_ear t [] (fun _ => True) O) s' (paths (kids (unsent s)) (froot (unsent s)))) (unsent s)).
    { apply state_all; [apply (sound_same s); auto| |intros X; apply (current_lone t b s); auto|].
      - intros x Nx Hx. change (is_displayed s x = true) in Hx. change (x <> froot s) in Nx.
        pose proof (proj1 (synced_D _ _ _ (c_apt _ _ _ Cu) (c_sync _ _ _ Cu) x) (conj Hx Nx)) as Dx.
        destruct (apt_D b (filters s) (froot s) t (c_apt _ _ _ Cu) x Dx). split; auto.
      - exists []. split; [split; [constructor|exists []; split; [|split]; auto; intros _ a0 n0 q0 b0 cs0 p1 E0; destruct a0; discriminate]|]. split; [constructor|]. intros l. split; [intros []|auto]. }
    apply fwp_run in W'. destruct W' as (v & [] & E & L & K). pose proof (blind_state (sent s) (unsent s)) as B. rewrite pre_unsent, E in B.
    assert (Rn : runonce v = runonce s).
    { destruct (current_state s) as (ps & s' & E' & Lk & Rn & _).
      - exact So.
      - intros y Hy Hi. assert (Dy := proj1 (all_nodes_In s y (so_keys _ So)) Hi).
        pose proof (proj1 (synced_D _ _ _ (c_apt _ _ _ Cu) (c_sync _ _ _ Cu) y) Dy) as Dx.
        destruct (apt_D b (filters s) (froot s) t (c_apt _ _ _ Cu) y Dx) as [_ Nr]. apply Nr. auto.
      - apply (viewing_ready ord HO _ V).
      - rewrite B in E'. inversion E'; subst. exact Rn. }
    rewrite B. cbn [fst snd].
    assert (L2 : like s v) by (destruct L; constructor; auto).
    assert (Nw : news s (pre (sent s) v) = sent v).
    { unfold news. simpl. rewrite skipn_app, skipn_all, Nat.sub_diag. auto. }
    rewrite Nw.
    pose proof K as (cs & (Hh & l & El & Fl & Fo) & Nd & Kc). simpl in El.
    assert (Lv : forallb (liveb t) (sent v) = true).
    { apply forallb_forall. intros x Hx. rewrite El in Hx. rewrite Forall_forall in Fl. specialize (Fl x Hx). destruct x; simpl in *; auto. }
    destruct (tell_one react F (fun _ _ _ => True) O (fun _ => I) (fun _ _ _ _ _ _ _ => I) step t (sent v) p0 [] cs Hp Hh (live_names _ _ Lv)) as (g & Eg & Fg & _).
    { apply (minds_live t (sent v) [] cs); auto. }
    { intros X. apply (fresh_freshb (sent v) [] [] cs); [constructor|auto|]. rewrite El. apply (Fo X). }
    rewrite Eg. exists t, b, (pre (sent s) v), g. split; auto.
    assert (Ro : froot v = froot s) by (apply (lk_root _ _ L)).
    assert (Ff : filters v = filters s) by (apply (lk_filters _ _ L)).
    split.
    - exists (sent s), v, cs. split; auto. split; [|split; [|auto]].
      + destruct Cu. constructor; auto; rewrite ?Ro, ?Ff; auto.
        apply (synced_heard _ _ _ _ _ s v); auto. apply (knows_ear (tree_ear t [] (fun _ => True) O)); auto. apply heeds_any.
      + pose proof (viewing_ready ord HO _ V) as [R1 R2]. cbn [snd] in *. split; [rewrite Rn; auto|]. intros n Hd. unfold waiting. rewrite Rn. apply R2.
        rewrite (like_disp _ _ n L2) in Hd. auto.
    - intros q. unfold view_path. assert (Kd : forall x, kids (pre (sent s) v) x = kids s x) by (intros x; apply (like_kids _ _ x L2)).
      cbn [snd]. change (froot (pre (sent s) v)) with (froot v). rewrite Ro.
      assert (DW : forall (h1 h2 : id -> list id) a l0, (forall x, h1 x = h2 x) -> downward h1 a l0 <-> downward h2 a l0).
      { intros h1 h2 a l0. revert a. induction l0 as [|z l0 IH]; simpl; intros a Hh12; [tauto|]. rewrite Hh12, IH by auto. tauto. }
      rewrite (DW _ _ _ _ Kd). tauto.
  Qed.
End ConnectOne.

Section Connect.
  Context {C : Type}.
  Variable ord : nat -> list id -> list id.
  Hypothesis HO : forall k l, Permutation (ord k l) l.
  Variable react : mtree -> sig -> C -> C * res unit.
  Variable F : C -> list (list id) -> Prop.
  Hypothesis step : forall T x p cs cs', F p cs -> hear cs x cs' -> names_live (T, x) -> mindful T x cs' ->
    exists p', react T x p = (p', Ok tt) /\ F p' cs' /\ True.

  Lemma cheld_connect : forall x p0, viewing ord x -> F p0 [] -> exists t b s p, client_connect react x p0 = (t, b, s, p, Ok tt) /\
    cheld F t b s p /\ (forall q, view_path s q <-> view_path (snd x) q).
  Proof.
    intros x p0 V Hp. apply (connect_one ord HO react F False (fun T x p cs cs' a b c d _ => step T x p cs cs' a b c d) x p0); auto. intros [].
  Qed.
End Connect.
