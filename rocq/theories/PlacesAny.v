(** Places of rows with any allocator: all that matters is that the rows form a forest. *)
From Coq Require Import Permutation.
From Verif Require Import Base BaseFacts MainTree Spec Filters FTree SpecApi SpecView SpecViewing Gtk SpecGtk GtkFacts GtkRemove
  Widget SpecWidget SpecPrint PrintStore WidgetUse WidgetPlaces.

Section Forest.
  Variable g : gtk.
  Hypothesis F : forest (rows g).

  Lemma kids_iff : forall o r, In r (store_children o g) <-> In r (rows g) /\ r_parent r = o.
  Proof. intros o r. rewrite kids_same. apply kids_In. Qed.

  Lemma kids_nodup : forall o, NoDup (map r_addr (store_children o g)).
  Proof.
    intros o. unfold store_children. destruct F as [N _]. revert N. generalize (rows g) as rs. intros rs. induction rs as [|x rs IH]; simpl; auto.
    intros N. inversion N as [|? ? N1 N2]; subst. destruct (parent_is o x); auto. simpl. constructor; auto.
    intros H. apply N1. apply in_map_iff in H. destruct H as (r & <- & H). apply filter_In in H. apply in_map. tauto.
  Qed.

  Lemma walk_row : forall ix a, walk None ix g = Some a -> exists r, In r (rows g) /\ r_addr r = a.
  Proof.
    intros ix. induction ix as [|i ix IH] using rev_ind; intros a H; [discriminate|]. rewrite walk_snoc in H.
    assert (Go : forall o, option_map r_addr (nth_error (store_children o g) i) = Some a -> exists r, In r (rows g) /\ r_addr r = a).
    { intros o E. destruct (nth_error (store_children o g) i) as [r|] eqn:En; [|discriminate]. inversion E; subst. apply nth_error_In in En.
      apply kids_iff in En. exists r. tauto. }
    destruct ix as [|j ix]; [apply (Go None H)|]. destruct (walk None (j :: ix) g) as [b|]; [|discriminate]. apply (Go (Some b) H).
  Qed.

  Lemma for_row : forall ix r, row_for ix g = Some r <-> In r (rows g) /\ walk None ix g = Some (r_addr r).
  Proof.
    intros ix r. unfold row_for. destruct (walk None ix g) as [a|] eqn:W; [|split; [discriminate|intros [_ H]; discriminate]]. split.
    - intros H. destruct (lay_row_at _ _ _ H) as [I E]. rewrite E. auto.
    - intros [I E]. inversion E. apply fo_at; auto.
  Qed.
  Lemma walk_for : forall ix a, walk None ix g = Some a -> exists r, row_for ix g = Some r /\ r_addr r = a.
  Proof. intros ix a H. destruct (walk_row ix a H) as (r & I & <-). exists r. split; auto. apply for_row. auto. Qed.

  (** The rows on a path are different ones. *)
  Lemma path_rows : forall r l, at_path (rows g) r l -> exists c, length c = length l /\ NoDup c /\ incl c (rows g) /\
    forall q, In q c -> exists k, at_path (rows g) q k /\ length k <= length l.
  Proof.
    intros r l H. induction H as [r I E|r q l I E H (c & C1 & C2 & C3 & C4)].
    - exists [r]. split; [auto|]. split; [constructor; [intros []|constructor]|]. split; [intros x [<-|[]]; auto|].
      intros x [<-|[]]. exists [r_id r]. split; [constructor; auto|auto].
    - assert (P : at_path (rows g) r (l ++ [r_id r])) by (econstructor; eauto).
      exists (r :: c). rewrite app_length. simpl. split; [lia|]. split; [|split].
      + constructor; auto. intros J. destruct (C4 r J) as (k & K1 & K2). rewrite (path_unique g F r k K1 _ P), app_length in K2. simpl in K2. lia.
      + intros x [<-|J]; auto.
      + intros x [<-|J]; [exists (l ++ [r_id r]); split; auto; rewrite app_length; simpl; lia|]. destruct (C4 x J) as (k & K1 & K2). exists k. split; auto. lia.
  Qed.
  Lemma path_short : forall r l, at_path (rows g) r l -> length l <= length (rows g).
  Proof. intros r l H. destruct (path_rows r l H) as (c & <- & C2 & C3 & _). apply NoDup_incl_length; auto. Qed.

  Lemma among_kids : forall o r, In r (rows g) -> r_parent r = o ->
    exists i, position_in (r_addr r) (store_children o g) = Some i /\ forall j, option_map r_addr (nth_error (store_children o g) j) = Some (r_addr r) <-> j = i.
  Proof.
    intros o r I E. assert (K : In r (store_children o g)) by (apply kids_iff; auto). apply In_nth_error in K. destruct K as (i & Ei). exists i.
    assert (P : position_in (r_addr r) (store_children o g) = Some i) by (apply position_nth; [apply kids_nodup|]; exists r; auto). split; auto.
    intros j. split.
    - intros H. destruct (nth_error (store_children o g) j) as [r'|] eqn:Ej; [|discriminate]. inversion H as [H'].
      assert (P' : position_in (r_addr r) (store_children o g) = Some j) by (apply position_nth; [apply kids_nodup|]; exists r'; auto). congruence.
    - intros ->. rewrite Ei. auto.
  Qed.
  Lemma under_kid : forall o r j, In r (rows g) -> option_map r_addr (nth_error (store_children o g) j) = Some (r_addr r) -> r_parent r = o.
  Proof.
    intros o r j I H. destruct (nth_error (store_children o g) j) as [r'|] eqn:Ej; [|discriminate]. inversion H as [H']. apply nth_error_In in Ej. apply kids_iff in Ej.
    destruct Ej as [I' P']. rewrite <- P'. f_equal. apply (fo_addr g F); auto.
  Qed.

  Lemma place_of : forall r l, at_path (rows g) r l -> exists ix, ix <> [] /\ (forall f, length l <= f -> indices_up f (r_addr r) g = Some ix) /\
    (forall jx, walk None jx g = Some (r_addr r) <-> jx = ix) /\ emitted ix g = Ok l.
  Proof.
    intros r l H. induction H as [r I E|r q l I E H (ix & Nx & Ix & Wx & Mx)].
    - destruct (among_kids None r I E) as (i & Pi & Hi). exists [i]. assert (W : walk None [i] g = Some (r_addr r)).
      { change [i] with (@nil nat ++ [i]). rewrite walk_snoc. apply Hi. auto. }
      split; [discriminate|]. split; [|split].
      + intros f Hf. destruct f as [|f]; [simpl in Hf; lia|]. cbn [indices_up]. rewrite fo_at, E, Pi; auto.
      + intros jx. split; [|intros ->; auto]. intros Z. destruct jx as [|j jx _] using rev_ind; [discriminate|]. rewrite walk_snoc in Z. destruct jx as [|k jx].
        * apply Hi in Z. subst. auto.
        * destruct (walk None (k :: jx) g) as [b|]; [|discriminate]. pose proof (under_kid (Some b) r j I Z). congruence.
      + unfold emitted. cbn [length seq fold_left firstn]. rewrite (proj2 (for_row [i] r) (conj I W)). auto.
    - destruct (among_kids (Some (r_addr q)) r I E) as (i & Pi & Hi). exists (ix ++ [i]). pose proof (proj2 (Wx ix) eq_refl) as Wq.
      assert (W : walk None (ix ++ [i]) g = Some (r_addr r)). { rewrite walk_snoc. destruct ix as [|k ix]; [contradiction|]. rewrite Wq. apply Hi. auto. }
      split; [destruct ix; discriminate|]. split; [|split].
      + intros f Hf. rewrite app_length in Hf. simpl in Hf. destruct f as [|f]; [lia|]. cbn [indices_up]. rewrite fo_at, E, Pi, Ix; auto. lia.
      + intros jx. split; [|intros ->; auto]. intros Z. destruct jx as [|j jx _] using rev_ind; [discriminate|]. rewrite walk_snoc in Z. destruct jx as [|k jx].
        * pose proof (under_kid None r j I Z). congruence.
        * destruct (walk None (k :: jx) g) as [b|] eqn:Wb; [|discriminate]. pose proof (under_kid (Some b) r j I Z) as Eb. rewrite E in Eb. inversion Eb; subst b.
          apply Wx in Wb. apply Hi in Z. subst. auto.
      + rewrite emitted_snoc, Mx, (proj2 (for_row (ix ++ [i]) r) (conj I W)). auto.
  Qed.

  Lemma places_forest :
    (forall r, In r (rows g) -> exists ix, indices (r_addr r) g = Some ix /\ forall jx, row_for jx g = Some r <-> jx = ix) /\
    (forall ix r, row_for ix g = Some r -> In r (rows g) /\ forall l, at_path (rows g) r l -> emitted ix g = Ok l) /\
    (forall paths rs, map (fun ix => row_for ix g) paths = map Some rs -> drag_data paths g = Ok paths /\ ids_at paths g = Ok (map r_id rs)).
  Proof.
    assert (One : forall r, In r (rows g) -> exists ix, indices (r_addr r) g = Some ix /\ forall jx, row_for jx g = Some r <-> jx = ix).
    { intros r I. destruct (proj2 F r I) as (l & H). destruct (place_of r l H) as (ix & _ & Ix & Wx & _). exists ix. split; [apply Ix; eapply path_short; eauto|].
      intros jx. rewrite for_row, <- Wx. tauto. }
    split; auto. split.
    - intros ix r E. apply for_row in E. destruct E as [I W]. split; auto. intros l H. destruct (place_of r l H) as (jx & _ & _ & Wx & Mx). apply Wx in W. subst. auto.
    - intros paths. induction paths as [|ix paths IH]; intros rs E; destruct rs as [|r rs]; try discriminate; cbn [drag_data ids_at map]; auto.
      simpl in E. inversion E as [[E1 E2]]. destruct (IH rs E2) as [A B]. destruct (proj1 (for_row ix r) E1) as [I W]. rewrite W, E1, A, B.
      destruct (One r I) as (jx & J & U). rewrite J. rewrite (proj1 (U ix) E1). auto.
  Qed.

  Lemma goes_forest : destination None g = Ok None /\
    forall ix pl, match row_for ix g with
                  | Some r => forall l, at_path (rows g) r l -> destination (Some (ix, pl)) g = Ok (goes_to pl l)
                  | None => destination (Some (ix, pl)) g = Err ValueError
                  end.
  Proof.
    split; auto. intros ix pl. destruct (row_for ix g) as [r|] eqn:E; [|cbn [destination]; rewrite E; auto]. intros l H. cbn [destination]. rewrite E. unfold goes_to.
    destruct H as [r I P|r q l I P H].
    - rewrite P. destruct pl; auto.
    - rewrite last_last, removelast_last, P, fo_at by (auto; eapply path_in; eauto). assert (N : last l "" = r_id q /\ l <> []).
      { destruct H; [auto|rewrite last_last]; split; auto; [discriminate|destruct l; discriminate]. }
      destruct N as [<- N]. destruct l; [contradiction|]. destruct pl; auto.
  Qed.
End Forest.

(** *** Whatever reaches the widget, its rows form a forest. *)
Section Use.
  Variable ord : nat -> list id -> list id.
  Variable pf : platform.
  Hypothesis AL : faithful pf.

  Definition neat (p : panel) : Prop := orderly (store p).

  Lemma orderly_rows : forall g g', rows g' = rows g -> orderly g -> orderly g'.
  Proof. intros g g' E H. unfold orderly. rewrite E. auto. Qed.

  Lemma tell_keeps : forall C (react : mtree -> sig -> C -> C * res unit) (P : C -> Prop), (forall T x p p' r, P p -> react T x p = (p', r) -> P p') ->
    forall T l p p' r, P p -> tell react T l p = (p', r) -> P p'.
  Proof.
    intros C react P K T l. induction l as [|x l IH]; intros p p' r H E; cbn [tell] in E; [inversion E; subst; auto|].
    destruct (react T x p) as [p1 [u|e|]] eqn:R; [eapply IH; [|exact E]; eapply K; eauto|inversion E; subst; eapply K; eauto..].
  Qed.
  Lemma feed_keeps : forall C (react : mtree -> sig -> C -> C * res unit) (P : C -> Prop), (forall T x p p' r, P p -> react T x p = (p', r) -> P p') ->
    forall b es s p s' p' r, P p -> feed_client ord react b es s p = (s', p', r) -> P p'.
  Proof.
    intros C react P K b es. induction es as [|e es IH]; intros s p s' p' r H E; cbn [feed_client] in E; [inversion E; subst; auto|].
    destruct (external_modify ord b (ev_tree e) (ev_id e) s) as [s1 [u|e1|]]; [|inversion E; subst; auto..].
    destruct (tell react (ev_tree e) (news s s1) p) as [p1 [u1|e1|]] eqn:R; pose proof (tell_keeps _ react P K _ _ _ _ _ H R) as H1;
      [eapply IH; [|exact E]; exact H1|inversion E; subst; auto..].
  Qed.
  Lemma call_keeps : forall C (react : mtree -> sig -> C -> C * res unit) (P : C -> Prop), (forall T x p p' r, P p -> react T x p = (p', r) -> P p') ->
    forall c x p x' p' r, P p -> client_call ord react c x p = (x', p', r) -> P p'.
  Proof.
    intros C react P K c [[t b] s] p x' p' r H E.
    assert (Other : forall y, match view_call ord c (t, b, s) with
        | (x1, Ok _) => let '(p1, r) := tell react t (news s (snd x1)) p in (x1, p1, r) | (x1, r) => (x1, p, r) end = y -> y = (x', p', r) -> P p').
    { intros y Y Z. destruct (view_call ord c (t, b, s)) as [x1 [u|e|]]; [|subst; inversion Z; subst; auto..].
      destruct (tell react t (news s (snd x1)) p) as [p1 r1] eqn:R. subst y. inversion Z; subst. eapply tell_keeps; eauto. }
    destruct c as [o| | | | | |]; cbn [client_call] in E; try (eapply Other; [reflexivity|exact E]).
    destruct (feed_client ord react b (events o t) s p) as [[s1 p1] r1] eqn:R. inversion E; subst. eapply feed_keeps; eauto.
  Qed.
  Lemma connect_keeps : forall C (react : mtree -> sig -> C -> C * res unit) (P : C -> Prop), (forall T x p p' r, P p -> react T x p = (p', r) -> P p') ->
    forall x p x' p' r, P p -> client_connect react x p = (x', p', r) -> P p'.
  Proof.
    intros C react P K [[t b] s] p x' p' r H E. unfold client_connect in E. destruct (get_current_state s) as [s1 [u|e|]]; [|inversion E; subst; auto..].
    destruct (tell react t (news s s1) p) as [p1 r1] eqn:R. inversion E; subst. eapply tell_keeps; eauto.
  Qed.

  Lemma neat_signal : forall T x p p' r, neat p -> on_panel_signal pf T x p = (p', r) -> neat p'.
  Proof.
    intros T x p p' r H E. unfold neat in *. destruct x as [n q|n q|n q|n k]; cbn [on_panel_signal] in E.
    - destruct (on_signal pf T (SAdded n q) (store p)) as [g1 o] eqn:S. pose proof (orderly_signal _ _ _ _ _ _ AL H S) as G.
      destruct o; inversion E; subst; auto. destruct (snd (my_get_iter (removelast q) (store p))); auto. destruct (Nat.eqb _ _); auto. rewrite toggled_store. auto.
    - destruct (on_signal pf T (SDeleted n q) (store p)) as [g1 o] eqn:S. pose proof (orderly_signal _ _ _ _ _ _ AL H S) as G. inversion E; subst. auto.
    - destruct (on_signal pf T (SModified n q) (store p)) as [g1 o] eqn:S. pose proof (orderly_signal _ _ _ _ _ _ AL H S) as G. inversion E; subst. auto.
    - destruct k as [|[|k]]; inversion E; subst; auto.
  Qed.

  Lemma paths_rows : forall opening n paths p p' seen, collapse_paths opening n paths p = (p', seen) -> rows (store p') = rows (store p).
  Proof.
    intros opening n paths. induction paths as [|q paths IH]; intros p p' seen E; cbn [collapse_paths] in E; [inversion E; auto|].
    destruct (my_get_iter q (store p)) as [g1 it] eqn:G. pose proof (proj1 (get_iter_rows' _ _ _ _ G)) as R. destruct it as [a|]; [|apply IH in E; rewrite E; auto].
    destruct (match row_at a g1 with Some r => String.eqb (r_id r) n | None => false end); [|apply IH in E; rewrite E; auto].
    match type of E with (fst (collapse_paths _ _ _ ?z), _) = _ => destruct (collapse_paths opening n paths z) as [p1 s1] eqn:Z end.
    inversion E; subst. apply IH in Z. cbn [fst]. rewrite Z. cbn [remember store]. destruct opening; [rewrite expand_store|]; auto.
  Qed.
  Lemma collapse_rows : forall opening n s p s' p' r, collapse_id opening n s p = (s', p', r) -> rows (store p') = rows (store p).
  Proof.
    intros opening n s p s' p' r E. unfold collapse_id in E. destruct (negb (truthy n)); [inversion E; auto|]. destruct (view_paths s n) as [ps|e|]; [|inversion E; auto..].
    destruct (collapse_paths opening n ps p) as [p1 seen] eqn:Z. apply paths_rows in Z. destruct seen; [inversion E; subst; auto|].
    destruct (queue_action n (if opening then 1 else 0) s) as [s1 [[]|e|]]; inversion E; subst; auto.
  Qed.

  Lemma neat_use : forall start asked x p, in_use ord pf start asked x p -> neat p.
  Proof.
    intros start asked x p H. induction H as [x x' p r V S W E|asked x p c x' p' r U IH S W E|asked x p rs U IH P|asked t b s p above n s' p' r U IH N E|asked t b s p s' p' r U IH E].
    - unfold build_panel in E. destruct (client_connect (on_signal pf) x new_gtk) as [[x1 g] r1] eqn:Z. inversion E; subst.
      apply (connect_keeps gtk (on_signal pf) orderly) in Z; auto; [intros T y q q' o Q1 Q2; eapply orderly_signal; eauto|].
      split; [constructor|]. split; [intros z q []|]. exists (fun z => z). intros z q [].
    - apply (call_keeps panel (on_panel_signal pf) neat) in E; auto. apply neat_signal.
    - eapply orderly_perm; [exact IH|]. auto.
    - unfold collapse_node in E. rewrite rev_app_distr in E. cbn [rev app] in E. apply collapse_rows in E. unfold neat. eapply orderly_rows; eauto.
    - unfold run_idle in E. destruct (idle_calls p) as [|[n o] rest]; [inversion E; subst; auto|]. apply collapse_rows in E. eapply orderly_rows; [|exact IH]. rewrite E. auto.
  Qed.
  Lemma forest_use : forall start asked x p, in_use ord pf start asked x p -> forest (rows (store p)).
  Proof. intros start asked x p H. apply orderly_forest. eapply neat_use; eauto. Qed.
End Use.

Lemma any_places : forall ord pf, faithful pf -> forall start asked x p, in_use ord pf start asked x p ->
  (forall r, In r (rows (store p)) -> exists ix, indices (r_addr r) (store p) = Some ix /\ forall jx, row_for jx (store p) = Some r <-> jx = ix) /\
  (forall ix r, row_for ix (store p) = Some r -> In r (rows (store p)) /\ (exists l, at_path (rows (store p)) r l) /\ forall l, at_path (rows (store p)) r l -> emitted ix (store p) = Ok l) /\
  (forall paths rs, map (fun ix => row_for ix (store p)) paths = map Some rs ->
    drag_data paths (store p) = Ok paths /\ ids_at paths (store p) = Ok (map r_id rs)).
Proof.
  intros ord pf AL start asked x p U. pose proof (forest_use ord pf AL _ _ _ _ U) as F. destruct (places_forest (store p) F) as (A & B & C). split; auto. split; auto.
  intros ix r E. destruct (B ix r E) as [I H]. split; auto. split; auto. apply (proj2 F r I).
Qed.

Lemma any_goes : forall ord pf, faithful pf -> forall start asked x p, in_use ord pf start asked x p ->
  destination None (store p) = Ok None /\
  forall ix pl, match row_for ix (store p) with
                | Some r => (exists l, at_path (rows (store p)) r l) /\ forall l, at_path (rows (store p)) r l -> destination (Some (ix, pl)) (store p) = Ok (goes_to pl l)
                | None => destination (Some (ix, pl)) (store p) = Err ValueError
                end.
Proof.
  intros ord pf AL start asked x p U. pose proof (forest_use ord pf AL _ _ _ _ U) as F. destruct (goes_forest (store p) F) as [A B]. split; auto.
  intros ix pl. specialize (B ix pl). destruct (row_for ix (store p)) as [r|] eqn:E; auto. apply (for_row (store p) F) in E. split; auto. apply (proj2 F r (proj1 E)).
Qed.

Lemma any_called : forall ord pf, faithful pf ->
  forall start asked x p cs i source f ix pl r l dest paths src rs, in_use ord pf start asked x p ->
  nth_error (sources cs) i = Some (source, f) -> row_for ix (store p) = Some r -> at_path (rows (store p)) r l -> goes_to pl l = Some dest -> dest <> "" ->
  map (fun jx => row_for jx src) paths = map Some rs ->
  drop_external (dnd_after cs) (S i) (Some (ix, pl)) paths (store p) src = Ok (map (fun r => (f, r_id r, dest)) rs).
Proof.
  intros ord pf AL start asked x p cs i source f ix pl r l dest paths src rs U En Er Hl Eg Nd Ep.
  destruct (any_goes ord pf AL _ _ _ _ U) as [_ G]. specialize (G ix pl). rewrite Er in G. destruct G as [_ G].
  rewrite (external_goes (dnd_after cs) (S i) ix pl l paths (store p) src rs (G l Hl) Ep), Eg, dnd_find, En. cbn [option_map].
  apply String.eqb_neq in Nd. rewrite Nd. auto.
Qed.
