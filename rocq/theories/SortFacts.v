(** Known nodes are nodes of the tree while a node is announced. *)
From Coq Require Import Permutation ZArith.
From Verif Require Import Base BaseFacts MainTree Spec SpecFrame MainFacts MainReg MainTight MainPaths Filters FTree SpecApi
  SpecView SpecViewing FtBase FtWalk FtEdge FtUp FtFront FtDown FtSync FtTree FtMind FtOps FtSent FtKeep FtState FtView FtThm FtSignals FtHist FtQuiet FtRead
  Gtk SpecGtk GtkFacts GtkView Widget ClientFacts StayRows WidgetUse Sort SpecSort.
From Verif Require Export ConnectFacts.
Open Scope f_scope.

(** ** A client that looks up what it knows *)
Lemma look_up_live : forall T cs, live_paths T cs = true -> look_up T cs = Ok tt.
Proof.
  intros T cs H. unfold look_up. unfold live_paths, has_node, dmem in H. rewrite H. auto.
Qed.

Lemma attentive_step : forall T x (p cs cs' : list (list id)), p = cs -> hear cs x cs' -> names_live (T, x) -> mindful T x cs' ->
  exists p', attentive T x p = (p', Ok tt) /\ p' = cs' /\ True.
Proof.
  intros T x p cs cs' -> Hh _ Hm. exists cs'. rewrite (hear_learn _ _ _ Hh) in *. split; auto. destruct x; simpl in *; auto; rewrite look_up_live; auto.
Qed.

Section Attend.
  Variable ord : nat -> list id -> list id.
  Hypothesis HO : forall k l, Permutation (ord k l) l.

  Notation same := (fun (p cs : list (list id)) => p = cs).

  Lemma attended_held : forall x cs, attended ord x cs -> let '(t, b, s) := x in cheld same t b s cs.
  Proof.
    intros x cs H. induction H as [x x' cs r V E|[[t b] s] cs c x' cs' r H IH X E].
    - destruct (cheld_connect ord HO attentive same attentive_step x [] V eq_refl) as (t & b & s & p & E2 & Hc & _). rewrite E2 in E. inversion E; subst. auto.
    - destruct (cheld_call ord HO attentive same (fun _ _ _ => True) (fun _ => I) (fun _ _ _ _ _ _ _ => I) attentive_step c t b s cs IH X)
        as (t' & b' & s' & p' & E2 & Hc & _). rewrite E2 in E. inversion E; subst. auto.
  Qed.

  Lemma attended_ok : forall x cs c, attended ord x cs -> supported x c -> snd (client_call ord attentive c x cs) = Ok tt.
  Proof.
    intros [[t b] s] cs c H X. apply attended_held in H.
    destruct (cheld_call ord HO attentive same (fun _ _ _ => True) (fun _ => I) (fun _ _ _ _ _ _ _ => I) attentive_step c t b s cs H X)
      as (t' & b' & s' & p' & E2 & _). rewrite E2. auto.
  Qed.

  Lemma attend_connect : forall x, viewing ord x -> snd (client_connect attentive x []) = Ok tt.
  Proof.
    intros x V. destruct (cheld_connect ord HO attentive same attentive_step x [] V eq_refl) as (t & b & s & p & E2 & _). rewrite E2. auto.
  Qed.

  Lemma attended_paths : forall t b s cs, attended ord (t, b, s) cs -> (forall q, In q cs <-> view_path s q) /\ look_up t cs = Ok tt.
  Proof.
    intros t b s cs H. apply attended_held in H. destruct H as (l & v & cs' & -> & Cu & _ & Hh & ->).
    destruct (current_heard _ _ _ Cu) as (c0 & Hc & K). rewrite (hear_all_det _ _ _ _ Hc Hh) in K.
    split; [exact K|]. apply look_up_live. apply (current_paths t b v); auto.
  Qed.
End Attend.

(** ** Sorting *)
Section Sorting.
  Variable ord : nat -> list id -> list id.
  Variable pf : platform.
  Hypothesis HO : forall k l, Permutation (ord k l) l.
  Hypothesis AL : faithful pf.
  Hypothesis NR : never_reuses pf.
  Variable func : option (nat -> nat -> bool -> Z).
  Variable order : bool.

  Lemma first_error_ok : forall A (l : list (res A)), (forall x, In x l -> exists a, x = Ok a) -> first_error l = Ok tt.
  Proof. intros A l. induction l as [|x l IH]; intros H; auto. destruct (H x) as (a & ->); [left; auto|]. simpl. apply IH. intros; apply H; right; auto. Qed.

  Lemma first_error_In : forall A (l : list (res A)) e, In (Err e) l -> first_error l <> Ok tt.
  Proof. intros A l e. induction l as [|x l IH]; intros H; [destruct H|]. destruct H as [->|H]; [discriminate|]. destruct x; simpl; auto; discriminate. Qed.

  Lemma compare_raises : forall f T g a b, func = Some f -> In a (rows g) -> In b (rows g) -> r_parent a = r_parent b -> r_addr a <> r_addr b ->
    r_id a <> "" -> r_id b <> "" -> has_node T (r_id a) = false -> compare_rows func order T g <> Ok tt.
  Proof.
    intros f T g a b Ef Ia Ib P A Ta Tb Da. apply (first_error_In _ _ ValueError). apply in_flat_map. exists a. split; auto. apply in_map_iff. exists b. split.
    - unfold sort_func. rewrite Ef. unfold truthy. rewrite (proj2 (eqb_neq (r_id a) "")), (proj2 (eqb_neq (r_id b) "")) by auto. cbn [negb andb].
      unfold has_node, dmem in Da. unfold get_data. destruct (dget (r_id a) (nodes T)); [discriminate|auto].
    - apply filter_In. split; auto. apply andb_true_iff. split.
      + unfold same_level, parent_is. rewrite P. destruct (r_parent b); auto. apply Nat.eqb_refl.
      + apply negb_true_iff. apply Nat.eqb_neq. auto.
  Qed.

  Lemma get_live : forall T n, has_node T n = true -> exists x, get_data T n = Ok x.
  Proof. intros T n H. unfold has_node, dmem in H. unfold get_data. destruct (dget n (nodes T)); [eauto|discriminate]. Qed.

  Lemma follows_live : forall T g cs r, follows pf g cs -> live_paths T cs = true -> In r (rows g) -> has_node T (r_id r) = true.
  Proof.
    intros T g cs r (L & HL & _) Lp I. pose proof (layout_shows L g cs (fun q => In q cs) HL (fun q => iff_refl _)) as (_ & S2 & S3 & _).
    destruct (S2 r I) as (l & P). pose proof (S3 r l P) as Hl. apply (proj1 (live_paths_iff T cs) Lp l); auto.
    inversion P; subst; [left; auto|apply in_or_app; right; left; auto].
  Qed.

  Lemma compare_live : forall T g, (forall r, In r (rows g) -> has_node T (r_id r) = true) -> compare_rows func order T g = Ok tt.
  Proof.
    intros T g H. apply first_error_ok. intros x Hx. apply in_flat_map in Hx. destruct Hx as (a & Ha & Hx). apply in_map_iff in Hx. destruct Hx as (b & <- & Hb).
    apply filter_In in Hb. destruct Hb as [Hb _]. unfold sort_func. destruct func as [f|]; [|eauto]. destruct (truthy (r_id a) && truthy (r_id b)); [|eauto].
    destruct (get_live T (r_id a) (H a Ha)) as (da & ->). destruct (get_live T (r_id b) (H b Hb)) as (db & ->). eauto.
  Qed.

  Lemma sort_step : forall T x g cs cs', follows pf g cs -> hear cs x cs' -> names_live (T, x) -> mindful T x cs' ->
    exists g', sort_signal func order pf T x g = (g', Ok tt) /\ follows pf g' cs' /\ True.
  Proof.
    intros T x g cs cs' Fo Hh Hn Hm. destruct (follows_signal pf T x g cs cs' AL NR Fo Hh Hn) as (g' & E & Fo'). exists g'. split; auto.
    unfold sort_signal. rewrite E. f_equal. destruct x; auto; apply compare_live; intros r Hr; apply (follows_live T g' cs'); auto.
  Qed.
  Lemma plain_step : forall T x g cs cs', follows pf g cs -> hear cs x cs' -> names_live (T, x) -> mindful T x cs' ->
    exists g', on_signal pf T x g = (g', Ok tt) /\ follows pf g' cs' /\ True.
  Proof. intros T x g cs cs' Fo Hh Hn _. destruct (follows_signal pf T x g cs cs' AL NR Fo Hh Hn) as (g' & E & Fo'). exists g'. auto. Qed.

  Lemma client_is_widget : forall c x g, client_call ord (on_signal pf) c x g = widget_call ord pf c x g.
  Proof.
    intros c [[t b] s] g. destruct c; cbn [client_call widget_call]; [rewrite client_widget; auto|..];
      destruct (view_call _ _ _) as [[[t1 b1] s1] [[]|e|]]; auto; rewrite tell_signals; auto.
  Qed.

  (** A store that sorts without exceptions does what the store does. *)
  Lemma sort_tell : forall T l g g', tell (sort_signal func order pf) T l g = (g', Ok tt) -> tell (on_signal pf) T l g = (g', Ok tt).
  Proof.
    intros T l. induction l as [|x l IH]; intros g g' H; auto. cbn [tell] in *. unfold sort_signal in H at 1.
    destruct (on_signal pf T x g) as [g1 [[]|e|]]; try discriminate. destruct (match x with SAdded _ _ | SModified _ _ => _ | _ => _ end) as [[]|e|]; try discriminate. auto.
  Qed.
  Lemma sort_feed : forall b es s g s' g', feed_client ord (sort_signal func order pf) b es s g = (s', g', Ok tt) ->
    feed_client ord (on_signal pf) b es s g = (s', g', Ok tt).
  Proof.
    intros b es. induction es as [|e es IH]; intros s g s' g' H; auto. cbn [feed_client] in *.
    destruct (external_modify ord b (ev_tree e) (ev_id e) s) as [s1 [u|x|]]; try discriminate.
    destruct (tell (sort_signal func order pf) (ev_tree e) (news s s1) g) as [g1 [[]|x|]] eqn:E; try discriminate. rewrite (sort_tell _ _ _ _ E). auto.
  Qed.
  Lemma sort_call : forall c x g x' g', client_call ord (sort_signal func order pf) c x g = (x', g', Ok tt) -> client_call ord (on_signal pf) c x g = (x', g', Ok tt).
  Proof.
    intros c [[t b] s] g x' g' H. destruct c; cbn [client_call] in *.
    { destruct (feed_client ord (sort_signal func order pf) b (events o t) s g) as [[s1 g1] r] eqn:E. inversion H; subst. rewrite (sort_feed _ _ _ _ _ _ E). auto. }
    all: destruct (view_call _ _ _) as [[[t1 b1] s1] [u|e|]]; try discriminate; auto.
    all: match type of H with context [tell ?f ?T ?l ?g] => destruct (tell f T l g) as [g1 r1] eqn:E end; inversion H; subst; rewrite (sort_tell _ _ _ _ E); auto.
  Qed.

  Lemma watching_cheld : forall x g, watching ord pf x g -> let '(t, b, s) := x in cheld (follows pf) t b s g.
  Proof.
    intros x g H. induction H as [x x' g' r V E|[[t b] s] g c x' g' r H IH X E|[[t b] s] g rs H IH P].
    - rewrite <- build_connect in E. destruct (cheld_connect ord HO (on_signal pf) (follows pf) plain_step x new_gtk V (follows_new pf)) as (t & b & s & p & E2 & Hc & _).
      rewrite E2 in E. inversion E; subst. auto.
    - destruct (cheld_call ord HO (on_signal pf) (follows pf) (fun _ _ _ => True) (fun _ => I) (fun _ _ _ _ _ _ _ => I) plain_step c t b s g IH X)
        as (t' & b' & s' & p' & E2 & Hc & _). rewrite client_is_widget, E in E2. inversion E2; subst. auto.
    - destruct IH as (l & v & cs & E & C & Rd & Hh & Fo). exists l, v, cs. split; auto. split; auto. split; auto. split; auto. eapply follows_sort; eauto.
  Qed.

  (** *** Theorems *)
  Lemma watching_sorts : forall x g c, watching ord pf x g -> supported x c ->
    client_call ord (sort_signal func order pf) c x g = widget_call ord pf c x g.
  Proof.
    intros [[t b] s] g c H X. apply watching_cheld in H.
    destruct (cheld_call ord HO (sort_signal func order pf) (follows pf) (fun _ _ _ => True) (fun _ => I) (fun _ _ _ _ _ _ _ => I) sort_step c t b s g H X)
      as (t' & b' & s' & p' & E2 & _). rewrite E2, <- client_is_widget. symmetry. apply sort_call. auto.
  Qed.

  Lemma connect_sorts : forall x, viewing ord x -> client_connect (sort_signal func order pf) x new_gtk = connect pf x.
  Proof.
    intros x V. destruct (cheld_connect ord HO (sort_signal func order pf) (follows pf) sort_step x new_gtk V (follows_new pf)) as (t & b & s & p & E2 & _).
    rewrite <- build_connect. rewrite E2. destruct x as [[t0 b0] s0]. unfold client_connect in *. destruct (get_current_state s0) as [s1 [u|e|]]; try discriminate.
    destruct (tell (sort_signal func order pf) t0 (news s0 s1) new_gtk) as [g1 r1] eqn:E. inversion E2; subst. rewrite (sort_tell _ _ _ _ E). auto.
  Qed.

  Lemma watching_data : forall t b s g r, watching ord pf (t, b, s) g -> In r (rows g) -> exists d, data_at t (r_id r) = Some d /\ get_data t (r_id r) = Ok d.
  Proof.
    intros t b s g r H I. apply watching_cheld in H. destruct H as (l & v & cs & -> & Cu & _ & Hh & Fo).
    destruct (current_heard _ _ _ Cu) as (c0 & Hc & K). rewrite (hear_all_det _ _ _ _ Hc Hh) in K.
    destruct (get_live t (r_id r)) as (d & Ed).
    { apply (follows_live t g cs); auto. apply (current_paths t b v); auto. }
    exists d. split; auto. unfold get_data, data_at in *. destruct (dget (r_id r) (nodes t)); [|discriminate]. inversion Ed; auto.
  Qed.

  Lemma watching_separates : forall sep t b s g r, watching ord pf (t, b, s) g -> In r (rows g) ->
    exists d, data_at t (r_id r) = Some d /\ separator_func sep t r = Ok (match sep with Some f => f d | None => false end).
  Proof.
    intros sep t b s g r H I. destruct (watching_data t b s g r H I) as (d & D1 & Ed). exists d. split; auto. unfold separator_func. rewrite Ed. auto.
  Qed.

  Lemma watching_compares : forall t b s g r r', watching ord pf (t, b, s) g -> In r (rows g) -> In r' (rows g) -> r_id r <> "" -> r_id r' <> "" ->
    exists d d', data_at t (r_id r) = Some d /\ data_at t (r_id r') = Some d' /\
      sort_func func order t r r' = Ok (match func with Some f => f d d' order | None => (-1)%Z end).
  Proof.
    intros t b s g r r' H I I' N N'. destruct (watching_data t b s g r H I) as (d & D1 & Ed). destruct (watching_data t b s g r' H I') as (d' & D1' & Ed').
    exists d, d'. split; auto. split; auto. unfold sort_func. destruct func as [f|]; auto. unfold truthy.
    destruct (r_id r); [congruence|]. destruct (r_id r'); [congruence|]. cbn [andb negb String.eqb]. rewrite Ed, Ed'. auto.
  Qed.
End Sorting.
