(** A client that follows the signals of a view. *)
From Coq Require Import Permutation.
From Verif Require Import Base BaseFacts MainTree Spec MainFacts MainReg MainTight Filters FTree SpecApi
  SpecView SpecViewing FtBase FtWalk FtEdge FtUp FtFront FtDown FtSync FtTree FtMind FtOps FtSent FtKeep FtState FtView FtThm FtSignals FtHist FtQuiet FtRead
  Gtk SpecGtk GtkFacts GtkView Widget.
Open Scope f_scope.

Lemma news_app : forall a b c, longer a b -> longer b c -> news a c = news a b ++ news b c.
Proof.
  intros a b c (l & E) (l' & E'). unfold news. rewrite E', E, <- app_assoc.
  assert (K : forall (x y : list sig), skipn (length x) (x ++ y) = y) by (intros x y; rewrite skipn_app, skipn_all, Nat.sub_diag; auto).
  rewrite (K (sent a) (l ++ l')), (K (sent a) l), app_assoc, (K (sent a ++ l) l'). auto.
Qed.

Lemma ready_pre : forall l v, ready (pre l v) <-> ready v.
Proof. intros l v. unfold ready. split; intros [H1 H2]; split; auto. Qed.

(** While a node is announced, the paths known consist of nodes of the tree. *)
Definition mindful (T : mtree) (x : sig) (cs : list (list id)) : Prop :=
  match x with SAdded _ _ | SModified _ _ => live_paths T cs = true | _ => True end.

Lemma current_paths : forall t b v cs, current t b v -> (forall q, In q cs <-> view_path v q) -> live_paths t cs = true.
Proof.
  intros t b v cs C H. apply live_paths_iff. intros q x Hq Hx. apply H in Hq. destruct Hq as [_ Hq].
  destruct (c_sync _ _ _ C) as (r & _ & [I _]). pose proof (in_base _ _ _ _ _ _ _ I) as B.
  assert (K : forall l p, downward (kids v) p l -> In x l -> is_displayed v x = true /\ r p < r x).
  { induction l as [|y l IH]; intros p Hd Hi; [destruct Hi|]. destruct Hd as [H1 H2]. destruct (base_kid _ _ _ _ _ _ _ B H1) as [Dy Ry].
    destruct Hi as [->|Hi]; auto. destruct (IH y H2 Hi). split; auto. lia. }
  destruct (K q _ Hq Hx) as [K1 K2]. destruct (in_stale _ _ _ _ _ _ _ I x K1) as [->|Dx]; [lia|]. eapply D_alive; eauto.
Qed.

(** No node has two parents while the call runs. *)
Definition lone_call (c : vcall) (t : mtree) : Prop :=
  lone_tree t /\ match c with VTree o => Forall (fun e => lone_tree (ev_tree e)) (events o t) | _ => True end.

Section ClientOne.
  Context {C : Type}.
  Variable ord : nat -> list id -> list id.
  Hypothesis HO : forall k l, Permutation (ord k l) l.
  Variable react : mtree -> sig -> C -> C * res unit.
  (** [F p cs]: the client has the paths [cs]. [Rel p p' l]: how signals change it. *)
  Variable F : C -> list (list id) -> Prop.
  Variable Rel : C -> C -> list sig -> Prop.
  (** If [O] holds, no node is announced twice. *)
  Variable O : Prop.
  Hypothesis rel_nil : forall p, Rel p p [].
  Hypothesis rel_app : forall p q r l l', Rel p q l -> Rel q r l' -> Rel p r (l ++ l').
  Hypothesis step : forall T x p cs cs', F p cs -> hear cs x cs' -> names_live (T, x) -> mindful T x cs' -> (O -> newb cs x = true) ->
    exists p', react T x p = (p', Ok tt) /\ F p' cs' /\ Rel p p' [x].

  Lemma tell_one : forall T l p cs cs', F p cs -> hear_all cs l cs' -> (forall x, In x l -> names_live (T, x)) -> mindsb T cs l = true -> (O -> freshb cs l = true) ->
    exists p', tell react T l p = (p', Ok tt) /\ F p' cs' /\ Rel p p' l.
  Proof.
    intros T l. induction l as [|x l IH]; intros p cs cs' Fp H Hn Hm Ho.
    - apply hear_all_nil in H. subst. exists p. auto.
    - apply hear_first in H. destruct H as (cs1 & H1 & H2).
      cbn [mindsb] in Hm. rewrite <- (hear_learn _ _ _ H1) in Hm. apply andb_prop in Hm. destruct Hm as [M1 M2].
      cbn [freshb] in Ho. rewrite <- (hear_learn _ _ _ H1) in Ho.
      destruct (step T x p cs cs1 Fp H1) as (p1 & E1 & F1 & R1); [apply Hn; left; auto|destruct x; simpl; auto|intros X; apply Ho, andb_prop in X; tauto|].
      cbn [tell]. rewrite E1. destruct (IH p1 cs1 cs' F1 H2) as (p2 & E2 & F2 & R2); [intros; apply Hn; right; auto|auto|intros X; apply Ho, andb_prop in X; tauto|].
      exists p2. split; auto. split; auto. apply (rel_app p p1 p2 [x] l); auto.
  Qed.

  (** *** Blindness *)
  Lemma pre_feed_client : forall b es l s p, feed_client ord react b es (pre l s) p =
    let '(s1, p1, r) := feed_client ord react b es s p in (pre l s1, p1, r).
  Proof.
    intros b es l. induction es as [|e es IH]; intros s g; cbn [feed_client]; auto.
    rewrite (blind_external ord b (ev_tree e) (ev_id e) l s). destruct (external_modify ord b (ev_tree e) (ev_id e) s) as [s1 [[]|x|]]; cbn [fst snd]; auto.
    rewrite news_pre. destruct (tell react (ev_tree e) (news s s1) g) as [g1 [[]|x|]]; auto.
  Qed.

  Lemma pre_client : forall c t b l s p, client_call ord react c (t, b, pre l s) p =
    let '(t1, b1, s1, p1, r) := client_call ord react c (t, b, s) p in (t1, b1, pre l s1, p1, r).
  Proof.
    intros c t b l s g. destruct c as [o|n p rs|n| | |n a|c]; cbn [client_call].
    { rewrite pre_feed_client. destruct (feed_client ord react b (events o t) s g) as [[s1 g1] r]. auto. }
    all: rewrite pre_call; destruct (view_call _ _ _) as [[[t1 b1] s1] [[]|e|]]; auto; cbn [snd]; rewrite news_pre;
      destruct (tell _ _ _ _) as [g1 [[]|e|]]; auto.
  Qed.

  Lemma feed_one : forall b es s s' p cs cs', feed_checked ord b es s = (s', Ok tt) ->
    hear_all [] (sent s) cs -> hear_all [] (sent s') cs' -> F p cs ->
    (O -> Forall (fun e => lone_tree (ev_tree e)) es /\ lone_ch (kids s)) ->
    longer s s' /\ exists p', feed_client ord react b es s p = (s', p', Ok tt) /\ F p' cs' /\ Rel p p' (news s s').
  Proof.
    intros b es. induction es as [|e es IH]; intros s s' g cs cs' E H H' Fg Ho.
    - unfold feed_checked in E. simpl in E. inversion E; subst. rewrite (hear_all_det _ _ _ _ H' H). split; [exists []; rewrite app_nil_r; auto|].
      exists g. split; [reflexivity|]. split; auto. rewrite news_same by auto. auto.
    - unfold feed_checked in E. cbn [ffor] in E. unfold fbind in E. unfold ext_checked at 1 in E. cbn [feed_client].
      pose proof (blind_extends _ _ s (blind_external ord b (ev_tree e) (ev_id e))) as X1.
      destruct (external_modify ord b (ev_tree e) (ev_id e) s) as [s1 r1]. cbn [fst] in X1.
      destruct (forallb (liveb (ev_tree e)) (news s s1)) eqn:Lv; [|discriminate].
      match type of E with context [forallb ?g (news s s1)] => destruct (forallb g (news s s1)); [|discriminate] end.
      destruct (mindsb (ev_tree e) (heard (sent s)) (news s s1)) eqn:Mi; [|discriminate]. destruct (oneb (ev_tree e) s s1) eqn:On; [|discriminate].
      unfold heard in Mi. rewrite <- (hear_all_learn _ _ _ H) in Mi. destruct r1 as [[]|x|]; try discriminate.
      change (feed_checked ord b es s1 = (s', Ok tt)) in E.
      assert (X2 : exists l, sent s' = sent s1 ++ l).
      { assert (W : fwp (feed_checked ord b es) (fun _ z => z = s') s1) by (unfold fwp; rewrite E; auto).
        apply feed_of_checked in W. pose proof (longer_feed ord b es s1) as X. unfold fwp in W. destruct (feed ord b es s1) as [z [[]|y|]]; try contradiction.
        subst z. exact X. }
      pose proof X2 as (l2 & X3). pose proof H' as H2. rewrite X3 in H2. apply hear_split in H2. destruct H2 as (c1 & H2 & _).
      pose proof H2 as H3. rewrite (news_extends s s1 X1) in H3. apply hear_split in H3. destruct H3 as (c0 & H3 & H4).
      rewrite (hear_all_det _ _ _ _ H3 H) in H4.
      assert (One : O -> freshb cs (news s s1) = true /\ lone_ch (kids s1)).
      { intros X. destruct (Ho X) as [Y1 Y2]. inversion Y1; subst. unfold oneb in On. rewrite (proj2 (loneb_iff _)), (proj2 (lonev_iff _)) in On by auto.
        cbn [andb] in On. apply andb_prop in On. destruct On as [O1 O2]. unfold heard in O1. rewrite <- (hear_all_learn _ _ _ H) in O1. split; auto. apply lonev_iff. auto. }
      destruct (tell_one (ev_tree e) (news s s1) g cs c1 Fg H4) as (g1 & E1 & F1 & R1); [apply live_names; auto|auto|intros X; apply One; auto|].
      rewrite E1. destruct (IH s1 s' g1 c1 cs' E H2 H' F1) as (X4 & g2 & E2 & F2 & R2).
      { intros X. split; [|apply One; auto]. destruct (Ho X) as [Y1 _]. inversion Y1; auto. }
      split.
      + destruct X1 as (a1 & X1). destruct X4 as (a2 & X4). exists (a1 ++ a2). rewrite X4, X1, app_assoc. auto.
      + exists g2. split; auto. split; auto. rewrite (news_app s s1 s') by auto. eapply rel_app; eauto.
  Qed.

  Definition cheld (t : mtree) (b : bank) (s : ft) (p : C) : Prop :=
    exists l v cs, s = pre l v /\ current t b v /\ ready v /\ hear_all [] (sent v) cs /\ F p cs.

  Lemma call_one : forall c t b s p, cheld t b s p -> supported (t, b, s) c -> (O -> lone_call c t) ->
    exists t' b' s' p', client_call ord react c (t, b, s) p = (t', b', s', p', Ok tt) /\ cheld t' b' s' p' /\
      view_call ord c (t, b, s) = (t', b', s', Ok tt) /\ Rel p p' (news s s') /\
      ((forall n a, c <> VQueue n a) -> exists l, sent s' = sent s ++ l /\ forall n, fate n (waiting s n) (waiting s' n) l).
  Proof.
    intros c t b s g (l & v & cs & -> & C0 & Rd & Hh & Fg) X Ho. change (supported (t, b, v) c) in X.
    destruct (current_call ord HO c t b v C0 X) as (v' & E & C' & _).
    destruct (current_heard _ _ _ C') as (cs' & Hh' & _).
    assert (Lc : live_paths t cs = true).
    { destruct (current_heard _ _ _ C0) as (c0 & Hc & K). rewrite (hear_all_det _ _ _ _ Hc Hh) in K. apply (current_paths t b v); auto. }
    assert (Rd' : ready v').
    { pose proof (viewing_step_idle ord HO c t b v C0 X) as Y. rewrite E in Y. apply Y; auto.
      destruct (current_base _ _ _ C0) as (r & B). destruct (gb_knows _ _ _ _ _ (b_g _ _ _ _ _ B)) as (cs0 & (K & _) & K1). exists cs0. auto. }
    assert (Go : exists g', client_call ord react c (t, b, v) g = (new_tree c t, new_bank c b, v', g', Ok tt) /\ F g' cs' /\ Rel g g' (news v v')).
    { destruct c as [o|n p rs|n| | |n a|c].
      { cbn [client_call]. destruct X as [Cm X].
        destruct (sync_call_checked ord b (filters v) (froot v) (any_flat b (filters v)) HO (c_local _ _ _ C0) o t v (c_reg _ _ _ C0) (c_apt _ _ _ C0)) as [_ W].
        { split; auto. }
        { apply (c_sync _ _ _ C0). }
        apply fwp_run in W. destruct W as (v2 & [] & E2 & _).
        assert (v2 = v').
        { assert (W : fwp (feed_checked ord b (events o t)) (fun _ z => z = v2) v) by (unfold fwp, events; rewrite E2; auto).
          apply feed_of_checked in W. cbn [view_call] in E. unfold fwp in W. destruct (feed ord b (events o t) v) as [z q]. inversion E; subst. auto. }
        subst v2. destruct (feed_one b (events o t) v v' g cs cs' E2 Hh Hh' Fg) as (_ & g' & E3 & F' & R').
        { intros Y. destruct (Ho Y) as [Y1 Y2]. split; auto. apply (current_lone t b v); auto. }
        rewrite E3. exists g'. auto. }
      all: cbn [client_call]; rewrite E; cbn [snd].
      all: match type of E with view_call ord ?c _ = _ => pose proof (live_call ord HO c t b v C0 ltac:(discriminate)) as Lv; pose proof (longer_call ord c t b v) as Lg end.
      all: rewrite E in Lv, Lg; cbn [fst snd] in Lv, Lg.
      all: rewrite (news_extends v v' Lg) in Hh'; apply hear_split in Hh'; destruct Hh' as (c0 & Hh1 & Hh2); rewrite (hear_all_det _ _ _ _ Hh1 Hh) in Hh2.
      all: match type of E with view_call ord ?c _ = _ => pose proof (fresh_call ord HO c t b v C0 ltac:(discriminate)) as Fr end.
      all: rewrite E in Fr; cbn [fst snd] in Fr; unfold heard in Fr; rewrite <- (hear_all_learn _ _ _ Hh) in Fr.
      all: destruct (tell_one t (news v v') g cs cs' Fg Hh2 (live_names _ _ Lv) (minds_live _ _ _ _ Hh2 Lv Lc) (fun Y => Fr (proj1 (Ho Y)))) as (g' & E3 & F' & R'); rewrite E3; exists g'; auto. }
    destruct Go as (g' & E2 & F' & R'). exists (new_tree c t), (new_bank c b), (pre l v'), g'. split; [|split; [|split; [|split]]].
    - rewrite pre_client, E2. auto.
    - exists l, v', cs'. auto.
    - rewrite pre_call, E. auto.
    - rewrite news_pre. auto.
    - intros Nq. pose proof (obeys_call ord c t b v Nq) as Ob. rewrite E in Ob. cbn [fst] in Ob. destruct (Ob (proj1 Rd)) as (_ & l0 & E0 & F0).
      exists l0. split; [|exact F0]. cbn [sent pre]. rewrite E0, app_assoc. auto.
  Qed.
End ClientOne.

(** Any trees. *)
Section Client.
  Context {C : Type}.
  Variable ord : nat -> list id -> list id.
  Hypothesis HO : forall k l, Permutation (ord k l) l.
  Variable react : mtree -> sig -> C -> C * res unit.
  Variable F : C -> list (list id) -> Prop.
  Variable Rel : C -> C -> list sig -> Prop.
  Hypothesis rel_nil : forall p, Rel p p [].
  Hypothesis rel_app : forall p q r l l', Rel p q l -> Rel q r l' -> Rel p r (l ++ l').
  Hypothesis step : forall T x p cs cs', F p cs -> hear cs x cs' -> names_live (T, x) -> mindful T x cs' ->
    exists p', react T x p = (p', Ok tt) /\ F p' cs' /\ Rel p p' [x].

  Let step' : forall T x p cs cs', F p cs -> hear cs x cs' -> names_live (T, x) -> mindful T x cs' -> (False -> newb cs x = true) ->
    exists p', react T x p = (p', Ok tt) /\ F p' cs' /\ Rel p p' [x] := fun T x p cs cs' a b c d _ => step T x p cs cs' a b c d.

  Lemma tell_ok : forall T l p cs cs', F p cs -> hear_all cs l cs' -> (forall x, In x l -> names_live (T, x)) -> mindsb T cs l = true ->
    exists p', tell react T l p = (p', Ok tt) /\ F p' cs' /\ Rel p p' l.
  Proof. intros. apply (tell_one react F Rel False rel_nil rel_app step' T l p cs cs'); auto; tauto. Qed.

  Lemma client_feed : forall b es s s' p cs cs', feed_checked ord b es s = (s', Ok tt) ->
    hear_all [] (sent s) cs -> hear_all [] (sent s') cs' -> F p cs ->
    longer s s' /\ exists p', feed_client ord react b es s p = (s', p', Ok tt) /\ F p' cs' /\ Rel p p' (news s s').
  Proof. intros. eapply (feed_one ord react F Rel False rel_nil rel_app step'); eauto; tauto. Qed.

  Lemma cheld_call : forall c t b s p, cheld F t b s p -> supported (t, b, s) c ->
    exists t' b' s' p', client_call ord react c (t, b, s) p = (t', b', s', p', Ok tt) /\ cheld F t' b' s' p' /\
      view_call ord c (t, b, s) = (t', b', s', Ok tt) /\ Rel p p' (news s s') /\
      ((forall n a, c <> VQueue n a) -> exists l, sent s' = sent s ++ l /\ forall n, fate n (waiting s n) (waiting s' n) l).
  Proof. intros. apply (call_one ord HO react F Rel False rel_nil rel_app step' c t b s p); auto; tauto. Qed.
End Client.
