(** Sorting with any allocator: the rows are rows of known nodes. *)
From Coq Require Import Permutation ZArith.
From Verif Require Import Base BaseFacts MainTree Spec SpecFrame MainFacts MainReg MainTight MainPaths Filters FTree SpecApi
  SpecView SpecViewing FtBase FtWalk FtEdge FtUp FtFront FtDown FtSync FtTree FtMind FtOps FtSent FtKeep FtState FtView FtThm FtSignals FtHist FtQuiet FtRead
  Gtk SpecGtk GtkFacts GtkView GtkRemove Widget ClientFacts StayRows WidgetUse Sort SpecSort SortFacts SpecHealthy.
Open Scope f_scope.

Notation count := (count_occ string_dec).
Definition lasts (cs : list (list id)) : list id := map (fun q => last q "") cs.

(** No node has more rows than known paths. *)
Record stocked (g : gtk) (cs : list (list id)) : Prop := {
  st_addr : NoDup (map r_addr (rows g));
  st_nd : NoDup cs;
  st_ne : forall q, In q cs -> q <> [];
  st_count : forall x, count (map r_id (rows g)) x <= count (lasts cs) x
}.

Lemma get_iter_id : forall rp g g1 a, my_get_iter_rev rp g = (g1, Some a) ->
  exists r n t, rp = n :: t /\ In r (rows g) /\ r_addr r = a /\ r_id r = n.
Proof.
  intros rp g g1 a H. destruct rp as [|n rp]; [discriminate|].
  pose proof (get_iter_rows rp g) as R. cbn [my_get_iter_rev] in H.
  set (c := match pget (rev (n :: rp)) (cache_paths g) with Some (Some a) => _ | _ => None end) in H.
  assert (Ec : forall a, c = Some a -> exists r, In r (rows g) /\ r_addr r = a /\ r_id r = n).
  { intros a0 E. unfold c in E. destruct (pget (rev (n :: rp)) (cache_paths g)) as [[a1|]|]; try discriminate.
    unfold row_at in E. destruct (find _ (rows g)) as [r|] eqn:Fi; [|discriminate]. apply find_some in Fi. destruct Fi as [I Ea]. apply Nat.eqb_eq in Ea.
    destruct (String.eqb n (r_id r)) eqn:En; [|discriminate]. apply eqb_eq in En. inversion E; subst. exists r. auto. }
  destruct c as [a0|] eqn:Cc.
  - inversion H; subst. destruct (Ec a eq_refl) as (r & A & B & D). exists r, n, rp. auto.
  - destruct (my_get_iter_rev rp g) as [g2 root]. destruct R as [R _].
    assert (G : forall r, In r (store_children root g2) -> In r (rows g)) by (intros r I; apply filter_In in I; rewrite <- R; apply I).
    match type of H with (_, ?it) = _ => assert (E : it = Some a) by congruence end. clear H.
    match type of E with match ?p with Some _ => _ | None => _ end = _ => destruct p as [b|] eqn:P end.
    + inversion E; subst. destruct (pget _ (cache_position g2)) as [[|k]|]; try discriminate.
      destruct (nth_error (store_children root g2) (S k)) as [r|] eqn:Nt; [|discriminate]. destruct (String.eqb (r_id r) n) eqn:En; [|discriminate].
      apply eqb_eq in En. inversion P. exists r, n, rp. split; auto. split; auto. apply G. eapply nth_error_In; eauto.
    + destruct (find _ (store_children root g2)) as [r|] eqn:Fi; [|discriminate]. apply find_some in Fi. destruct Fi as [I En]. apply eqb_eq in En.
      inversion E; subst. exists r, (r_id r), rp. auto.
Qed.
Lemma get_iter_last : forall q n g g1 a, my_get_iter (q ++ [n]) g = (g1, Some a) -> exists r, In r (rows g) /\ r_addr r = a /\ r_id r = n.
Proof.
  intros q n g g1 a H. unfold my_get_iter in H. rewrite rev_app_distr in H. cbn [rev app] in H. apply get_iter_id in H.
  destruct H as (r & m & t & E & A & B & C). inversion E; subst. exists r. auto.
Qed.

Lemma count_perm : forall l l' x, Permutation l l' -> count l x = count l' x.
Proof. intros l l' x H. apply (Permutation_count_occ string_dec). auto. Qed.
Lemma stocked_sort : forall g g' cs, stocked g cs -> Permutation (rows g') (rows g) -> stocked g' cs.
Proof.
  intros g g' cs [A B Z C] P. constructor; auto.
  - eapply Permutation_NoDup; [apply Permutation_sym; apply Permutation_map; exact P|]. auto.
  - intros x. rewrite (count_perm _ (map r_id (rows g))); auto. apply Permutation_map. auto.
Qed.
Lemma lasts_one : forall q n, lasts [q ++ [n]] = [n].
Proof. intros. unfold lasts. simpl. rewrite last_last. auto. Qed.

Lemma count_filter_le : forall (f : row -> bool) l x, count (map r_id (filter f l)) x <= count (map r_id l) x.
Proof. intros f l x. induction l as [|r l IH]; simpl; auto. destruct (f r); simpl; destruct (string_dec (r_id r) x); lia. Qed.
Lemma count_filter_out : forall (f : row -> bool) l r, In r l -> f r = false -> S (count (map r_id (filter f l)) (r_id r)) <= count (map r_id l) (r_id r).
Proof.
  intros f l r. induction l as [|z l IH]; intros I E; [destruct I|]. pose proof (count_filter_le f l (r_id r)) as L. destruct I as [->|I].
  - simpl. rewrite E. destruct (string_dec (r_id r) (r_id r)); [lia|congruence].
  - specialize (IH I E). simpl. destruct (f z); simpl; destruct (string_dec (r_id z) (r_id r)); lia.
Qed.
Lemma count_path_out : forall cs q x, NoDup cs -> In q cs ->
  count (lasts cs) x = count (lasts (filter (fun p => negb (path_eqb p q)) cs)) x + (if string_dec (last q "") x then 1 else 0).
Proof.
  intros cs q x. induction cs as [|z cs IH]; intros ND I; [destruct I|]. inversion ND as [|? ? N1 N2]; subst. destruct I as [->|I].
  - cbn [filter]. rewrite path_eqb_refl'. cbn [negb].
    assert (E : filter (fun p => negb (path_eqb p q)) cs = cs).
    { clear - N1. induction cs as [|y cs IH]; auto. simpl. rewrite (path_eqb_neq y q) by (intros ->; apply N1; left; auto). cbn [negb]. f_equal. apply IH.
      intros J. apply N1. right. auto. }
    rewrite E. unfold lasts. cbn [map]. destruct (string_dec (last q "") x); [rewrite count_occ_cons_eq|rewrite count_occ_cons_neq]; auto; lia.
  - specialize (IH N2 I). cbn [filter]. rewrite (path_eqb_neq z q) by (intros ->; contradiction). cbn [negb].
    unfold lasts in *. cbn [map]. destruct (string_dec (last z "") x); [rewrite !count_occ_cons_eq|rewrite !count_occ_cons_neq]; auto; lia.
Qed.

Lemma drop_rows_self : forall a l r, r_addr r = a -> negb (is_under (length l) l a r) = false.
Proof. intros a l r E. destruct (length l); cbn [is_under]; rewrite (proj2 (Nat.eqb_eq (r_addr r) a)) by auto; auto. Qed.

Section Any.
  Variable ord : nat -> list id -> list id.
  Variable pf : platform.
  Hypothesis HO : forall k l, Permutation (ord k l) l.
  Hypothesis AL : faithful pf.
  Variable func : option (nat -> nat -> bool -> Z).
  Variable order : bool.

  Lemma stocked_signal : forall T x g cs cs' g', stocked g cs -> hear cs x cs' -> on_signal pf T x g = (g', Ok tt) -> stocked g' cs'.
  Proof.
    intros T x g cs cs' g' [A B Z K] Hh E. inversion Hh as [c q n N P|c q n I P|c q n I|c n z]; subst; cbn [on_signal] in E.
    - unfold add_task in E. destruct (dget n (nodes T)) as [nd|]; [|discriminate]. destruct (my_get_iter _ g) as [g1 it] eqn:G.
      apply get_iter_rows' in G. destruct G as [G _]. inversion E; subst; clear E. apply stocked_sort with
        (g := store_insert (address pf (clock g1) (map r_addr (rows g1))) it n (column pf (data nd)) g1); [|cbn [store_sort rows]; apply (proj2 AL)].
      constructor; cbn [store_insert rows].
      + rewrite map_app. cbn [map r_addr]. rewrite G.
        apply Permutation_NoDup with (l := address pf (clock g1) (map r_addr (rows g)) :: map r_addr (rows g)); [apply Permutation_cons_append|].
        constructor; auto. apply (proj1 AL).
      + apply Permutation_NoDup with (l := (q ++ [n]) :: cs); [apply Permutation_cons_append|]. constructor; auto.
      + intros z Iz. apply in_app_or in Iz. destruct Iz as [Iz|[<-|[]]]; auto. destruct q; discriminate.
      + intros x. unfold lasts in *. rewrite !map_app, !count_occ_app. cbn [map r_id]. rewrite last_last, G. specialize (K x). change id with string in *. lia.
    - unfold remove_task in E. destruct (my_get_iter (q ++ [n]) g) as [g1 [a|]] eqn:G; [|discriminate].
      pose proof (get_iter_rows' _ _ _ _ G) as [R _]. destruct (row_at a g1) as [r|] eqn:Ra; [|discriminate].
      destruct (String.eqb (r_id r) n) eqn:En; [|discriminate]. apply eqb_eq in En. unfold row_at in Ra. apply find_some in Ra. destruct Ra as [Ir Ea]. apply Nat.eqb_eq in Ea.
      match type of E with context [pget ?p ?d] => destruct (pget p d); [|discriminate] end.
      inversion E; subst; clear E. constructor; cbn [store_remove rows].
      + unfold drop_rows. rewrite R. clear - A. induction (rows g) as [|z l IH] in A |- *.
        * constructor.
        * match goal with |- context [filter ?f (z :: l)] => set (h := f) end. clearbody h. clear IH. revert A. generalize (z :: l). intros l0.
          induction l0 as [|y l0 IH]; simpl; intros A; [constructor|]. inversion A as [|? ? N1 N2]; subst. destruct (h y); auto. simpl. constructor; auto.
          intros J. apply N1. apply in_map_iff in J. destruct J as (w & E & J). apply filter_In in J. apply in_map_iff. exists w. tauto.
      + apply NoDup_filter. auto.
      + intros z Iz. apply filter_In in Iz. apply Z. apply Iz.
      + intros x. pose proof (count_path_out cs (q ++ [r_id r]) x B I) as C. rewrite last_last in C. unfold drop_rows. specialize (K x). rewrite <- R in K.
        destruct (string_dec (r_id r) x) as [<-|Nx].
        * pose proof (count_filter_out (fun z => negb (is_under (length (rows g1)) (rows g1) (r_addr r) z)) (rows g1) r Ir (drop_rows_self _ _ _ eq_refl)). lia.
        * pose proof (count_filter_le (fun z => negb (is_under (length (rows g1)) (rows g1) (r_addr r) z)) (rows g1) x). lia.
    - unfold update_task in E. destruct (dget n (nodes T)) as [nd|]; [|discriminate]. destruct (my_get_iter (q ++ [n]) g) as [g1 [a|]] eqn:G.
      + pose proof (get_iter_rows' _ _ _ _ G) as [R _]. destruct (get_iter_last _ _ _ _ _ G) as (r & Ir & Ea & En). inversion E; subst; clear E.
        apply stocked_sort with (g := set_row (r_addr r) (r_id r) (column pf (data nd)) g1); [|cbn [store_sort rows]; apply (proj2 AL)].
        rewrite <- R in A, Ir. assert (K' : forall x, count (map r_id (rows g1)) x <= count (lasts cs') x) by (rewrite R; auto).
        constructor; auto; cbn [set_row rows]; rewrite map_map.
        * erewrite map_ext_in; [exact A|]. intros z _. destruct (Nat.eqb (r_addr z) (r_addr r)) eqn:E; auto. apply Nat.eqb_eq in E. auto.
        * erewrite map_ext_in; [exact K'|]. intros z Iz. simpl. destruct (Nat.eqb (r_addr z) (r_addr r)) eqn:E; auto. apply Nat.eqb_eq in E.
          rewrite (NoDup_map_inj _ _ r_addr (rows g1) z r A Iz Ir E). auto.
      + apply get_iter_rows' in G. destruct G as [R _]. inversion E; subst. constructor; auto; rewrite R; auto.
    - inversion E; subst. constructor; auto.
  Qed.

  Lemma stocked_live : forall T g cs r, stocked g cs -> live_paths T cs = true -> In r (rows g) -> has_node T (r_id r) = true.
  Proof.
    intros T g cs r [_ _ Ne K] Lp I. assert (C : count (lasts cs) (r_id r) > 0).
    { specialize (K (r_id r)). assert (count (map r_id (rows g)) (r_id r) > 0) by (apply count_occ_In; apply in_map; auto). lia. }
    apply count_occ_In in C. apply in_map_iff in C. destruct C as (q & E & Iq). rewrite <- E. apply (proj1 (live_paths_iff T cs) Lp q); auto.
    destruct (exists_last (Ne q Iq)) as (q' & y & ->). rewrite last_last. apply in_or_app. right. left. auto.
  Qed.

  (** *** Two stores side by side *)
  (** One store sorts and one does not. The number tells whether both go on (0), both
      stopped in the same way (1) or only the one that sorts stopped (2). *)
  Definition both (T : mtree) (x : sig) (p : gtk * nat) : (gtk * nat) * res unit :=
    match snd p with
    | 0 => match on_signal pf T x (fst p) with
           | (g1, Ok _) => (g1, match snd (sort_signal func order pf T x (fst p)) with Ok _ => 0 | _ => 2 end, Ok tt)
           | (g1, _) => (g1, 1, Ok tt)
           end
    | _ => (p, Ok tt)
    end.
  Definition alike (p : gtk * nat) (cs : list (list id)) : Prop := snd p = 1 \/ (snd p = 0 /\ stocked (fst p) cs).

  Lemma both_step : forall T x p cs cs', alike p cs -> hear cs x cs' -> names_live (T, x) -> mindful T x cs' ->
    exists p', both T x p = (p', Ok tt) /\ alike p' cs' /\ True.
  Proof.
    intros T x [g k] cs cs' Al Hh Hn Hm. unfold both, alike in *. cbn [fst snd] in *. destruct Al as [->|[-> St]]; [exists (g, 1); auto|].
    destruct (on_signal pf T x g) as [g1 r] eqn:E.
    assert (Z : r = Ok tt -> snd (sort_signal func order pf T x g) = Ok tt /\ stocked g1 cs').
    { intros ->. pose proof (stocked_signal T x g cs cs' g1 St Hh E) as S1. split; auto. unfold sort_signal. rewrite E. cbn [snd].
      destruct x; auto; apply compare_live; intros z Hz; apply (stocked_live T g1 cs'); auto. }
    destruct r as [[]|e|]; [|exists (g1, 1); auto..]. destruct (Z eq_refl) as [Z1 Z2]. rewrite Z1. exists (g1, 0). auto.
  Qed.

  Lemma both_stuck : forall T l g, tell both T l (g, 1) = (g, 1, Ok tt).
  Proof. intros T l g. induction l as [|x l IH]; cbn [tell both snd]; auto. Qed.
  Lemma both_feed_stuck : forall b es s g s' p' r, feed_client ord both b es s (g, 1) = (s', p', r) -> p' = (g, 1).
  Proof.
    intros b es. induction es as [|e es IH]; intros s g s' p' r H; cbn [feed_client] in H; [inversion H; auto|].
    destruct (external_modify ord b (ev_tree e) (ev_id e) s) as [s1 [u|x|]]; try (inversion H; auto; fail). rewrite both_stuck in H. eauto.
  Qed.
  Lemma both_apart : forall T l g, tell both T l (g, 2) = (g, 2, Ok tt).
  Proof. intros T l g. induction l as [|x l IH]; cbn [tell both snd]; auto. Qed.

  Lemma both_tell : forall T l g g' k, tell both T l (g, 0) = (g', k, Ok tt) -> k <> 2 ->
    tell (sort_signal func order pf) T l g = tell (on_signal pf) T l g /\ fst (tell (on_signal pf) T l g) = g' /\
    (k = 0 <-> snd (tell (on_signal pf) T l g) = Ok tt) /\ (k = 0 \/ k = 1).
  Proof.
    intros T l. induction l as [|x l IH]; intros g g' k H N.
    - cbn [tell] in *. inversion H; subst. tauto.
    - cbn [tell] in *. unfold both in H at 1. cbn [fst snd] in H. unfold sort_signal at 1 in H. unfold sort_signal at 1.
      destruct (on_signal pf T x g) as [g1 [[]|e|]]; cbn [snd] in H.
      + destruct (match x with SAdded _ _ | SModified _ _ => _ | _ => _ end) as [[]|e|]; [auto|..].
        all: rewrite both_apart in H; inversion H; subst; congruence.
      + rewrite both_stuck in H. inversion H; subst. cbn [fst snd]. split; auto. split; auto. split; [split; discriminate|auto].
      + rewrite both_stuck in H. inversion H; subst. cbn [fst snd]. split; auto. split; auto. split; [split; discriminate|auto].
  Qed.

  Lemma both_feed_apart : forall b es s g s' p' r, feed_client ord both b es s (g, 2) = (s', p', r) -> snd p' = 2.
  Proof.
    intros b es. induction es as [|e es IH]; intros s g s' p' r H; cbn [feed_client] in H; [inversion H; auto|].
    destruct (external_modify ord b (ev_tree e) (ev_id e) s) as [s1 [u|x|]]; try (inversion H; auto; fail). rewrite both_apart in H. eauto.
  Qed.
  Lemma both_never : forall T l g k, k <= 2 -> exists g' k', tell both T l (g, k) = (g', k', Ok tt) /\ k' <= 2.
  Proof.
    intros T l. induction l as [|x l IH]; intros g k L; cbn [tell]; [exists g, k; auto|]. unfold both at 1. cbn [fst snd]. destruct k; [|apply IH; auto].
    destruct (on_signal pf T x g) as [g1 [u|e|]]; [destruct (snd (sort_signal _ _ _ _ _ _))|..]; apply IH; lia.
  Qed.

  Lemma both_feed : forall b es s g s' g' k, feed_client ord both b es s (g, 0) = (s', (g', k), Ok tt) -> k <> 2 ->
    feed_client ord (sort_signal func order pf) b es s g = feed_client ord (on_signal pf) b es s g /\
    (k = 0 -> feed_client ord (on_signal pf) b es s g = (s', g', Ok tt)) /\ (k <> 0 -> snd (feed_client ord (on_signal pf) b es s g) <> Ok tt).
  Proof.
    intros b es. induction es as [|e es IH]; intros s g s' g' k H N; cbn [feed_client] in *.
    - inversion H; subst. tauto.
    - destruct (external_modify ord b (ev_tree e) (ev_id e) s) as [s1 [u|x|]]; try discriminate.
      destruct (both_never (ev_tree e) (news s s1) g 0) as (g1 & k1 & E & L); [lia|]. rewrite E in H.
      destruct (Nat.eq_dec k1 2) as [->|N1]; [apply both_feed_apart in H; cbn [snd] in H; congruence|].
      destruct (both_tell _ _ _ _ _ E N1) as (T1 & T2 & T3 & T4). rewrite T1.
      destruct (tell (on_signal pf) (ev_tree e) (news s s1) g) as [g2 r2]. cbn [fst snd] in T2, T3. subst g2. destruct T4 as [->| ->].
      + rewrite (proj1 T3 eq_refl). apply IH; auto.
      + assert (R : r2 <> Ok tt) by (intros R; apply T3 in R; discriminate). apply both_feed_stuck in H. inversion H; subst.
        destruct r2 as [[]|x|]; [congruence|..]; cbn [snd]; (split; [auto|split; [discriminate|auto]]).
  Qed.

  Lemma both_call : forall c x g x' g' k, client_call ord both c x (g, 0) = (x', (g', k), Ok tt) -> k <> 2 ->
    client_call ord (sort_signal func order pf) c x g = client_call ord (on_signal pf) c x g /\
    (k = 0 -> client_call ord (on_signal pf) c x g = (x', g', Ok tt)) /\ (k <> 0 -> snd (client_call ord (on_signal pf) c x g) <> Ok tt).
  Proof.
    intros c [[t b] s] g x' g' k H N. destruct c; cbn [client_call] in *.
    { destruct (feed_client ord both b (events o t) s (g, 0)) as [[s1 [g1 k1]] r] eqn:E. inversion H; subst.
      destruct (both_feed _ _ _ _ _ _ _ E N) as (A & B & D). rewrite A.
      destruct (feed_client ord (on_signal pf) b (events o t) s g) as [[s2 g2] r2]. split; auto. split; auto. intros ->. specialize (B eq_refl). inversion B; subst. auto. }
    all: destruct (view_call _ _ _) as [[[t1 b1] s1] [u|e|]]; try discriminate.
    all: match type of H with context [tell both ?T ?l ?p] => destruct (tell both T l p) as [[g1 k1] r] eqn:E end; inversion H; subst.
    all: destruct (both_tell _ _ _ _ _ E N) as (A & B & D & _); rewrite A;
      match goal with |- context [tell (on_signal pf) ?T ?l ?p] => destruct (tell (on_signal pf) T l p) as [g2 r2] end; cbn [fst snd] in *; subst g2;
      (split; [auto|split; [intros Ek; apply D in Ek; subst; auto|intros Ek R; apply Ek; apply D; auto]]).
  Qed.

  Lemma new_stocked : stocked new_gtk [].
  Proof. constructor; simpl; auto; constructor. Qed.

  (** *** Theorems *)
  Lemma healthy_cheld : forall x g, healthy ord pf x g -> let '(t, b, s) := x in cheld alike t b s (g, 0).
  Proof.
    intros x g H. induction H as [x x' g' V E|[[t b] s] g c x' g' H IH X E|[[t b] s] g rs H IH P].
    - rewrite <- build_connect in E. destruct (cheld_connect ord HO both alike both_step x (new_gtk, 0) V (or_intror (conj eq_refl new_stocked))) as (t & b & s & [p k] & E2 & Hc & _).
      destruct x as [[t0 b0] s0]. unfold client_connect in *. destruct (get_current_state s0) as [s1 [u|e|]]; try discriminate.
      destruct (tell both t0 (news s0 s1) (new_gtk, 0)) as [[g1 k1] r1] eqn:Eb. inversion E2; subst.
      assert (K2 : k <> 2) by (destruct Hc as (? & ? & ? & _ & _ & _ & _ & [D|[D _]]); cbn [snd] in D; lia).
      destruct (both_tell _ _ _ _ _ Eb K2) as (_ & B & D & _). destruct (tell (on_signal pf) t (news s0 s) new_gtk) as [g2 r2]. inversion E; subst. cbn [fst snd] in *. subst.
      rewrite (proj2 D eq_refl) in Hc. exact Hc.
    - destruct (cheld_call ord HO both alike (fun _ _ _ => True) (fun _ => I) (fun _ _ _ _ _ _ _ => I) both_step c t b s (g, 0) IH X)
        as (t' & b' & s' & [p' k] & E2 & Hc & _).
      assert (K2 : k <> 2) by (destruct Hc as (? & ? & ? & _ & _ & _ & _ & [D|[D _]]); cbn [snd] in D; lia).
      destruct (both_call _ _ _ _ _ _ E2 K2) as (_ & B & D). rewrite client_is_widget, E in B, D.
      destruct (Nat.eq_dec k 0) as [->|Nk]; [|exfalso; apply (D Nk); auto]. specialize (B eq_refl). inversion B; subst. exact Hc.
    - destruct IH as (l & v & cs & E & C & Rd & Hh & [D|[D St]]); cbn [fst snd] in *; [discriminate|]. exists l, v, cs. split; auto. split; auto. split; auto. split; auto.
      right. split; auto. cbn [fst]. eapply stocked_sort; [exact St|]. auto.
  Qed.

  Lemma healthy_sorts : forall x g c, healthy ord pf x g -> supported x c ->
    client_call ord (sort_signal func order pf) c x g = widget_call ord pf c x g.
  Proof.
    intros [[t b] s] g c H X. apply healthy_cheld in H.
    destruct (cheld_call ord HO both alike (fun _ _ _ => True) (fun _ => I) (fun _ _ _ _ _ _ _ => I) both_step c t b s (g, 0) H X)
      as (t' & b' & s' & [p' k] & E2 & Hc & _).
    assert (K2 : k <> 2) by (destruct Hc as (? & ? & ? & _ & _ & _ & _ & [D|[D _]]); cbn [snd] in D; lia).
    destruct (both_call _ _ _ _ _ _ E2 K2) as (A & _). rewrite A. apply client_is_widget.
  Qed.

  Lemma connect_sorts_any : forall x, viewing ord x -> client_connect (sort_signal func order pf) x new_gtk = connect pf x.
  Proof.
    intros x V. destruct (cheld_connect ord HO both alike both_step x (new_gtk, 0) V (or_intror (conj eq_refl new_stocked))) as (t & b & s & [p k] & E2 & Hc & _).
    rewrite <- build_connect. destruct x as [[t0 b0] s0]. unfold client_connect in *. destruct (get_current_state s0) as [s1 [u|e|]]; try discriminate.
    destruct (tell both t0 (news s0 s1) (new_gtk, 0)) as [[g1 k1] r1] eqn:Eb. inversion E2; subst.
    assert (K2 : k <> 2) by (destruct Hc as (? & ? & ? & _ & _ & _ & _ & [D|[D _]]); cbn [snd] in D; lia).
    destruct (both_tell _ _ _ _ _ Eb K2) as (A & _). rewrite A. auto.
  Qed.

  Lemma healthy_data : forall t b s g r, healthy ord pf (t, b, s) g -> In r (rows g) -> exists d, data_at t (r_id r) = Some d /\ get_data t (r_id r) = Ok d.
  Proof.
    intros t b s g r H I. apply healthy_cheld in H. destruct H as (l & v & cs & -> & Cu & _ & Hh & [D|[_ St]]); [discriminate|]. cbn [fst] in St.
    destruct (current_heard _ _ _ Cu) as (c0 & Hc & K). rewrite (hear_all_det _ _ _ _ Hc Hh) in K.
    destruct (get_live t (r_id r)) as (d & Ed).
    { apply (stocked_live t g cs); auto. apply (current_paths t b v); auto. }
    exists d. split; auto. unfold get_data, data_at in *. destruct (dget (r_id r) (nodes t)); [|discriminate]. inversion Ed; auto.
  Qed.

  Lemma healthy_separates : forall sep t b s g r, healthy ord pf (t, b, s) g -> In r (rows g) ->
    exists d, data_at t (r_id r) = Some d /\ separator_func sep t r = Ok (match sep with Some f => f d | None => false end).
  Proof.
    intros sep t b s g r H I. destruct (healthy_data t b s g r H I) as (d & D1 & Ed). exists d. split; auto. unfold separator_func. rewrite Ed. auto.
  Qed.

  Lemma healthy_compares : forall t b s g r r', healthy ord pf (t, b, s) g -> In r (rows g) -> In r' (rows g) -> r_id r <> "" -> r_id r' <> "" ->
    exists d d', data_at t (r_id r) = Some d /\ data_at t (r_id r') = Some d' /\
      sort_func func order t r r' = Ok (match func with Some f => f d d' order | None => (-1)%Z end).
  Proof.
    intros t b s g r r' H I I' N N'. destruct (healthy_data t b s g r H I) as (d & D1 & Ed). destruct (healthy_data t b s g r' H I') as (d' & D1' & Ed').
    exists d, d'. split; auto. split; auto. unfold sort_func. destruct func as [f|]; auto. unfold truthy.
    destruct (r_id r); [congruence|]. destruct (r_id r'); [congruence|]. cbn [andb negb String.eqb]. rewrite Ed, Ed'. auto.
  Qed.
End Any.

(** With an allocator that never gives out an address again. *)
Lemma watching_healthy : forall ord pf, (forall k l, Permutation (ord k l) l) -> faithful pf -> never_reuses pf ->
  forall x g, watching ord pf x g -> healthy ord pf x g.
Proof.
  intros ord pf HO AL NR x g H. induction H as [x x' g' r V E|[[t b] s] g c x' g' r H IH X E|x g rs H IH P].
  - destruct (cheld_connect ord HO (on_signal pf) (follows pf) (plain_step pf AL NR) x new_gtk V (follows_new pf)) as (t & b & s & p & E2 & _).
    rewrite build_connect, E in E2. inversion E2; subst. eapply healthy_start; eauto.
  - apply (watching_cheld ord pf HO AL NR) in H.
    destruct (cheld_call ord HO (on_signal pf) (follows pf) (fun _ _ _ => True) (fun _ => I) (fun _ _ _ _ _ _ _ => I) (plain_step pf AL NR) c t b s g H X)
      as (t' & b' & s' & p' & E2 & _). rewrite client_is_widget, E in E2. inversion E2; subst. eapply healthy_call; eauto.
  - apply healthy_sort; auto.
Qed.
Lemma watching_sorts_ok : forall ord pf, (forall k l, Permutation (ord k l) l) -> faithful pf -> never_reuses pf ->
  forall func order x g c, watching ord pf x g -> supported x c ->
  healthy ord pf x g /\ snd (client_call ord (sort_signal func order pf) c x g) = Ok tt.
Proof.
  intros ord pf HO AL NR func order x g c H X. split; [apply watching_healthy; auto|]. destruct x as [[t b] s]. apply (watching_cheld ord pf HO AL NR) in H.
  destruct (cheld_call ord HO (sort_signal func order pf) (follows pf) (fun _ _ _ => True) (fun _ => I) (fun _ _ _ _ _ _ _ => I) (sort_step pf AL NR func order) c t b s g H X)
    as (t' & b' & s' & p' & E2 & _). rewrite E2. auto.
Qed.
Lemma separates_any : forall ord pf, (forall k l, Permutation (ord k l) l) -> faithful pf ->
  forall sep t b s g r, healthy ord pf (t, b, s) g -> In r (rows g) ->
  exists d, data_at t (r_id r) = Some d /\ separator_func sep t r = Ok (match sep with Some f => f d | None => false end).
Proof. intros ord pf HO AL. exact (healthy_separates ord pf HO AL None true). Qed.

Lemma unnamed_rows : forall func order t r r', r_id r = "" \/ r_id r' = "" -> sort_func func order t r r' = Ok (-1)%Z.
Proof.
  intros func order t r r' H. unfold sort_func. destruct func as [f|]; auto. destruct H as [-> | ->]; simpl; auto. rewrite andb_false_r. auto.
Qed.
