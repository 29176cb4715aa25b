(** A view that listens to the calls on the main tree. *)
From Coq Require Import Permutation.
From Verif Require Import Base BaseFacts MainTree Spec MainFacts MainInv MainOps MainDel MainRun MainAdd MainEff MainReg
  MainRegDel MainTight DataFacts Filters SpecApi FTree SpecView FtBase FtWalk FtEdge FtUp FtFront FtDown FtNoop FtDel FtSync FtGhost FtGone FtTree FtMind.
Open Scope f_scope.

Lemma ffor_app : forall X (body : X -> FM unit) l1 l2 s (Q : unit -> ft -> Prop),
  fwp (ffor l1 body) (fun _ s1 => fwp (ffor l2 body) Q s1) s -> fwp (ffor (l1 ++ l2) body) Q s.
Proof.
  intros X body l1 l2. induction l1 as [|x l1 IH]; simpl; intros s Q H; [exact H|].
  unfold fwp, fbind in *. destruct (body x s) as [s1 [[]|e|]]; auto. apply IH. auto.
Qed.

Lemma feed_app : forall ord b l1 l2 s Q,
  fwp (feed ord b l1) (fun _ s1 => fwp (feed ord b l2) Q s1) s -> fwp (feed ord b (l1 ++ l2)) Q s.
Proof. intros. apply ffor_app. auto. Qed.

(** ** What the signals name
    Everything sent during an event names nodes of the tree at that time. *)
#[export] Existing Instance any_ear.

(** Is the path [q], below [p], one of a view that shows [D] with the parents [f]? *)
Fixpoint wantb (D : id -> bool) (f : id -> list id) (p : id) (q : list id) : bool :=
  match q with [] => true | x :: q' => D x && mem p (f x) && wantb D f x q' end.
Definition unwanted (T : mtree) (D : id -> bool) (root : id) (fl : bool) (q : list id) : Prop := wantb D (sp T D root fl) root q = false.

Lemma wantb_gone : forall D f n m st p, (D n = true -> ~ In (last st p) (f n)) -> wantb D f p (st ++ n :: m) = false.
Proof.
  intros D f n m st. induction st as [|y st IH]; intros p H.
  - simpl in *. destruct (D n); auto. destruct (mem_spec p (f n)) as [I|_]; auto. destruct (H eq_refl I).
  - cbn [app wantb]. rewrite last_cons in H. rewrite IH by auto. apply andb_false_r.
Qed.

(** Nothing that should be in the view is deleted. *)
Definition sparesb (T : mtree) (D : id -> bool) (root : id) (fl : bool) (x : sig) : bool :=
  match x with SDeleted _ q => negb (wantb D (sp T D root fl) root q) | _ => true end.

(** The handler of an event, failing where it names a node that is not in the tree,
    or deletes a path that should be there, or announces a node while clients know
    a path with a node that is not in the tree, or while they know a path to it
    although no node has two parents, neither in the tree nor in the view. *)
Definition oneb (T : mtree) (s s' : ft) : bool :=
  if loneb T && lonev s then freshb (heard (sent s)) (news s s') && lonev s' else true.
Definition ext_checked (ord : nat -> list id -> list id) (b : bank) (T : mtree) (n : id) : FM unit := fun s =>
  let '(s', r) := external_modify ord b T n s in
  if forallb (liveb T) (news s s')
  then if forallb (sparesb T (shown b T s) (froot s) (flat s)) (news s s')
       then if mindsb T (heard (sent s)) (news s s')
            then if oneb T s s' then (s', r) else (s', Err TypeError)
            else (s', Err TypeError)
       else (s', Err TypeError)
  else (s', Err TypeError).
Definition feed_checked (ord : nat -> list id -> list id) (b : bank) (es : list event) : FM unit :=
  ffor es (fun e => ext_checked ord b (ev_tree e) (ev_id e)).

Lemma feed_checked_app : forall ord b l1 l2 s Q,
  fwp (feed_checked ord b l1) (fun _ s1 => fwp (feed_checked ord b l2) Q s1) s -> fwp (feed_checked ord b (l1 ++ l2)) Q s.
Proof. intros. apply ffor_app. auto. Qed.

Lemma feed_of_checked : forall ord b es s Q, fwp (feed_checked ord b es) Q s -> fwp (feed ord b es) Q s.
Proof.
  intros ord b es. induction es as [|e es IH]; intros s Q H; [exact H|]. unfold feed, feed_checked in *. cbn [ffor] in *. unfold fwp, fbind in *.
  unfold ext_checked in H at 1. destruct (external_modify ord b (ev_tree e) (ev_id e) s) as [s1 [[]|x|]];
    destruct (forallb (liveb _) _); try contradiction; destruct (forallb _ _); try contradiction; destruct (mindsb _ _ _); try contradiction; destruct (oneb _ _ _); try contradiction. apply IH. auto.
Qed.

Lemma heeds_news : forall T G O s s', @heeds (tree_ear T (sent s) G O) s' -> forallb (liveb T) (news s s') = true.
Proof.
  intros T G O s s' (l & E & F & _). unfold news. rewrite E. simpl. rewrite skipn_app, skipn_all, Nat.sub_diag. simpl.
  rewrite forallb_forall. rewrite Forall_forall in F. intros x Hx. specialize (F x Hx). destruct x; simpl in *; auto.
Qed.

Lemma heeds_spares : forall T D root fl O s s', @heeds (tree_ear T (sent s) (unwanted T D root fl) O) s' ->
  forallb (sparesb T D root fl) (news s s') = true.
Proof.
  intros T D root fl O s s' (l & E & F & _). unfold news. rewrite E. simpl. rewrite skipn_app, skipn_all, Nat.sub_diag. simpl.
  rewrite forallb_forall. rewrite Forall_forall in F. intros x Hx. specialize (F x Hx). destruct x; simpl in *; auto.
  apply negb_true_iff. apply F.
Qed.

Lemma heeds_fresh : forall T G (O : Prop) s s', @heeds (tree_ear T (sent s) G O) s' -> O -> fresh_adds (sent s) (news s s').
Proof.
  intros T G O s s' (l & E & _ & F) Ho. unfold news. rewrite E. simpl. rewrite skipn_app, skipn_all, Nat.sub_diag. simpl. apply F. auto.
Qed.

Lemma gbase_ear : forall (E1 E2 : Ear) r root A ch s, (@ear_one E2 -> lone_ch ch) -> @heeds E2 s -> @gbase E1 r root A ch s -> @gbase E2 r root A ch s.
Proof. intros E1 E2 r root A ch s H1 H []. constructor; auto. apply (knows_ear E1 E2); auto. Qed.

Lemma base_ear : forall (E1 E2 : Ear) r root fl A s, (@ear_one E2 -> lone_ch (kids s)) -> @heeds E2 s -> @base E1 r root fl A s -> @base E2 r root fl A s.
Proof. intros E1 E2 r root fl A s H1 H []. constructor; auto. apply (gbase_ear E1 E2); auto. Qed.

Lemma insync_ear : forall (E1 E2 : Ear) T D root fl r U s, (@ear_one E2 -> lone_ch (kids s)) -> @heeds E2 s -> @insync E1 T D root fl r U s -> @insync E2 T D root fl r U s.
Proof. intros E1 E2 T D root fl r U s H1 H []. constructor; auto. apply (base_ear E1 E2); auto. Qed.

(** No node has two parents, in the tree and in the view. *)
Definition lonely (T : mtree) (s : ft) : Prop := lone_tree T /\ lone_ch (kids s).

Lemma remove1_filter : forall (f g : id -> bool) n l, NoDup l -> (forall x, x <> n -> g x = f x) -> g n = false -> f n = true ->
  filter g l = remove1 n (filter f l).
Proof.
  intros f g n l ND H Hg Hf. induction l as [|y l IH]; auto. rewrite NoDup_cons_iff in ND. destruct ND as [N1 N2].
  simpl. destruct (id_dec y n) as [->|Ny].
  - rewrite Hg, Hf. simpl. rewrite eqb_refl. rewrite IH by auto. apply remove1_notin. rewrite filter_In. tauto.
  - rewrite H by auto. destruct (f y); auto. simpl. rewrite (proj2 (eqb_neq n y)) by auto. rewrite IH by auto. auto.
Qed.

Section Op.
  Variable ord : nat -> list id -> list id.
  Variable b : bank.
  Variable fs : list id.
  Variable root : id.
  Variable fl : bool.
  Hypothesis HO : forall k l, Permutation (ord k l) l.
  Hypothesis HL : local_bank b.

  Definition D (T : mtree) : id -> bool := should_display b T fs.

  Lemma D_alive : forall T x, D T x = true -> has_node T x = true.
  Proof. intros T x. unfold D, should_display. destruct (has_node T x); auto. rewrite andb_false_r. discriminate. Qed.

  Lemma D_data : forall T T' x, data_of T' x = data_of T x -> D T' x = D T x.
  Proof.
    intros T T' x H. unfold D, should_display. unfold data_of in H. unfold has_node, dmem.
    destruct (dget x (nodes T)) as [nd|] eqn:E; destruct (dget x (nodes T')) as [nd'|] eqn:E'; simpl in H; try discriminate; destruct (truthy x); auto. simpl. inv H. clear -HL E E' H1.
    induction fs as [|m l IH]; simpl; auto.
    destruct (get_filter b m) as [f|] eqn:Ef; auto. rewrite IH.
    assert (Hf : filt_displayed T' f x = filt_displayed T f x).
    { unfold filt_displayed, has_node, dmem. rewrite E, E'. rewrite (HL m f Ef T' T x (f_dic f) nd' nd) by auto. auto. }
    rewrite Hf. auto.
  Qed.

  Lemma D_nodes : forall T T' x, nodes T' = nodes T -> D T' x = D T x.
  Proof. intros. apply D_data. unfold data_of. rewrite H. auto. Qed.

  Record apt (T : mtree) : Prop := {
    a_reg : vreg T;
    a_root : has_node T root = false;
    a_res : forall x, In x reserved -> has_node T x = false
  }.

  Lemma apt_D : forall T, apt T -> forall x, D T x = true -> has_node T x = true /\ ~ In x reserved.
  Proof. intros T A x H. apply D_alive in H. split; auto. intros I. apply (a_res _ A) in I. congruence. Qed.

  Notation gone T := (unwanted T (D T) root fl).
  Notation ear T s := (tree_ear T (sent s) (gone T) (lonely T s)).
  Lemma apt_env : forall T r s, apt T -> ranks T root r -> @env (ear T s) ord T (D T) root fl r.
  Proof.
    intros T r s A R. apply vreg_env; auto; [apply A|apply A| | |intros []; auto].
    - intros x Hx. destruct (apt_D T A x Hx). split; auto. split; auto.
    - intros st n m. apply wantb_gone.
  Qed.

  Lemma apt_env_any : forall T r, apt T -> ranks T root r -> env ord T (D T) root fl r.
  Proof.
    intros T r A R. apply vreg_env; auto; [apply A|apply A| |intros; exact I|intros []]. intros x Hx. destruct (apt_D T A x Hx). split; auto. split; auto. exact I.
  Qed.

  Lemma apt_frame : forall T T', apt T -> good true T' -> MainRegDel.frame T T' -> apt T'.
  Proof.
    intros T T' A G F.
    assert (K : forall x, has_node T x = false -> has_node T' x = false).
    { intros x H. destruct (has_node T' x) eqn:E; auto. apply (frame_has _ _ _ F) in E. congruence. }
    destruct A as [[] A2 A3]. constructor; auto. constructor; auto. eapply flags_frame; eauto.
  Qed.

  Lemma apt_nodes : forall T T', apt T -> nodes T' = nodes T -> pend_ok T' -> apt T'.
  Proof.
    intros T T' A E P. apply (apt_frame T); auto; [|apply frame_nodes; auto].
    eapply good_nodes; eauto. apply (v_good _ (a_reg _ A)).
  Qed.

  Lemma ranks_mono : forall T T' r, (forall x p, In p (parents T' x) -> In p (parents T x)) -> ranks T root r -> ranks T' root r.
  Proof. intros T T' r H [A B]. split; auto. Qed.

  Definition spv (T : mtree) (x : id) : list id := sp T (D T) root fl x.

  Lemma spv_eq : forall T x, apt T -> spv T x = if fl then [root] else match filter (D T) (parents T x) with [] => [root] | l => l end.
  Proof. intros T x A. unfold spv, sp. rewrite vreg_parents by apply A. auto. Qed.

  Lemma filter_D : forall T T' l, (forall p, In p l -> D T' p = D T p) -> filter (D T') l = filter (D T) l.
  Proof. intros T T' l H. apply filter_ext_in. auto. Qed.

  Definition kept (r : id -> nat) (U : id -> Prop) (T : mtree) (s : ft) : Prop := insync T (D T) root fl r U s /\ filters s = fs.

  Lemma S_mono : forall r (U U' : id -> Prop) T s, (forall x, U x -> U' x) -> kept r U T s -> kept r U' T s.
  Proof. intros r U U' T s H [[] F]. split; auto. constructor; auto. Qed.

  (** Nothing the view depends on changed, outside of [U]. *)
  Lemma S_move : forall r (U U' : id -> Prop) T T' s, kept r U T s -> apt T -> apt T' ->
    (forall x, D T' x = D T x) -> (forall x, D T x = true -> ~ U' x -> ~ U x /\ parents T' x = parents T x) -> kept r U' T' s.
  Proof.
    intros r U U' T T' s [[] F] A A' HD HP. split; auto. constructor; auto.
    - intros x Hx. rewrite HD. auto.
    - intros x Hx. rewrite HD in Hx. auto.
    - intros x Hx HU. rewrite HD in Hx. destruct (HP x Hx HU) as [H1 H2]. rewrite in_pars by auto.
      fold (spv T x). fold (spv T' x). rewrite !spv_eq by auto. rewrite H2. rewrite (filter_D T T') by auto. auto.
  Qed.

  Lemma S_rank : forall r r' T s, kept r (fun _ => False) T s -> apt T -> ranks T root r' -> kept r' (fun _ => False) T s.
  Proof.
    intros r r' T s [[] F] A R. split; auto. constructor; auto. apply (base_rank r); auto.
    intros x p Hp. destruct (in_stale x (pars_disp _ _ _ Hp)) as [->|Dx].
    - rewrite (gb_top _ _ _ _ _ (b_g _ _ _ _ _ in_base)) in Hp. destruct Hp.
    - rewrite in_pars in Hp by auto. apply (sp_rank ord T (D T) root fl r' (apt_env_any T r' A R)); auto.
      apply (D_root ord T (D T) root fl r' (apt_env_any T r' A R)). auto.
  Qed.

  (** Signals that clients understand. *)
  Definition understood (EE : Ear) (s : ft) : Prop := exists c, hear_all [] (sent s) c /\ @heeds EE s /\ (@ear_one EE -> lone_ch (kids s)).
  (** The view shows nodes of the tree only, and perhaps [n]. *)
  Definition ahead (T : mtree) (n : id) (s : ft) : Prop :=
    (forall x, is_displayed s x = true -> x = root \/ x = n \/ has_node T x = true) /\ (n <> root -> has_node T n = false -> kids s n = []).

  Lemma ext_eq : forall r T n s Q, base r root fl (fun _ => True) s -> filters s = fs -> ahead T n s ->
    fwp (update ord T (D T) n Both) (fun x s' => understood (ear T s) s' /\ Q x s') s -> fwp (ext_checked ord b T n) Q s.
  Proof.
    intros r T n s Q B F [A1 A2] H. unfold ext_checked, external_modify. unfold fwp in *. replace (shown b T s) with (D T) by (unfold shown, D; rewrite F; reflexivity).
    pose proof (gb_root _ _ _ _ _ (b_g _ _ _ _ _ B)) as Er. pose proof (b_flat _ _ _ _ _ B) as Ef.
    destruct (update ord T (D T) n Both s) as [s' [[]|e|]] eqn:E; try contradiction. destruct H as [(c & Hc & H1 & H3) H2]. rewrite (heeds_news _ _ _ _ _ H1), Er, Ef, (heeds_spares _ _ _ _ _ _ _ H1).
    rewrite (minds_event ord T (D T) r root fl n s s' c); auto; [|apply D_alive|apply (heeds_news _ _ _ _ _ H1)].
    assert (O1 : oneb T s s' = true); [|rewrite O1; auto]. unfold oneb.
    destruct (loneb T) eqn:L1; auto. destruct (lonev s) eqn:L2; auto. apply loneb_iff in L1. apply lonev_iff in L2.
    assert (Lo : lonely T s) by (split; auto). pose proof (heeds_fresh _ _ _ _ _ H1 Lo) as Fr. cbn [andb]. apply andb_true_iff. split; [|apply lonev_iff; auto].
    destruct (gb_knows _ _ _ _ _ (b_g _ _ _ _ _ B)) as (cs & (Hs & _) & _).
    assert (Ex : sent s' = sent s ++ news s s') by (destruct H1 as (l & El & _); unfold news; rewrite El; simpl; rewrite skipn_app, skipn_all, Nat.sub_diag; auto).
    rewrite Ex in Hc. apply hear_all_cut in Hc. destruct Hc as (m & Hm & Hc). rewrite (learn_fun _ _ _ _ Hm Hs) in Hc.
    unfold heard. rewrite <- (hear_all_learn _ _ _ Hs). apply (fresh_freshb _ (sent s) cs c); auto.
  Qed.

  Lemma insync_heeds : forall (EE : Ear) T r (U : id -> Prop) s, @insync EE T (D T) root fl r U s -> understood EE s.
  Proof.
    intros EE T r U s I. destruct (gb_knows _ _ _ _ _ (b_g _ _ _ _ _ (in_base _ _ _ _ _ _ _ I))) as (cs & (H0 & H) & _). exists cs. split; auto. split; auto.
    intros Ho. apply (gb_one _ _ _ _ _ (b_g _ _ _ _ _ (in_base _ _ _ _ _ _ _ I)) Ho).
  Qed.

  (** A view that shows nothing but what is to be shown. *)
  Lemma ahead_stale : forall r T n s, apt T -> base r root fl (fun _ => True) s -> nostale root (D T) s -> ahead T n s.
  Proof.
    intros r T n s A B N. split.
    - intros x Hx. destruct (N x Hx) as [|Dx]; auto. right. right. apply D_alive. auto.
    - intros Nn Hn. destruct (kids s n) as [|c l] eqn:Ek; auto. exfalso. assert (Hc : In c (kids s n)) by (rewrite Ek; left; auto).
      apply kids_disp in Hc. destruct (N n Hc) as [|Dn]; auto. apply D_alive in Dn. congruence.
  Qed.

  Lemma S_down : forall r (U : id -> Prop) T n s, apt T -> ranks T root r -> base r root fl (fun _ => True) s ->
    nostale root (D T) s -> filters s = fs ->
    (forall x, D T x = true -> is_displayed s x = true \/ x = n) ->
    (forall x, D T x = true -> ~ U x -> x <> n -> pars s x = spv T x \/ (is_displayed s n = false /\ D T n = true /\ In n (spv T x))) ->
    fwp (ext_checked ord b T n) (fun _ s' => kept r (fun x => U x /\ x <> n) T s') s.
  Proof.
    intros r U T n s A R B N F Hf Hp. apply (ext_eq r); auto; [apply (ahead_stale r); auto|].
    eapply fwp_mono; [apply (ev_down ord T (D T) root fl r (apt_env T r s A R)) with (U := U); auto|].
    - apply vreg_Hsym; [apply A|apply D_alive].
    - apply vreg_Hlive. apply A.
    - apply (base_ear any_ear); [intros []; auto|apply heeds_tree|apply B].
    - intros ? s' [H1 H2]. split; [eapply insync_heeds; eauto|]. split; [|congruence]. apply (insync_ear (ear T s)); [intros []|apply heeds_any|apply H1].
  Qed.

  Lemma S_event : forall r (U : id -> Prop) T n s, apt T -> ranks T root r -> kept r U T s ->
    fwp (ext_checked ord b T n) (fun _ s' => kept r (fun x => U x /\ x <> n) T s') s.
  Proof.
    intros r U T n s A R [[] F]. apply S_down; auto. intros x Hx HU _. left. apply in_pars; auto.
  Qed.

  (** The node [n] is no longer to be shown. *)
  Lemma S_hide : forall r T T' n s, kept r (eq n) T s -> apt T -> apt T' -> ranks T' root r ->
    D T n = true -> D T' n = false -> (forall x, x <> n -> D T' x = D T x) ->
    (forall x, D T' x = true -> parents T' x = parents T x) -> (has_node T' n = false -> kids s n = []) ->
    fwp (ext_checked ord b T' n) (fun _ s' => kept r (fun _ => False) T' s') s.
  Proof.
    intros r T T' n s [[] F] A A' R Dn Dn' HD HP HK.
    apply (ext_eq r); auto.
    { split; auto. intros x Hx. destruct (id_dec x n) as [|Nx]; auto. destruct (in_stale x Hx) as [|Dx]; auto.
      right. right. apply D_alive. rewrite HD; auto. }
    eapply fwp_mono; [apply (ev_hide ord T' (D T') root fl r (apt_env T' r s A' R)) with (n := n)|].
    - apply vreg_Hsym; [apply A'|apply D_alive].
    - apply vreg_Hlive. apply A'.
    - assert (Nn : n <> root).
      { intros ->. apply D_alive in Dn. rewrite (a_root _ A) in Dn. discriminate. }
      apply (base_ear any_ear (ear T' s)) in in_base; [|intros []; auto|apply heeds_tree].
      constructor; auto.
      + intros x Hx. destruct (id_dec x n) as [|Nx]; auto. destruct (in_stale x Hx) as [|Dx]; auto.
        rewrite HD by auto. auto.
      + intros x Hx. destruct (id_dec x n) as [->|Nx]; [congruence|]. rewrite HD in Hx by auto. auto.
      + intros x Hx. destruct (id_dec x n) as [->|Nx]; [congruence|]. pose proof (HP x Hx) as HPx.
        rewrite HD in Hx by auto. rewrite in_pars by auto. fold (spv T x). fold (spv T' x).
        rewrite !spv_eq by auto. rewrite HPx.
        assert (E0 : remove1 n [root] = [root]) by (simpl; rewrite (proj2 (eqb_neq n root)); auto).
        destruct fl; [left; auto|].
        rewrite (remove1_filter (D T) (D T') n) by (auto; apply (ok_ndp _ (vreg_ok _ (a_reg _ A)))).
        destruct (filter (D T) (parents T x)) as [|y l] eqn:E; [left; auto|].
        destruct (id_dec y n) as [->|Ny].
        * destruct l as [|z l]; [right; simpl; rewrite eqb_refl; auto|]. left. simpl. rewrite eqb_refl. auto.
        * left. simpl. rewrite (proj2 (eqb_neq n y)) by auto. auto.
    - intros ? s' [H1 H2]. split; [eapply insync_heeds; eauto|]. split; [|congruence].
      apply (insync_ear (ear T' s)); [intros []|apply heeds_any|apply H1].
  Qed.

  (** *** The elementary steps *)
  Definition synced (T : mtree) (s : ft) : Prop := exists r, ranks T root r /\ kept r (fun _ => False) T s.

  Lemma synced_rank : forall T s r, synced T s -> apt T -> ranks T root r -> kept r (fun _ => False) T s.
  Proof. intros T s r (r0 & R0 & H) A R. eapply S_rank; eauto. Qed.

  Lemma apt_ranks : forall T, apt T -> exists r, ranks T root r.
  Proof. intros T A. apply ranks_exist; [apply vreg_ok; apply A|apply A]. Qed.

  Lemma reg_apt : forall T T', reg T' -> apt T -> (forall x, has_node T' x = has_node T x) -> apt T'.
  Proof. intros T T' R A H. constructor; [apply reg_vreg; auto|rewrite H; apply A|intros; rewrite H; apply A; auto]. Qed.

  Lemma data_of_upd : forall n v T x, x <> n -> data_of (upd_node n (set_data v) T) x = data_of T x.
  Proof. intros. unfold data_of. rewrite dget_upd, (proj2 (eqb_neq x n)) by auto. auto. Qed.

  Lemma one_event : forall k n T s Q, fwp (ext_checked ord b T n) (fun _ s' => Q tt s') s -> fwp (feed_checked ord b [Ev k n T]) Q s.
  Proof.
    intros. unfold feed_checked. simpl. unfold fwp, fbind in *. destruct (ext_checked ord b T n s) as [s1 [[]|e|]]; auto.
  Qed.

  Lemma cons_event : forall k n T es s Q, fwp (ext_checked ord b T n) (fun _ s' => fwp (feed_checked ord b es) Q s') s ->
    fwp (feed_checked ord b (Ev k n T :: es)) Q s.
  Proof.
    intros. unfold feed_checked in *. simpl. unfold fwp, fbind in *. destruct (ext_checked ord b T n s) as [s1 [[]|e|]]; auto.
  Qed.

  Lemma spv_without : forall T T' n x, apt T -> apt T' -> parents T' x = parents T x -> (forall y, y <> n -> D T' y = D T y) ->
    D T' n = true -> spv T' x = spv T x \/ In n (spv T' x).
  Proof.
    intros T T' n x A A' HP HD Dn. rewrite !spv_eq by auto. rewrite HP. destruct fl; auto.
    destruct (In_dec_id n (parents T x)) as [I|N].
    - right. assert (H : In n (filter (D T') (parents T x))) by (apply filter_In; auto).
      destruct (filter (D T') (parents T x)); auto.
    - left. rewrite (filter_D T T'); auto. intros p Hp. apply HD. intros ->. auto.
  Qed.

  Lemma sync_atom : forall T T' es s, reg T -> apt T -> atom T T' es -> synced T s ->
    apt T' /\ fwp (feed_checked ord b es) (fun _ s' => synced T' s') s.
  Proof.
    intros T T' es s RG A H Sy. pose proof (reg_atom _ _ _ RG H) as RG'.
    assert (A' : apt T').
    { apply (reg_apt T); auto. destruct H as [t' En Er Hp|n Hn|n v t' Hn E|p c t' Hp Hc Ha En Er Hpd|p c t' Hp Hc Hpc En Er Hpd]; auto; intros x.
      - apply has_node_nodes; auto.
      - subst. apply has_node_upd.
      - rewrite (has_node_nodes (add_edge p c T)) by auto. apply has_node_add_edge.
      - rewrite (has_node_nodes (del_edge p c T)) by auto. apply has_node_del_edge. }
    split; auto.
    destruct H as [t' En Er Hp|n Hn|n v t' Hn E|p c t' Hp Hc Ha En Er Hpd|p c t' Hp Hc Hpc En Er Hpd].
    - destruct Sy as (r & R & H). exists r. assert (HP : forall x, parents t' x = parents T x) by (intros; apply parents_nodes; auto). split.
      + apply (ranks_mono T); auto. intros x p. rewrite HP. auto.
      + apply (S_move r (fun _ => False) _ T); auto. intros. apply D_nodes; auto.
    - destruct Sy as (r & R & H). apply one_event. eapply fwp_mono; [apply S_event; eauto|].
      intros ? s' H'. exists r. split; auto. eapply S_mono; [|apply H']. simpl. tauto.
    - destruct Sy as (r & R & H). apply one_event.
      assert (HP : forall x, parents t' x = parents T x).
      { intros x. subst. unfold parents. rewrite dget_upd. deq x n; auto. subst. destruct (dget n (nodes T)); auto. }
      assert (HD : forall x, x <> n -> D t' x = D T x).
      { intros x Nx. apply D_data. subst. apply data_of_upd; auto. }
      assert (R' : ranks t' root r) by (apply (ranks_mono T); auto; intros x p; rewrite HP; auto).
      assert (Nn : n <> root) by (intros ->; rewrite (a_root _ A) in Hn; discriminate).
      destruct (D T n) eqn:Dn; destruct (D t' n) eqn:Dn'.
      1,4: (assert (HD' : forall x, D t' x = D T x) by (intros x; destruct (id_dec x n) as [->|Nx]; [congruence|auto]));
        (eapply fwp_mono; [apply (S_event r (fun _ => False)); auto; apply (S_move r (fun _ => False) _ T); auto|]);
        intros ? s' H'; exists r; split; auto; eapply S_mono; [|apply H']; simpl; tauto.
      + eapply fwp_mono; [apply (S_hide r T t' n); auto|].
        * eapply S_mono; [|apply H]. simpl. tauto.
        * assert (Ht : has_node t' n = true) by (subst; rewrite has_node_upd; auto). congruence.
        * intros ? s' H'. exists r. auto.
      + destruct H as [[] F]. eapply fwp_mono; [apply (S_down r (fun _ => False)); auto|].
        * intros x Hx. destruct (in_stale x Hx) as [|Dx]; auto. right. rewrite HD; auto. intros ->. congruence.
        * intros x Hx. destruct (id_dec x n) as [|Nx]; auto. rewrite HD in Hx by auto. auto.
        * intros x Hx _ Nx. rewrite HD in Hx by auto. rewrite in_pars by auto. fold (spv T x).
          destruct (spv_without T t' n x A A') as [E1|E1]; auto. right. split; [|split]; auto.
          destruct (is_displayed s n) eqn:Di; auto. destruct (in_stale n Di); [contradiction|congruence].
        * intros ? s' H'. exists r. split; auto. eapply S_mono; [|apply H']. simpl. tauto.
    - destruct (apt_ranks t' A') as [r R'].
      assert (HP : forall x, parents t' x = parents (add_edge p c T) x) by (intros; apply parents_nodes; auto).
      assert (R : ranks T root r).
      { apply (ranks_mono t'); auto. intros x q Hq. rewrite HP, parents_add_edge by auto. destruct (_ && _); auto. apply in_app_iff; auto. }
      pose proof (synced_rank _ _ r Sy A R) as H.
      assert (H' : kept r (eq c) t' s).
      { apply (S_move r (fun _ => False) _ T); auto.
        - intros x. apply D_data. unfold data_of. rewrite En, dget_add_edge. destruct (dget x (nodes T)); auto.
        - intros x _ Nx. split; auto. rewrite HP, parents_add_edge by auto. rewrite (proj2 (eqb_neq x c)) by auto. auto. }
      apply cons_event. eapply fwp_mono; [apply S_event; eauto|]. intros ? s1 H1.
      apply one_event. eapply fwp_mono; [apply (S_event r _ t' c s1 A' R' H1)|]. intros ? s2 H2.
      exists r. split; auto. eapply S_mono; [|apply H2]. simpl. intros x ((E1 & _) & E2). auto.
    - destruct Sy as (r & R & H).
      assert (HP : forall x, parents t' x = parents (del_edge p c T) x) by (intros; apply parents_nodes; auto).
      assert (R' : ranks t' root r).
      { apply (ranks_mono T); auto. intros x q. rewrite HP, parents_del_edge. deq x c; auto. intros I. eapply remove1_In; eauto. }
      assert (H' : kept r (eq c) t' s).
      { apply (S_move r (fun _ => False) _ T); auto.
        - intros x. apply D_data. unfold data_of. rewrite En, dget_del_edge. destruct (dget x (nodes T)); auto.
        - intros x _ Nx. split; auto. rewrite HP, parents_del_edge. rewrite (proj2 (eqb_neq x c)) by auto. auto. }
      apply cons_event. eapply fwp_mono; [apply S_event; eauto|]. intros ? s1 H1.
      apply one_event. eapply fwp_mono; [apply (S_event r _ t' c s1 A' R' H1)|]. intros ? s2 H2.
      exists r. split; auto. eapply S_mono; [|apply H2]. simpl. intros x ((E1 & _) & E2). auto.
  Qed.

  Lemma sync_atoms : forall T T' es, atoms T T' es -> reg T -> apt T -> forall s, synced T s ->
    apt T' /\ fwp (feed_checked ord b es) (fun _ s' => synced T' s') s.
  Proof.
    intros T T' es H. induction H as [|t1 e1 t2 e2 H1 IH H2]; intros RG A s Sy; [split; auto|].
    destruct (IH RG A s Sy) as [A1 W1]. assert (RG1 : reg t1) by (eapply reg_atoms; eauto).
    split.
    - unfold fwp in W1. destruct (feed_checked ord b e1 s) as [s1 [[]|e|]]; try tauto. apply (sync_atom t1 t2 e2 s1); auto.
    - apply feed_checked_app. eapply fwp_mono; [apply W1|]. intros ? s1 Sy1. apply (sync_atom t1 t2 e2 s1); auto.
  Qed.

  (** *** Additions *)
  Lemma sync_add : forall n nd po T T' es s, reg T -> apt T -> app_node n nd -> plain nd -> n <> "" -> n <> main_root ->
    n <> root -> ~ In n reserved -> unlisted_add T (AddNode n nd po) ->
    add_node n nd po T = (T', es, Ok tt) -> synced T s ->
    apt T' /\ fwp (feed_checked ord b es) (fun _ s' => synced T' s') s.
  Proof.
    intros n nd po T T' es s RG A An Pl N1 N2 N3 N4 Hu E Sy.
    destruct (has_node T n) eqn:Hn.
    { unfold add_node in E. rewrite bind_get, Hn in E. inv E. split; auto. }
    assert (RG' : reg T').
    { pose proof (reg_add n nd po T RG An Pl N1 N2 Hu) as H. unfold after, outcome in H. cbn [run_op] in H. rewrite E in H. simpl in H. auto. }
    destruct (add_node_spec true n nd po T (r_good _ RG) Hn An (fun _ => Hu Hn)) as (t3 & es' & r' & tg & E' & G3 & Gg & Gr & En & _ & [K|K]);
      rewrite E' in E; inv E; destruct K as (K & Ees & _); [discriminate|]. subst es. clear K.
    assert (HP : forall x, has_node T' x = String.eqb x n || has_node T x).
    { intros x. rewrite (has_node_nodes tg T') by auto. rewrite (grown_has _ _ _ x Gr). unfold put, has_node, dmem. simpl.
      rewrite dget_dset. destruct (String.eqb x n); auto. }
    assert (A' : apt T').
    { constructor; [apply reg_vreg; auto| |].
      - rewrite HP, (proj2 (eqb_neq root n)) by auto. apply A.
      - intros x Hx. rewrite HP. deq x n; [congruence|]. apply A. auto. }
    split; auto.
    assert (Pput : forall x, x <> n -> parents (put n nd T) x = parents T x).
    { intros x Nx. unfold parents, put. simpl. rewrite dget_dset, (proj2 (eqb_neq x n)) by auto. auto. }
    assert (PP : forall x, x <> n -> parents T' x = parents T x \/ parents T' x = parents T x ++ [n]).
    { intros x Nx. rewrite (parents_nodes tg T') by auto. destruct (grown_parents_other _ _ _ x Gr Nx) as [E|[_ E]]; rewrite E, Pput by auto; auto. }
    assert (HD : forall x, x <> n -> D T' x = D T x).
    { intros x Nx. apply D_data. unfold data_of. rewrite En. pose proof (grown_attrs _ _ _ x Gr) as Ha. unfold attrs in Ha.
      unfold put in Ha. simpl in Ha. rewrite dget_dset, (proj2 (eqb_neq x n)) in Ha by auto.
      destruct (dget x (nodes T)); destruct (dget x (nodes tg)); inv Ha; simpl; congruence. }
    destruct (apt_ranks T' A') as [r R'].
    assert (R : ranks T root r).
    { apply (ranks_mono T'); auto. intros x q Hq. destruct (id_dec x n) as [->|Nx].
      - apply In_parents_live in Hq. congruence.
      - destruct (PP x Nx) as [->| ->]; auto. apply in_app_iff. auto. }
    destruct (synced_rank _ _ r Sy A R) as [[] F]. apply one_event.
    assert (Dn : D T n = false) by (destruct (D T n) eqn:X; auto; apply D_alive in X; congruence).
    eapply fwp_mono; [apply (S_down r (fun _ => False)); auto|].
    - intros x Hx. destruct (in_stale x Hx) as [|Dx]; auto. right. rewrite HD; auto. intros ->. congruence.
    - intros x Hx. destruct (id_dec x n) as [|Nx]; auto. rewrite HD in Hx by auto. auto.
    - intros x Hx _ Nx. rewrite HD in Hx by auto. rewrite in_pars by auto. fold (spv T x).
      assert (LP : forall p, In p (parents T x) -> D T' p = D T p).
      { intros p Hp. apply HD. intros ->. apply (vreg_live _ _ _ (a_reg _ A)) in Hp. congruence. }
      rewrite !spv_eq by auto. destruct fl; auto.
      destruct (PP x Nx) as [->| ->]; [left; rewrite (filter_D T T') by auto; auto|].
      rewrite filter_app, (filter_D T T' (parents T x)) by auto. simpl. destruct (D T' n) eqn:Dn'.
      + right. split; [|split; auto].
        * destruct (is_displayed s n) eqn:Di; auto. destruct (in_stale n Di); [contradiction|congruence].
        * assert (I : In n (filter (D T) (parents T x) ++ [n])) by (apply in_app_iff; simpl; auto).
          destruct (filter (D T) (parents T x) ++ [n]); auto.
      + left. rewrite app_nil_r. auto.
    - intros ? s' H'. exists r. split; auto. eapply S_mono; [|apply H']. simpl. tauto.
  Qed.

  (** *** Deletions *)
  Lemma D_del_edge : forall p c T x, D (del_edge p c T) x = D T x.
  Proof. intros. apply D_data. unfold data_of. rewrite dget_del_edge. destruct (dget x (nodes T)); auto. Qed.

  Lemma apt_del_edge : forall p c T, apt T -> apt (del_edge p c T).
  Proof.
    intros p c T A. apply (apt_frame T); auto; [|apply frame_del_edge].
    apply good_del_edge. apply goodx_weaken. apply (v_good _ (a_reg _ A)).
  Qed.

  Lemma ranks_del_edge : forall p c T r, ranks T root r -> ranks (del_edge p c T) root r.
  Proof. intros p c T r. apply ranks_mono. intros x q. rewrite parents_del_edge. deq x c; auto. intros I. eapply remove1_In; eauto. Qed.

  Lemma apt_pend : forall T, apt T -> pend_ok T.
  Proof. intros T A p c. apply (ok_pend _ (vreg_ok _ (a_reg _ A))). Qed.

  Lemma sync_cut : forall r n ps T s (U : id -> Prop), apt T -> ranks T root r -> kept r U T s ->
    (forall x, U x -> x = n \/ In x ps) ->
    apt (cut ps n T) /\ ranks (cut ps n T) root r /\
    fwp (feed_checked ord b (cut_events ps n T)) (fun _ s' => kept r (eq n) (cut ps n T) s') s.
  Proof.
    intros r n ps. induction ps as [|p ps IH]; intros T s U A R H HU; simpl.
    - split; auto. split; auto. eapply S_mono; [|apply H]. intros x Hx. destruct (HU x Hx); [auto|contradiction].
    - assert (A1 := apt_del_edge p n T A). assert (R1 := ranks_del_edge p n T r R).
      assert (H1 : kept r (fun x => U x \/ x = n) (del_edge p n T) s).
      { apply (S_move r U _ T); auto; [apply D_del_edge|]. intros x _ Nx. split; [tauto|]. rewrite parents_del_edge.
        rewrite (proj2 (eqb_neq x n)); auto. }
      pose proof (S_event r _ _ p s A1 R1 H1) as W.
      assert (HU' : forall x, (U x \/ x = n) /\ x <> p -> x = n \/ In x ps).
      { intros x [[Ux|E] Np]; auto. destruct (HU x Ux) as [|[E|]]; auto. congruence. }
      unfold fwp in W. destruct (ext_checked ord b (del_edge p n T) p s) as [s1 [[]|e|]] eqn:E1; try tauto.
      destruct (IH (del_edge p n T) s1 _ A1 R1 W HU') as (A2 & R2 & W2). split; auto. split; auto.
      apply cons_event. unfold fwp at 1. rewrite E1. auto.
  Qed.

  Lemma sync_unmention : forall r n T s U, apt T -> ranks T root r -> kept r U T s ->
    apt (unmention n T) /\ ranks (unmention n T) root r /\ kept r U (unmention n T) s.
  Proof.
    intros r n T s U A R H.
    assert (A' : apt (unmention n T)).
    { apply (apt_nodes T); auto. intros p c I. apply (apt_pend T A). unfold unmention in I. simpl in I. apply filter_In in I. tauto. }
    split; auto. split; [apply (ranks_mono T); auto|]. apply (S_move r U _ T); auto. intros. apply D_nodes. auto.
  Qed.

  Lemma sync_shed : forall r n l T s, apt T -> ranks T root r -> kept r (eq n) T s ->
    apt (shed n l T) /\ ranks (shed n l T) root r /\
    fwp (feed_checked ord b (shed_events n l T)) (fun _ s' => kept r (eq n) (shed n l T) s') s.
  Proof.
    intros r n l. induction l as [|c l IH]; intros T s A R H; simpl; [auto|].
    assert (A1 := apt_del_edge n c T A). assert (R1 := ranks_del_edge n c T r R).
    assert (H1 : kept r (fun x => n = x \/ x = c) (del_edge n c T) s).
    { apply (S_move r (eq n) _ T); auto; [apply D_del_edge|]. intros x _ Nx. split; [tauto|]. rewrite parents_del_edge.
      rewrite (proj2 (eqb_neq x c)); auto. }
    pose proof (S_event r _ _ c s A1 R1 H1) as W.
    unfold fwp in W. destruct (ext_checked ord b (del_edge n c T) c s) as [s1 [[]|e|]] eqn:E1; try tauto.
    assert (A2 : apt (shed1 n c T)).
    { apply (apt_nodes (del_edge n c T)); auto; [apply nodes_shed1|]. pose proof (apt_pend _ A1) as P.
      unfold shed1, orphan_root. destruct (parents (del_edge n c T) c); auto. }
    assert (PE : forall x, parents (shed1 n c T) x = parents (del_edge n c T) x) by (intros; apply parents_nodes, nodes_shed1).
    assert (R2 : ranks (shed1 n c T) root r) by (apply (ranks_mono (del_edge n c T)); auto; intros x p; rewrite PE; auto).
    assert (H2 : kept r (eq n) (shed1 n c T) s1).
    { apply (S_move r (fun x => (n = x \/ x = c) /\ x <> c) _ (del_edge n c T)); auto.
      - intros x. apply D_nodes, nodes_shed1.
      - intros x _ Nx. split; [tauto|auto]. }
    destruct (IH (shed1 n c T) s1 A2 R2 H2) as (A3 & R3 & W3). split; auto. split; auto.
    apply cons_event. unfold fwp at 1. rewrite E1. auto.
  Qed.

  Lemma spv_cases : forall T x p, apt T -> In p (spv T x) -> p = root \/ (D T p = true /\ In p (parents T x)).
  Proof.
    intros T x p A. rewrite spv_eq by auto. destruct fl; [intros [<-|[]]; auto|].
    destruct (filter (D T) (parents T x)) as [|y l] eqn:E; [intros [<-|[]]; auto|]. rewrite <- E. intros H. apply filter_In in H. tauto.
  Qed.

  Lemma sync_pop : forall r n T s, apt T -> ranks T root r -> kept r (eq n) T s ->
    (forall x, has_node T x = true -> x <> n -> ~ In n (parents T x)) ->
    apt (without n T) /\ ranks (without n T) root r /\
    fwp (ext_checked ord b (without n T) n) (fun _ s' => kept r (fun _ => False) (without n T) s') s.
  Proof.
    intros r n T s A R H HN. pose proof (vreg_ok _ (a_reg _ A)) as O. pose proof (ok_keys _ O) as ND.
    assert (A' : apt (without n T)).
    { apply (apt_frame T); auto.
      - unfold without. apply (good_pop true n (set_rootc (remove1 n (rootc T)) T)).
        + apply goodx_set_rootc. apply (v_good _ (a_reg _ A)).
        + intros c. destruct (id_dec c n) as [|Nc]; auto. left. intros I. apply (HN c); auto. apply In_parents_live in I. auto.
      - apply (frame_pop n T (set_rootc (remove1 n (rootc T)) T)); auto. }
    assert (HP : forall x, x <> n -> parents (without n T) x = parents T x).
    { intros x Nx. rewrite parents_without by auto. rewrite (proj2 (eqb_neq x n)); auto. }
    assert (R' : ranks (without n T) root r).
    { apply (ranks_mono T); auto. intros x p. rewrite parents_without by auto. deq x n; auto. simpl. tauto. }
    assert (HD : forall x, x <> n -> D (without n T) x = D T x).
    { intros x Nx. apply D_data. unfold data_of, without. simpl. rewrite dget_ddel by auto. rewrite (proj2 (eqb_neq x n)); auto. }
    assert (Dn' : D (without n T) n = false).
    { destruct (D (without n T) n) eqn:X; auto. apply D_alive in X. rewrite has_node_without, eqb_refl in X by auto. discriminate. }
    assert (Nd : forall x, D (without n T) x = true -> x <> n) by (intros x X ->; congruence).
    split; auto. split; auto. destruct (D T n) eqn:Dn.
    - apply (S_hide r T); auto. intros _. destruct H as [[Hb Hs Hf Hp] F]. pose proof (b_g _ _ _ _ _ Hb) as G.
      destruct (kids s n) as [|c l] eqn:Ek; auto. exfalso. assert (Hc : In c (kids s n)) by (rewrite Ek; left; auto).
      destruct (gb_ch _ _ _ _ _ G n c Hc) as [Dc Rc]. apply (gb_sym _ _ _ _ _ G) in Hc; auto.
      destruct (Hs c Dc) as [->|DDc]; [rewrite (gb_top _ _ _ _ _ G) in Hc; destruct Hc|].
      assert (Nc : c <> n) by (intros ->; lia). rewrite Hp in Hc; auto. apply (spv_cases T) in Hc; auto.
      destruct Hc as [->|[_ Hc]]; [|apply (HN c); auto; apply D_alive; auto].
      apply D_alive in Dn. rewrite (a_root _ A) in Dn. discriminate.
    - eapply fwp_mono; [apply (S_event r (eq n)); auto|].
      + apply (S_move r (eq n) _ T); auto. intros x. destruct (id_dec x n) as [->|Nx]; [congruence|auto].
      + intros ? s' H'. eapply S_mono; [|apply H']. simpl. intros x [E N]. auto.
  Qed.

  Lemma sync_del_one : forall n T T' es s, apt T -> del_node n false T = (T', es, Ok tt) -> synced T s ->
    apt T' /\ fwp (feed_checked ord b es) (fun _ s' => synced T' s') s.
  Proof.
    intros n T T' es s A E (r & R & H). destruct (has_node T n) eqn:Hn.
    2:{ rewrite del_dead in E by auto. inv E. split; auto. exists r. auto. }
    pose proof (v_good _ (a_reg _ A)) as G.
    assert (LC : forall c, In c (childs T n) -> has_node T c = true).
    { intros c Hc. destruct (has_node T c) eqn:X; auto. exfalso.
      assert (K : snd (del_node n false T) = Err KeyError) by (apply (del_one_err true); auto; exists c; auto).
      rewrite E in K. discriminate. }
    rewrite (del_one true) in E by auto. inv E.
    destruct (sync_unmention r n T s _ A R H) as (A1 & R1 & H1).
    destruct (sync_cut r n (evens (parents T n)) (unmention n T) s _ A1 R1 H1) as (A2 & R2 & W2); [tauto|].
    fold (detached n T) in A2, R2, W2.
    unfold fwp in W2. destruct (feed_checked ord b (cut_events (evens (parents T n)) n (unmention n T)) s) as [s1 [[]|e|]] eqn:E1; try tauto.
    destruct (sync_shed r n (childs T n) (detached n T) s1 A2 R2 W2) as (A3 & R3 & W3).
    fold (shedded n T) in A3, R3, W3.
    unfold fwp in W3. destruct (feed_checked ord b (shed_events n (childs T n) (detached n T)) s1) as [s2 [[]|e|]] eqn:E2; try tauto.
    destruct (sync_pop r n (shedded n T) s2 A3 R3 W3) as (A4 & R4 & W4).
    { intros x Hx Nx. unfold shedded in Hx. rewrite has_node_shed, has_node_detached in Hx.
      rewrite (parents_shedded true) by auto. intros I. apply remove1_iff in I; [tauto|]. apply (ok_ndp _ (vreg_ok _ (a_reg _ A))). }
    split; auto. apply feed_checked_app. unfold fwp at 1. rewrite E1. apply feed_checked_app. unfold fwp at 1. rewrite E2.
    apply one_event. eapply fwp_mono; [apply W4|]. intros ? s3 H3. exists r. auto.
  Qed.

  (** *** Recursive deletions *)
  Definition dkept (r : id -> nat) (U : id -> Prop) (T : mtree) (s : ft) : Prop := dsync T (D T) root fl r U s /\ filters s = fs.
  Definition fresh (T : mtree) (s : ft) (n : id) : Prop := FtGhost.fresh T (D T) root fl s n.

  Lemma dkept_start : forall r T s, kept r (fun _ => False) T s -> dkept r (fun _ => False) T s.
  Proof. intros r T s [H F]. split; auto. constructor; auto. intros x p Dx Hp. right. rewrite (in_pars _ _ _ _ _ _ _ H); auto. Qed.

  (** Relations went away, and the parents of the nodes of [U'] with them. *)
  Lemma DS_move : forall r (U U' : id -> Prop) T T' s, dkept r U T s -> apt T -> apt T' ->
    (forall x, D T' x = D T x) -> (forall x, D T x = true -> ~ U' x -> ~ U x /\ parents T' x = parents T x) ->
    (forall x p, In p (parents T' x) -> In p (parents T x)) -> dkept r U' T' s.
  Proof.
    intros r U U' T T' s [[I M] F] A A' HD HP HI. destruct (S_move r U U' T T' s (conj I F) A A' HD HP) as [I' _]. split; auto.
    constructor; auto. intros x p Dx Hp. fold (spv T' x) in Hp. rewrite HD in Dx. assert (Hp' : p = root \/ In p (spv T x)).
    { rewrite spv_eq in Hp by auto. rewrite spv_eq by auto. destruct fl; [destruct Hp as [<-|[]]; auto|].
      destruct (filter (D T') (parents T' x)) as [|y l] eqn:E; [destruct Hp as [<-|[]]; auto|]. rewrite <- E in Hp.
      apply filter_In in Hp. destruct Hp as [H1 H2]. right. assert (H3 : In p (filter (D T) (parents T x))) by (apply filter_In; split; auto; rewrite <- HD; auto).
      destruct (filter (D T) (parents T x)); auto. }
    destruct Hp' as [|Hp']; auto.
  Qed.

  Lemma dsync_ear : forall (E1 E2 : Ear) T D root fl r U s, (@ear_one E2 -> lone_ch (kids s)) -> @heeds E2 s -> @dsync E1 T D root fl r U s -> @dsync E2 T D root fl r U s.
  Proof. intros E1 E2 T D0 root0 fl0 r U s H1 H []. constructor; auto. apply (insync_ear E1 E2); auto. Qed.

  Lemma DS_event : forall r (U : id -> Prop) T n s, apt T -> ranks T root r -> dkept r U T s ->
    fwp (ext_checked ord b T n) (fun _ s' => dkept r U T s' /\ moves T (D T) root fl s s' /\ (D T n = true -> fresh T s' n)) s.
  Proof.
    intros r U T n s A R [H F]. pose proof (in_base _ _ _ _ _ _ _ (ds_in _ _ _ _ _ _ _ H)) as HB.
    apply (ext_eq r); auto; [apply (ahead_stale r); auto; apply H|].
    eapply fwp_mono; [apply (ev_both ord T (D T) root fl r (apt_env T r s A R)) with (U := U)|].
    - apply vreg_Hsym; [apply A|apply D_alive].
    - apply vreg_Hlive. apply A.
    - apply (dsync_ear any_ear); [intros []; auto|apply heeds_tree|apply H].
    - intros ? s' (H1 & H2 & H3). split; [eapply insync_heeds; apply (ds_in _ _ _ _ _ _ _ H1)|]. split; [|auto]. split.
      + apply (dsync_ear (ear T s)); [intros []|apply heeds_any|apply H1].
      + rewrite (mv_filters _ _ _ _ _ _ H2). auto.
  Qed.

  (** What does not change at the nodes of a rank less than [k]. *)
  Record near (r : id -> nat) (k : nat) (T : mtree) (s : ft) (T' : mtree) (s' : ft) : Prop := {
    nr_D : forall x, r x < k -> D T' x = D T x;
    nr_par : forall x, r x < k -> parents T' x = parents T x;
    nr_view : forall x, r x < k -> pars s' x = pars s x \/ pars s' x = spv T' x
  }.

  Lemma nr_sp : forall r k T s T' s' x, apt T -> apt T' -> ranks T root r -> near r k T s T' s' -> r x < k -> spv T' x = spv T x.
  Proof.
    intros r k T s T' s' x A A' R H Hx. rewrite !spv_eq by auto. rewrite (nr_par _ _ _ _ _ _ H x Hx).
    rewrite (filter_D T T'); auto. intros p Hp. apply (nr_D _ _ _ _ _ _ H). apply R in Hp. lia.
  Qed.

  Lemma nr_mono : forall r k k' T s T' s', k' <= k -> near r k T s T' s' -> near r k' T s T' s'.
  Proof. intros r k k' T s T' s' Hk []. constructor; intros; [apply nr_D0|apply nr_par0|apply nr_view0]; lia. Qed.

  Lemma nr_trans : forall r k T1 s1 T2 s2 T3 s3, apt T2 -> apt T3 -> ranks T2 root r -> near r k T1 s1 T2 s2 -> near r k T2 s2 T3 s3 -> near r k T1 s1 T3 s3.
  Proof.
    intros r k T1 s1 T2 s2 T3 s3 A2 A3 R2 H1 H2. constructor; intros x Hx.
    - rewrite (nr_D _ _ _ _ _ _ H2), (nr_D _ _ _ _ _ _ H1); auto.
    - rewrite (nr_par _ _ _ _ _ _ H2), (nr_par _ _ _ _ _ _ H1); auto.
    - destruct (nr_view _ _ _ _ _ _ H2 x Hx) as [->|]; auto. rewrite (nr_sp _ _ _ _ _ _ x A2 A3 R2 H2 Hx). apply (nr_view _ _ _ _ _ _ H1 x Hx).
  Qed.

  Lemma nr_moves : forall r k T s s', moves T (D T) root fl s s' -> near r k T s T s'.
  Proof. intros r k T s s' M. constructor; auto. intros x _. destruct (mv_pars _ _ _ _ _ _ M x) as [|[]]; auto. Qed.

  Lemma nr_tree : forall r k T T' s, (forall x, r x < k -> D T' x = D T x) -> (forall x, r x < k -> parents T' x = parents T x) -> near r k T s T' s.
  Proof. intros. constructor; auto. Qed.

  Lemma spv_root : forall T, apt T -> spv T root = [root].
  Proof.
    intros T A. rewrite spv_eq by auto. destruct fl; auto.
    assert (E : parents T root = []) by (unfold parents; rewrite has_node_none; auto; apply A). rewrite E. auto.
  Qed.

  Lemma spv_rank : forall T r x p, apt T -> ranks T root r -> In p (spv T x) -> r p < r x \/ (x = root /\ p = root).
  Proof.
    intros T r x p A R Hp. destruct (id_dec x root) as [->|N].
    - rewrite spv_root in Hp by auto. destruct Hp as [<-|[]]. auto.
    - left. apply (sp_rank ord T (D T) root fl r (apt_env_any T r A R)); auto.
  Qed.

  Lemma vup_root : forall T a x, apt T -> vup T (D T) root fl a x -> x = root -> a = root.
  Proof.
    intros T a x A H. induction H as [|p x Hp H IH]; intros ->; auto. fold (spv T root) in Hp. rewrite spv_root in Hp by auto.
    destruct Hp as [<-|[]]. auto.
  Qed.

  Lemma vup_rank : forall T r a x, apt T -> ranks T root r -> vup T (D T) root fl a x -> r a <= r x.
  Proof.
    intros T r a x A R H. induction H as [|p x Hp H IH]; auto. apply (spv_rank T r) in Hp; auto. destruct Hp as [Hp|[-> ->]]; auto. lia.
  Qed.

  Lemma nr_fresh : forall r k T s T' s' p, apt T -> apt T' -> ranks T root r -> near r k T s T' s' -> r p < k -> fresh T s p -> fresh T' s' p.
  Proof.
    intros r k T s T' s' p A A' R N Hp H a Ha Da.
    assert (V : r p < k -> vup T (D T) root fl a p).
    { clear Hp H. induction Ha as [|q x Hq Ha IH]; intros Hx; [apply vu_refl|]. fold (spv T' x) in Hq.
      rewrite (nr_sp r k T s T' s') in Hq by auto. apply vu_step with (p := q); auto. apply IH.
      apply (spv_rank T r) in Hq; auto. destruct Hq as [Hq|[-> ->]]; auto. lia. }
    specialize (V Hp). assert (Ra : r a < k) by (pose proof (vup_rank T r a p A R V); lia).
    fold (spv T' a). rewrite (nr_D _ _ _ _ _ _ N) in Da by auto. specialize (H a V Da). fold (spv T a) in H.
    destruct (nr_view _ _ _ _ _ _ N a Ra) as [->|]; auto. rewrite (nr_sp r k T s T' s') by auto. auto.
  Qed.

  Lemma anc_dec : forall T r a, ranks T root r -> forall k x, r x < k -> anc T a x \/ ~ anc T a x.
  Proof.
    intros T r a R. induction k as [|k IH]; intros x Hk; [lia|]. destruct (id_dec x a) as [->|N]; [left; apply anc_refl|].
    assert (X : (exists p, In p (parents T x) /\ anc T a p) \/ ~ (exists p, In p (parents T x) /\ anc T a p)).
    { assert (Hr : forall p, In p (parents T x) -> r p < k) by (intros p Hp; apply R in Hp; lia). clear Hk N.
      induction (parents T x) as [|p l IHl]; [right; intros (p & [] & _)|].
      destruct (IH p) as [Hp|Hp]; [apply Hr; left; auto|left; exists p; simpl; auto|].
      destruct IHl as [(q & Hq & Hq')|Hl]; [intros; apply Hr; right; auto|left; exists q; simpl; auto|].
      right. intros (q & [<-|Hq] & Hq'); auto. apply Hl. exists q. auto. }
    destruct X as [(p & Hp & Hp')|X]; [left; eapply anc_step; eauto|]. right. intros H. inversion H; subst; [contradiction|]. apply X. eauto.
  Qed.

  Section Below.
    Variable r : id -> nat.
    Variable T0 : mtree.
    Variable n0 : id.
    Hypothesis R0 : ranks T0 root r.
    Hypothesis TM : tame T0 n0.

    (** Where the deletion of [n0] has got to. [U]: the nodes that are being deleted. *)
    Record stage (U : id -> Prop) (T : mtree) : Prop := {
      sg_apt : apt T;
      sg_ranks : ranks T root r;
      sg_incl : forall x p, In p (parents T x) -> In p (parents T0 x);
      sg_same : forall x, has_node T x = true -> U x \/ parents T x = parents T0 x;
      sg_low : forall x, U x -> anc T0 n0 x
    }.

    Lemma cut_step : forall n (U : id -> Prop) ps T s, apt T -> ranks T root r -> U n -> dkept r U T s -> (forall p, In p ps -> r p < r n) ->
      apt (cut ps n T) /\ ranks (cut ps n T) root r /\
      fwp (feed_checked ord b (cut_events ps n T)) (fun _ s' => dkept r U (cut ps n T) s' /\ near r (r n) T s (cut ps n T) s' /\
        (forall p, In p ps -> D T p = true -> fresh (cut ps n T) s' p) /\
        (forall q, In q (pars s' n) -> In q (pars s n) \/ q = root \/ In q (parents T n))) s.
    Proof.
      intros n U ps. induction ps as [|p ps IH]; intros T s A R Un H Hr; simpl.
      - split; auto. split; auto. cbn. split; auto. split; [apply nr_tree; auto|]. split; [intros p []|auto].
      - assert (A1 := apt_del_edge p n T A). assert (R1 := ranks_del_edge p n T r R).
        assert (Eo : forall x, x <> n -> parents (del_edge p n T) x = parents T x).
        { intros x Nx. rewrite parents_del_edge, (proj2 (eqb_neq x n)) by auto. auto. }
        assert (Ei : forall x q, In q (parents (del_edge p n T) x) -> In q (parents T x)).
        { intros x q. rewrite parents_del_edge. deq x n; auto. intros I. eapply remove1_In; eauto. }
        assert (H1 : dkept r U (del_edge p n T) s).
        { apply (DS_move r U _ T); auto; [apply D_del_edge|]. intros x _ Nx. split; auto. apply Eo. intros ->. auto. }
        pose proof (DS_event r U _ p s A1 R1 H1) as W.
        unfold fwp in W. destruct (ext_checked ord b (del_edge p n T) p s) as [s1 [[]|e|]] eqn:E1; try tauto. destruct W as (H2 & M2 & F2).
        destruct (IH (del_edge p n T) s1 A1 R1 Un H2) as (A2 & R2 & W2); [intros; apply Hr; right; auto|].
        split; auto. split; auto. apply cons_event. unfold fwp at 1. rewrite E1. eapply fwp_mono; [apply W2|].
        intros ? s2 (H3 & N3 & F3 & I3). split; auto.
        assert (N1 : near r (r n) T s (del_edge p n T) s1).
        { apply (nr_trans r _ T s (del_edge p n T) s); auto; [|apply nr_moves; auto].
          apply nr_tree; [intros; apply D_del_edge|]. intros x Hx. apply Eo. intros ->. lia. }
        split; [apply (nr_trans r _ T s (del_edge p n T) s1); auto|]. split.
        + intros q [<-|Hq] Dq.
          * apply (nr_fresh r (r n) (del_edge p n T) s1); auto. apply F2. rewrite D_del_edge. auto.
          * apply F3; auto. rewrite D_del_edge. auto.
        + intros q Hq. destruct (I3 q Hq) as [Hq1|[|Hq1]]; eauto.
          destruct (mv_pars _ _ _ _ _ _ M2 n) as [E|[E _]]; rewrite E in Hq1; auto.
          apply (spv_cases (del_edge p n T)) in Hq1; auto. destruct Hq1 as [|[_ Hq1]]; eauto.
    Qed.

    Lemma pop_step : forall n (U : id -> Prop) T s, apt T -> ranks T root r -> dkept r (fun x => U x \/ x = n) T s -> has_node T n = true ->
      (forall x, U x -> r x < r n) -> (forall x, U x -> anc T0 n0 x) -> anc T0 n0 n ->
      (forall x p, In p (parents T x) -> In p (parents T0 x)) ->
      (forall x, has_node T x = true -> x <> n -> ~ In n (parents T x)) ->
      (D T n = true -> forall p, In p (pars s n) -> p = root \/ (In p (parents T0 n) /\ (odd_parent T0 n p \/ fresh T s p))) ->
      apt (without n T) /\ ranks (without n T) root r /\
      fwp (ext_checked ord b (without n T) n) (fun _ s' => dkept r U (without n T) s' /\ near r (r n) T s (without n T) s') s.
    Proof.
      intros n U T s A R H Hn Ur Ua Na Hi HN HC. pose proof (vreg_ok _ (a_reg _ A)) as O. pose proof (ok_keys _ O) as ND.
      assert (A' : apt (without n T)).
      { apply (apt_frame T); auto.
        - unfold without. apply (good_pop true n (set_rootc (remove1 n (rootc T)) T)).
          + apply goodx_set_rootc. apply (v_good _ (a_reg _ A)).
          + intros c. destruct (id_dec c n) as [|Nc]; auto. left. intros I. apply (HN c); auto. apply In_parents_live in I. auto.
        - apply (frame_pop n T (set_rootc (remove1 n (rootc T)) T)); auto. }
      assert (HP : forall x, x <> n -> parents (without n T) x = parents T x).
      { intros x Nx. rewrite parents_without by auto. rewrite (proj2 (eqb_neq x n)); auto. }
      assert (HI : forall x p, In p (parents (without n T) x) -> In p (parents T x)).
      { intros x p. rewrite parents_without by auto. deq x n; auto. simpl. tauto. }
      assert (R' : ranks (without n T) root r) by (apply (ranks_mono T); auto).
      assert (HD : forall x, x <> n -> D (without n T) x = D T x).
      { intros x Nx. apply D_data. unfold data_of, without. simpl. rewrite dget_ddel by auto. rewrite (proj2 (eqb_neq x n)); auto. }
      assert (Dn' : D (without n T) n = false).
      { destruct (D (without n T) n) eqn:X; auto. apply D_alive in X. rewrite has_node_without, eqb_refl in X by auto. discriminate. }
      assert (Nd : forall x, D (without n T) x = true -> x <> n) by (intros x X ->; congruence).
      assert (N1 : near r (r n) T s (without n T) s).
      { apply nr_tree; intros x Hx; [apply HD|apply HP]; intros ->; lia. }
      split; auto. split; auto. destruct (D T n) eqn:Dn.
      - specialize (HC eq_refl). destruct H as [[[Hb Hs Hf Hp] Hm] F].
        pose proof (b_g _ _ _ _ _ Hb) as G.
        assert (Nn : n <> root) by (intros ->; rewrite (a_root _ A) in Hn; discriminate).
        assert (SE : forall x, D (without n T) x = true -> spv (without n T) x = spv T x).
        { intros x Dx. pose proof (Nd x Dx) as Nx. rewrite !spv_eq by auto. rewrite HP by auto. rewrite (filter_D T (without n T)); auto.
          intros p Hp'. apply HD. intros ->. apply (HN x); auto. rewrite HD in Dx by auto. apply D_alive. auto. }
        assert (PS : forall x, D (without n T) x = true -> ~ U x -> pars s x = spv (without n T) x).
        { intros x Dx Ux. rewrite SE by auto. pose proof (Nd x Dx) as Nx. rewrite HD in Dx by auto. apply Hp; auto. tauto. }
        assert (CL : forall p, In p (pars s n) -> (odd_parent T0 n p /\ anc T0 n0 p) \/ clean0 (without n T) (D (without n T)) root fl s p).
        { intros p Hp'. assert (Rp : r p < r n) by (apply (gb_pars _ _ _ _ _ G); auto).
          assert (Dp : p = root \/ D (without n T) p = true).
          { assert (Dip : is_displayed s p = true) by (apply (gb_sym _ _ _ _ _ G) in Hp'; auto; eapply kids_disp; eauto).
            destruct (Hs p Dip) as [|Dp]; auto. right. rewrite HD; auto. intros ->. lia. }
          pose proof (fresh_clean ord (without n T) (D (without n T)) root fl r (apt_env_any _ r A' R') s p (gb_top _ _ _ _ _ G)) as FC.
          destruct (HC p Hp') as [E|[Hpar [Od|Fr]]].
          - right. apply FC. auto.
          - destruct (anc_dec T0 r n0 R0 (S (r p)) p) as [Ap|Ap]; [lia|left; auto|]. right. apply FC. destruct Dp as [|Dp]; auto. right. split; auto.
            intros a Va Da. apply PS; auto. intros Ua'. apply Ap.
            apply Ua in Ua'. clear -Va Ua' A' Hi HI Ap Da. revert Ap. induction Va as [|q x Hq Va IH]; intros Ap; auto.
            apply (spv_cases (without n T)) in Hq; auto. destruct Hq as [->|[Dq Hq]].
            + exfalso. assert (E : a = root); [|subst; apply D_alive in Da; rewrite (a_root _ A') in Da; discriminate].
              eapply (vup_root (without n T)); eauto.
            + eapply anc_step; [apply Hi; apply HI; apply Hq|]. apply IH. intros X. apply Ap. eapply anc_step; [apply Hi; apply HI; apply Hq|auto].
          - right. apply FC. destruct Dp as [|Dp]; auto. right. split; auto. apply (nr_fresh r (r n) T s (without n T) s p); auto. }
        assert (KN : kids s n = []).
        { destruct (kids s n) as [|c l] eqn:Ek; auto. exfalso. assert (Hc : In c (kids s n)) by (rewrite Ek; left; auto).
          destruct (gb_ch _ _ _ _ _ G n c Hc) as [Dc Rc]. apply (gb_sym _ _ _ _ _ G) in Hc; auto.
          destruct (Hs c Dc) as [->|DDc]; [rewrite (gb_top _ _ _ _ _ G) in Hc; destruct Hc|].
          assert (Nc : c <> n) by (intros ->; lia).
          rewrite Hp in Hc; auto; [|intros [Uc|]; [apply Ur in Uc; lia|auto]]. apply (spv_cases T) in Hc; auto.
          destruct Hc as [|[_ Hc]]; auto. apply (HN c); auto. apply D_alive. auto. }
        assert (GS : forall x, is_displayed s x = true -> x = root \/ x = n \/ D (without n T) x = true).
        { intros x Hx. destruct (id_dec x n) as [|Nx]; auto. destruct (Hs x Hx) as [|Dx]; auto. rewrite HD; auto. }
        apply (ext_eq r); auto.
        { split; auto. intros x Hx. destruct (GS x Hx) as [|[|Dx]]; auto. right. right. apply D_alive. auto. }
        eapply fwp_mono; [apply (ev_gone ord (without n T) (D (without n T)) root fl r (apt_env _ r s A' R')) with (U := U); auto|].
        + apply vreg_Hsym; [apply A'|apply D_alive].
        + apply vreg_Hlive. apply A'.
        + apply (base_ear any_ear (ear (without n T) s)) in Hb; [|intros []; auto|apply heeds_tree]. constructor; auto.
          * rewrite has_node_without, eqb_refl by auto. auto.
          * intros x Dx. apply Hf. rewrite <- HD; auto.
          * intros x p Dx Hp'. fold (spv (without n T) x) in Hp'. rewrite SE in Hp' by auto. apply Hm; auto. rewrite <- HD; auto.
          * intros l1 p l2 El. assert (Ip : In p (pars s n)) by (rewrite El; apply in_app_iff; right; left; auto).
            destruct (CL p Ip) as [[Op Ap]|]; auto. right. intros q Hq.
            assert (Iq : In q (pars s n)) by (rewrite El; apply in_app_iff; right; right; auto).
            destruct (CL q Iq) as [[Oq Aq]|]; auto. exfalso. assert (E : p = q) by (apply (TM n p q); auto). subst q.
            pose proof (gb_ndp _ _ _ _ _ G n) as NDp. rewrite El in NDp. apply NoDup_remove_2 in NDp. apply NDp. apply in_app_iff. auto.
        + intros ? s' (H1 & H2 & H3). split; [eapply insync_heeds; apply (ds_in _ _ _ _ _ _ _ H1)|]. split; [split|].
          * apply (dsync_ear (ear (without n T) s)); [intros []|apply heeds_any|apply H1].
          * congruence.
          * destruct N1. constructor; auto. intros x Hx. destruct (H3 x) as [|[]]; auto. intros ->. lia.
      - assert (H' : dkept r U (without n T) s).
        { apply (DS_move r (fun x => U x \/ x = n) _ T); auto.
          - intros x. destruct (id_dec x n) as [->|Nx]; [congruence|auto].
          - intros x Dx Ux. assert (Nx : x <> n) by (intros ->; congruence). split; [tauto|auto]. }
        eapply fwp_mono; [apply (DS_event r U); auto|]. intros ? s' (H1 & H2 & _). split; auto.
        apply (nr_trans r _ T s (without n T) s); auto. apply nr_moves. auto.
    Qed.

    Definition rec_claim (f : nat) : Prop := forall n T T' es s (U : id -> Prop), stage U T -> (forall x, U x -> r x < r n) -> anc T0 n0 n ->
      remove_node f n true T = (T', es, Ok tt) -> dkept r U T s ->
      apt T' /\ ranks T' root r /\ fwp (feed_checked ord b es) (fun _ s' => dkept r U T' s' /\ near r (r n) T s T' s') s.

    Lemma anc_frame : forall T T' a x, MainRegDel.frame T T' -> anc T' a x -> anc T a x.
    Proof. intros T T' a x F. apply anc_incl. intros y p. apply frame_parents_In. auto. Qed.

    Lemma sync_children : forall f n l Td T T' es s (U : id -> Prop), rec_claim f -> stage U T -> U n -> (forall x, U x -> r x <= r n) ->
      good true Td -> MainRegDel.frame Td T -> same_parents Td T -> has_node T n = true ->
      (forall c, In c l -> has_node Td c = true -> In n (parents Td c)) ->
      for_each l (fun c => remove_node f c true) T = (T', es, Ok tt) -> dkept r U T s ->
      stage U T' /\ has_node T' n = true /\ same_parents Td T' /\ MainRegDel.frame Td T' /\
      (forall c, In c l -> has_node T' c = false) /\
      fwp (feed_checked ord b es) (fun _ s' => dkept r U T' s' /\ near r (S (r n)) T s T' s') s.
    Proof.
      intros f n l Td. induction l as [|c l IH]; intros T T' es s U HC SG Un Ur G0 F SP Hn Hl E H.
      { simpl in E. inv E. split; auto. split; auto. split; auto. split; auto. split; [intros c []|]. cbn. split; auto. apply nr_tree; auto. }
      cbn [for_each] in E. unfold bind in E.
      destruct (remove_node f c true T) as [[T1 e1] [[]|e|]] eqn:E1; try discriminate.
      destruct (for_each l (fun c => remove_node f c true) T1) as [[T2 e2] r2] eqn:E2. inv E.
      pose proof (sg_apt _ _ SG) as A. pose proof (sg_ranks _ _ SG) as R.
      pose proof (v_good _ (a_reg _ A)) as G.
      assert (He : has_node T "" = false) by apply (v_empty _ (a_reg _ A)).
      pose proof (remove_node_rec_rm true f c T G) as RM. unfold wp in RM. rewrite E1 in RM. destruct RM as (G1 & _ & _ & RM).
      destruct (RM eq_refl) as [Dead SP1]. clear RM.
      pose proof (framed_remove_node f c true T (ok_keys _ (g_ok _ _ _ G))) as FR. unfold wp in FR. rewrite E1 in FR.
      pose proof (remove_lost f c T G He) as LO. unfold wp in LO. rewrite E1 in LO.
      assert (F1 : MainRegDel.frame T T1) by (apply FR).
      assert (Step : apt T1 /\ ranks T1 root r /\ has_node T1 n = true /\
        fwp (feed_checked ord b e1) (fun _ s' => dkept r U T1 s' /\ near r (S (r n)) T s T1 s') s).
      { destruct (has_node T c) eqn:Hc.
        - assert (Pc : In n (parents T c)).
          { rewrite SP by auto. apply Hl; [left; auto|]. eapply frame_has; eauto. }
          assert (Rc : r n < r c) by (apply R; auto).
          assert (Anc : anc T n c) by (eapply anc_step; [apply Pc|apply anc_refl]).
          destruct (HC c T T1 e1 s U SG) as (A1 & R1 & W1); auto.
          { intros x Ux. apply Ur in Ux. lia. }
          { eapply anc_step; [apply (sg_incl _ _ SG); apply Pc|]. apply (sg_low _ _ SG). auto. }
          split; auto. split; auto. split.
          + destruct (has_node T1 n) eqn:X; auto. exfalso. pose proof (LO n Hn X) as Bad.
            assert (n = c) by (eapply (anc_antisym T); [apply (g_ok _ _ _ G)|apply Anc|apply Bad]). subst c.
            eapply ok_not_own_parent; [apply (g_ok _ _ _ G)|eauto].
          + eapply fwp_mono; [apply W1|]. intros ? s1 [H1 N1]. split; auto. eapply nr_mono; [|apply N1]. lia.
        - assert (Nop : remove_node f c true T = (T, [], Ok tt)) by (destruct f; cbn [remove_node]; rewrite bind_get, Hc; reflexivity).
          rewrite Nop in E1. inv E1. split; auto. split; auto. split; auto. cbn. split; auto. apply nr_tree; auto. }
      destruct Step as (A1 & R1 & Hn1 & W1).
      unfold fwp in W1. destruct (feed_checked ord b e1 s) as [s1 [[]|e|]] eqn:Ef; try tauto. destruct W1 as [H1 N1].
      assert (SP' : same_parents Td T1).
      { intros x Hx. rewrite SP1 by auto. apply SP. eapply frame_has; eauto. }
      assert (SG1 : stage U T1).
      { destruct SG. constructor; auto.
        - intros x p Hp. apply sg_incl0. eapply frame_parents_In; eauto.
        - intros x Hx. rewrite SP1 by auto. apply sg_same0. eapply frame_has; eauto. }
      destruct (IH T1 T' e2 s1 U HC SG1 Un Ur G0) as (SG2 & Hn2 & SP2 & F2 & Dead2 & W2); auto.
      { eapply frame_trans; eauto. }
      split; auto. split; auto. split; auto. split; auto. split.
      - intros x [<-|Hx]; auto. destruct (has_node T' c) eqn:X; auto. exfalso.
        pose proof (framed_for_each _ l (fun c => remove_node f c true) (fun x => framed_remove_node f x true) T1) as FF.
        unfold wp in FF. rewrite E2 in FF. destruct (FF (ok_keys _ (g_ok _ _ _ G1))) as [_ [FF' _]].
        simpl in FF'. apply (frame_has _ _ _ FF') in X. simpl in Dead. rewrite Dead in X by (left; auto). discriminate.
      - apply feed_checked_app. unfold fwp at 1. rewrite Ef. eapply fwp_mono; [apply W2|]. intros ? s2 [H2 N2]. split; auto.
        apply (nr_trans r _ T s T1 s1); auto. apply SG2.
    Qed.

    Lemma odds_odd : forall (l : list id) p, In p (odds l) -> exists i, nth_error l (2 * i + 1) = Some p.
    Proof.
      induction l as [|x|x y l IH] using pair_ind; cbn [odds In]; intros p Hp; try tauto. destruct Hp as [<-|Hp]; [exists 0; auto|].
      destruct (IH p Hp) as [i Hi]. exists (S i). replace (2 * S i + 1) with (S (S (2 * i + 1))) by lia. exact Hi.
    Qed.

    Lemma sync_remove : forall f, rec_claim f.
    Proof.
      induction f as [|f IH]; intros n T T' es s U SG Ur Na E H; pose proof (sg_apt _ _ SG) as A; pose proof (sg_ranks _ _ SG) as R.
      { destruct (has_node T n) eqn:Hn.
        - rewrite (remove_node_unfold true) in E by (auto; apply (v_good _ (a_reg _ A))). discriminate.
        - cbn [remove_node] in E. rewrite bind_get, Hn in E. inv E. split; auto. split; auto. cbn. split; auto. apply nr_tree; auto. }
      destruct (has_node T n) eqn:Hn.
      2:{ cbn [remove_node] in E. rewrite bind_get, Hn in E. inv E. split; auto. split; auto. cbn. split; auto. apply nr_tree; auto. }
      pose proof (v_good _ (a_reg _ A)) as G.
      assert (Un : ~ U n) by (intros X; apply Ur in X; lia).
      assert (Pn : parents T n = parents T0 n) by (destruct (sg_same _ _ SG n Hn); tauto).
      rewrite (remove_node_unfold true) in E by auto.
      set (V := fun x => U x \/ x = n).
      destruct (sync_unmention r n T s (fun _ => True) A R) as (A1 & R1 & _).
      { destruct H as [[I _] F]. eapply S_mono; [|split; [apply I|apply F]]. auto. }
      assert (Hu : dkept r V (unmention n T) s).
      { apply (DS_move r U _ T); auto. intros. apply D_nodes; auto. intros x _ Vx. unfold V in Vx. split; [tauto|]. apply parents_nodes. auto. }
      destruct (cut_step n V (evens (parents T n)) (unmention n T) s A1 R1) as (A2 & R2 & W2); auto.
      { right. auto. }
      { intros p Hp. apply evens_incl in Hp. apply R. auto. }
      fold (detached n T) in A2, R2, W2.
      unfold fwp in W2. destruct (feed_checked ord b (cut_events (evens (parents T n)) n (unmention n T)) s) as [s1 [[]|e|]] eqn:E1; try tauto.
      destruct W2 as (H2 & N2 & F2 & I2).
      unfold prefix, children_part in E. unfold bind in E.
      destruct (for_each (childs T n) (fun c => remove_node f c true) (detached n T)) as [[T1 e1] [[]|e|]] eqn:E2; try discriminate.
      assert (Gd : good true (detached n T)) by (apply good_detached; auto).
      assert (SGd : stage V (detached n T)).
      { destruct SG. constructor; auto.
        - intros x p Hp. destruct (id_dec x n) as [->|Nx].
          + rewrite (parents_detached_self true) in Hp by auto. apply odds_incl in Hp. auto.
          + rewrite parents_detached_other in Hp by auto. auto.
        - intros x Hx. rewrite has_node_detached in Hx. unfold V. destruct (id_dec x n) as [->|Nx]; auto. rewrite parents_detached_other by auto.
          destruct (sg_same0 x Hx); auto.
        - intros x [Ux| ->]; auto. }
      destruct (sync_children f n (childs T n) (detached n T) (detached n T) T1 e1 s1 V IH SGd) as (SG3 & Hn3 & SP3 & F3 & Dead & W3); auto.
      { right. auto. }
      { intros x [Ux| ->]; auto. apply Ur in Ux. lia. }
      { apply frame_refl. }
      { intros x Hx. auto. }
      { rewrite has_node_detached. auto. }
      { intros c Hc Hl. rewrite has_node_detached in Hl. assert (Pc : In n (parents T c)) by (apply listed_parent; auto; apply (v_empty _ (a_reg _ A))).
        rewrite parents_detached_other; auto. intros ->. eapply ok_not_own_parent; [apply (g_ok _ _ _ G)|eauto]. }
      rewrite tail_Ok in E by auto. fold (without n T1) in E. simpl in E. inv E.
      unfold fwp in W3. destruct (feed_checked ord b e1 s1) as [s2 [[]|e|]] eqn:E3; try tauto. destruct W3 as [H3 N3].
      pose proof (sg_apt _ _ SG3) as A3. pose proof (sg_ranks _ _ SG3) as R3.
      destruct (pop_step n U T1 s2 A3 R3 H3) as (A4 & R4 & W4); auto.
      { intros x Ux. apply (sg_low _ _ SG). auto. }
      { apply (sg_incl _ _ SG3). }
      { intros x Hx Nx I. rewrite SP3 in I by auto. rewrite parents_detached_other in I by auto.
        assert (Hc : In x (childs T n)) by (apply (ok_sym _ (g_ok _ _ _ G)); auto). rewrite Dead in Hx by auto. discriminate. }
      { intros Dn p Hp.
        assert (Dun : forall x, D (unmention n T) x = D T x) by (intros; apply D_nodes; auto).
        assert (Ddn : D (detached n T) n = D T1 n) by (symmetry; apply (nr_D _ _ _ _ _ _ N3); lia).
        assert (Ddx : forall x, D (detached n T) x = D T x).
        { intros x. apply D_data. unfold detached. clear -HL. generalize (evens (parents T n)). intros ps.
          assert (X : forall t, data_of (cut ps n t) x = data_of t x); [|rewrite X; reflexivity].
          induction ps as [|y ps IHp]; intros t; simpl; auto. rewrite IHp. unfold data_of. rewrite dget_del_edge. destruct (dget x (nodes t)); auto. }
        assert (Hp1 : p = root \/ In p (parents T n)).
        { assert (Hs1 : In p (pars s1 n) -> p = root \/ In p (parents T n)).
          { intros Hq. destruct (I2 p Hq) as [Hq1|[|Hq1]]; auto.
            destruct H as [[I _] _]. rewrite (in_pars _ _ _ _ _ _ _ I) in Hq1; auto; [|rewrite <- Ddx, Ddn; auto].
            apply (spv_cases T) in Hq1; tauto. }
          destruct (nr_view _ _ _ _ _ _ N3 n) as [Ev|Ev]; [lia| |]; rewrite Ev in Hp; auto.
          apply (spv_cases T1) in Hp; auto. destruct Hp as [|[_ Hp]]; auto. right. rewrite Pn. apply (sg_incl _ _ SG3). auto. }
        destruct Hp1 as [|Hp1]; auto. right. split; [rewrite <- Pn; auto|]. apply evens_odds_In in Hp1. destruct Hp1 as [Hp1|Hp1].
        - right. assert (Rp : r p < r n) by (apply R; apply evens_incl; auto).
          apply (nr_fresh r (S (r n)) (detached n T) s1 T1 s2); auto.
          apply F2; auto. rewrite Dun.
          assert (Di : is_displayed s2 p = true).
          { destruct H3 as [[I3 _] _]. pose proof (b_g _ _ _ _ _ (in_base _ _ _ _ _ _ _ I3)) as G3. apply (gb_sym _ _ _ _ _ G3) in Hp; auto. eapply kids_disp; eauto. }
          destruct H3 as [[I3 _] _]. destruct (in_stale _ _ _ _ _ _ _ I3 p Di) as [->|Dp].
          + exfalso. apply evens_incl in Hp1. apply (vreg_live _ _ _ (a_reg _ A)) in Hp1. rewrite (a_root _ A) in Hp1. discriminate.
          + rewrite (nr_D _ _ _ _ _ _ N3) in Dp by lia. rewrite Ddx in Dp. auto.
        - left. unfold odd_parent. rewrite <- Pn. apply odds_odd. auto. }
      fold (without n T1). split; auto. split; auto. apply feed_checked_app. unfold fwp at 1. rewrite E1.
      apply feed_checked_app. unfold fwp at 1. rewrite E3.
      apply one_event. eapply fwp_mono; [apply W4|]. intros ? s3 [H4 N4]. split; auto.
      assert (Nu : near r (r n) T s (detached n T) s1).
      { apply (nr_trans r _ T s (unmention n T) s); auto. apply nr_tree; intros x Hx; [apply D_nodes; auto|apply parents_nodes; auto]. }
      apply (nr_trans r _ T s (detached n T) s1); auto.
      apply (nr_trans r _ (detached n T) s1 T1 s2); auto. eapply nr_mono; [|apply N3]. lia.
    Qed.
  End Below.

  Lemma sync_del_rec : forall n T T' es s, apt T -> tame T n -> del_node n true T = (T', es, Ok tt) -> synced T s ->
    apt T' /\ fwp (feed_checked ord b es) (fun _ s' => synced T' s') s.
  Proof.
    intros n T T' es s A OP E (r & R & H). unfold del_node in E. rewrite bind_get in E.
    destruct (sync_remove r T n R OP (remove_budget T) n T T' es s (fun _ => False)) as (A' & R' & W); auto.
    - constructor; auto. tauto.
    - tauto.
    - apply anc_refl.
    - apply dkept_start. auto.
    - split; auto. eapply fwp_mono; [apply W|]. intros ? s' [[H1 H2] _]. exists r. split; auto. split; auto. apply H1.
  Qed.

  (** *** Every call *)
  Definition fits (T : mtree) (o : mop) : Prop := calm T o /\
    match o with
    | AddNode n _ _ => n <> root /\ ~ In n reserved
    | DelNode n true => tame T n
    | _ => True
    end.

  Lemma sync_call_checked : forall o T s, reg T -> apt T -> fits T o -> synced T s ->
    apt (after o T) /\ fwp (feed_checked ord b (snd (fst (run_op o T)))) (fun _ s' => synced (after o T) s') s.
  Proof.
    intros o T s RG A [(P & F & Un & St) X] Sy. destruct (ordinary_cases o F) as [Ho|[(n & nd & p & ->)|(n & rc & ->)]].
    - pose proof (steps_run_op o Ho T RG) as W. unfold wp in W. unfold after. destruct (run_op o T) as [[T' es] q].
      simpl. apply (sync_atoms T T' es); auto.
    - destruct P as (An & P1 & P2 & N1 & N2). destruct X as [X1 X2]. simpl in St. unfold outcome in St. unfold after. cbn [run_op] in *.
      destruct (add_node n nd p T) as [[T' es] q] eqn:E. simpl in *. subst. apply (sync_add n nd p T T' es); auto. split; auto.
    - simpl in St. unfold outcome in St. unfold after. cbn [run_op] in *. destruct (del_node n rc T) as [[T' es] q] eqn:E.
      simpl in St. subst. destruct rc.
      + apply (sync_del_rec n T); auto.
      + apply (sync_del_one n T); auto.
  Qed.

  Lemma sync_call : forall o T s, reg T -> apt T -> fits T o -> synced T s ->
    apt (after o T) /\ fwp (feed ord b (snd (fst (run_op o T)))) (fun _ s' => synced (after o T) s') s.
  Proof.
    intros o T s RG A F Sy. destruct (sync_call_checked o T s RG A F Sy) as [H1 H2]. split; auto. apply feed_of_checked. auto.
  Qed.
End Op.
