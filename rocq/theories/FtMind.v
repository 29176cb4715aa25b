(** Views: while a view announces a node, its clients know living nodes only. *)
From Verif Require Import Base BaseFacts MainTree Spec MainFacts MainPaths Filters FTree SpecView FtBase FtWalk FtEdge FtUp FtTree FtSent.
Open Scope f_scope.

(** What a client knows after a signal. *)
Definition learn (cs : list (list id)) (x : sig) : list (list id) :=
  match x with
  | SAdded _ q => cs ++ [q]
  | SDeleted _ q => filter (fun p => negb (path_eqb p q)) cs
  | _ => cs
  end.
Definition heard (l : list sig) : list (list id) := fold_left learn l [].

Lemma hear_learn : forall cs x c, hear cs x c -> c = learn cs x.
Proof. intros cs x c H. inversion H; subst; auto. Qed.
Lemma hear_all_learn : forall cs l c, hear_all cs l c -> c = fold_left learn l cs.
Proof. intros cs l c H. induction H; auto. rewrite fold_left_app, <- IHhear_all. simpl. apply hear_learn. auto. Qed.
Lemma hear_all_cut : forall b a cs c, hear_all cs (a ++ b) c -> exists m, hear_all cs a m /\ hear_all m b c.
Proof.
  intros b. induction b as [|x b IH] using rev_ind; intros a cs c H.
  - rewrite app_nil_r in H. exists c. split; auto. constructor.
  - rewrite app_assoc in H. inversion H as [|cs0 l c1 x0 c2 H1 H2]; [destruct (a ++ b); discriminate|].
    apply app_inj_tail in H3. destruct H3 as [-> ->]. subst. destruct (IH a cs c1 H1) as (m & M1 & M2). exists m. split; auto. econstructor; eauto.
Qed.
Lemma hear_all_one : forall cs x c, hear_all cs [x] c -> hear cs x c.
Proof.
  intros cs x c H. inversion H as [|cs0 l c1 x0 c2 H1 H2]. destruct l as [|y l]; [|destruct l; discriminate]. simpl in H3. inversion H3; subst.
  inversion H1; [subst; auto|destruct l; discriminate].
Qed.

(** Everything sent names nodes of the tree. *)
Definition liveb (T : mtree) (x : sig) : bool := match x with SAdded n _ | SModified n _ => has_node T n | _ => true end.

(** All the paths consist of nodes of the tree. *)
Definition live_paths (T : mtree) (cs : list (list id)) : bool := forallb (forallb (has_node T)) cs.
Fixpoint mindsb (T : mtree) (cs : list (list id)) (l : list sig) : bool :=
  match l with
  | [] => true
  | x :: rest =>
      match x with SAdded _ _ | SModified _ _ => live_paths T (learn cs x) | _ => true end && mindsb T (learn cs x) rest
  end.

(** No node of the tree has two parents; no node of the view is a child of two. *)
Definition loneb (T : mtree) : bool :=
  forallb (fun x => forallb (fun p => forallb (String.eqb p) (parents T x)) (parents T x)) (dkeys (nodes T)).
Definition lonev (s : ft) : bool :=
  forallb (fun p => forallb (fun q => String.eqb p q || forallb (fun x => negb (mem x (kids s q))) (kids s p)) (dkeys (fnodes s))) (dkeys (fnodes s)).
(** No node is announced while a path to it is known. *)
Definition endsb (n : id) (p : list id) : bool := match rev p with x :: _ => String.eqb x n | [] => false end.
Definition newb (cs : list (list id)) (x : sig) : bool := match x with SAdded n _ => forallb (fun p => negb (endsb n p)) cs | _ => true end.
Fixpoint freshb (cs : list (list id)) (l : list sig) : bool :=
  match l with [] => true | x :: rest => newb cs x && freshb (learn cs x) rest end.

Lemma loneb_iff : forall T, loneb T = true <-> lone_tree T.
Proof.
  intros T. unfold loneb, lone_tree. rewrite forallb_forall. split.
  - intros H x p q Hp Hq. assert (Hx : In x (dkeys (nodes T))).
    { apply dmem_In. unfold parents in Hp. unfold dmem. destruct (dget x (nodes T)); auto. }
    specialize (H x Hx). rewrite forallb_forall in H. specialize (H p Hp). rewrite forallb_forall in H. apply eqb_eq. auto.
  - intros H x _. apply forallb_forall. intros p Hp. apply forallb_forall. intros q Hq. apply eqb_eq. eauto.
Qed.

Lemma lonev_iff : forall s, lonev s = true <-> lone_ch (kids s).
Proof.
  intros s. unfold lonev, lone_ch. rewrite forallb_forall. split.
  - intros H x p q Hp Hq.
    assert (K : forall p, In x (kids s p) -> In p (dkeys (fnodes s))) by (intros p0 H0; apply dmem_In; apply kids_disp in H0; auto).
    specialize (H p (K p Hp)). rewrite forallb_forall in H. specialize (H q (K q Hq)). apply orb_true_iff in H. destruct H as [H|H]; [apply eqb_eq; auto|].
    rewrite forallb_forall in H. specialize (H x Hp). apply negb_true_iff, mem_false in H. contradiction.
  - intros H p _. apply forallb_forall. intros q _. apply orb_true_iff. deq p q; auto. right. apply forallb_forall. intros x Hx.
    apply negb_true_iff, mem_false. intros Hq. match goal with N : _ <> _ |- _ => apply N end. eauto.
Qed.

Lemma endsb_iff : forall n p, endsb n p = true <-> exists q, p = q ++ [n].
Proof.
  intros n p. unfold endsb. destruct p as [|x p] using rev_ind; [|clear IHp].
  - simpl. split; [discriminate|]. intros (q & E). destruct q; discriminate.
  - rewrite rev_app_distr. simpl. rewrite eqb_eq. split; [intros ->; eauto|]. intros (q & E). apply app_inj_tail in E. tauto.
Qed.

Lemma newb_iff : forall cs n q, newb cs (SAdded n q) = true <-> forall p, ~ In (p ++ [n]) cs.
Proof.
  intros cs n q. simpl. rewrite forallb_forall. split.
  - intros H p Hp. specialize (H _ Hp). apply negb_true_iff in H. assert (endsb n (p ++ [n]) = true) by (apply endsb_iff; eauto). congruence.
  - intros H p Hp. apply negb_true_iff. destruct (endsb n p) eqn:E; auto. apply endsb_iff in E. destruct E as (q' & ->). destruct (H _ Hp).
Qed.

Lemma fresh_freshb : forall l l0 cs c, hear_all [] l0 cs -> hear_all cs l c -> fresh_adds l0 l -> freshb cs l = true.
Proof.
  intros l. induction l as [|x l IH]; intros l0 cs c H0 H F; auto. cbn [freshb].
  pose proof (hear_all_cut l [x] cs c H) as (m & H1 & H2). apply hear_all_one in H1. rewrite <- (hear_learn _ _ _ H1). apply andb_true_iff. split.
  - destruct x as [n q| | |]; auto. apply newb_iff. intros p. apply (F [] n q l); auto. rewrite app_nil_r. auto.
  - apply (IH (l0 ++ [x]) m c); auto; [econstructor; eauto|]. intros a n q b cs' p E Hh. apply (F (x :: a) n q b cs' p); [rewrite E; auto|].
    rewrite <- app_assoc in Hh. auto.
Qed.

Lemma live_paths_iff : forall T cs, live_paths T cs = true <-> forall q x, In q cs -> In x q -> has_node T x = true.
Proof.
  intros T cs. unfold live_paths. rewrite forallb_forall. split.
  - intros H q x Hq Hx. specialize (H q Hq). rewrite forallb_forall in H. auto.
  - intros H q Hq. apply forallb_forall. eauto.
Qed.

Lemma live_learn : forall T cs x c, hear cs x c -> liveb T x = true -> live_paths T cs = true -> live_paths T (learn cs x) = true.
Proof.
  intros T cs x c H L A. rewrite live_paths_iff in *. inversion H; subst; simpl in *; auto.
  - intros l y Hl Hy. apply in_app_iff in Hl. destruct Hl as [Hl|[<-|[]]]; eauto. apply in_app_iff in Hy. destruct Hy as [Hy|[<-|[]]]; auto.
    destruct H1 as [->|Hq]; [destruct Hy|eauto].
  - intros l y Hl Hy. apply filter_In in Hl. destruct Hl. eauto.
Qed.

Lemma minds_live : forall T l cs c, hear_all cs l c -> forallb (liveb T) l = true -> live_paths T cs = true -> mindsb T cs l = true.
Proof.
  intros T l. induction l as [|x l IH]; intros cs c H L A; auto. simpl in L. apply andb_prop in L. destruct L as [L1 L2].
  change (x :: l) with ([x] ++ l) in H. apply hear_all_cut in H. destruct H as (m & H1 & H2). apply hear_all_one in H1.
  pose proof (live_learn T cs x m H1 L1 A) as A1. cbn [mindsb]. rewrite (hear_learn _ _ _ H1) in H2. rewrite (IH _ c); auto.
  rewrite A1. destruct x; auto.
Qed.

Lemma minds_dels : forall T n P l cs, mindsb T cs (map (SDeleted n) P ++ l) = mindsb T (fold_left learn (map (SDeleted n) P) cs) l.
Proof. intros T n P. induction P as [|q P IH]; intros l cs; auto. cbn [map app mindsb fold_left]. apply IH. Qed.

Lemma learn_dels : forall n P cs q, In q (fold_left learn (map (SDeleted n) P) cs) -> In q cs /\ ~ In q P.
Proof.
  intros n P. induction P as [|p P IH]; intros cs q H; [simpl in *; auto|]. cbn [map fold_left] in H. apply IH in H. destruct H as [H1 H2].
  simpl in H1. apply filter_In in H1. destruct H1 as [H1 H3]. split; auto. intros [->|]; auto.
  rewrite negb_true_iff in H3. assert (path_eqb q q = true) by (apply path_eqb_eq; auto). congruence.
Qed.


Lemma for_deleted : forall n P s, exists s', ffor P (fun p => callback_deleted n p) s = (s', Ok tt) /\ sent s' = sent s ++ map (SDeleted n) P.
Proof.
  intros n P. induction P as [|p P IH]; intros s; [exists s; rewrite app_nil_r; auto|].
  cbn [ffor]. unfold fbind, callback_deleted, fmodify. destruct (IH (send (SDeleted n p) s)) as (s' & E & H).
  exists s'. split; [exact E|]. rewrite H. simpl. rewrite <- app_assoc. auto.
Qed.

Section Mind.
  Variable ord : nat -> list id -> list id.
  Variable T : mtree.
  Variable D : id -> bool.

  (** A node without children that is not to be shown any more: its paths go first. *)
  Lemma hidden_first : forall n s s' P, n <> froot s -> is_displayed s n = true -> D n = false -> kids s n = [] -> view_paths s n = Ok P ->
    update ord T D n Both s = (s', Ok tt) -> exists l, sent s' = sent s ++ map (SDeleted n) P ++ l.
  Proof.
    intros n s s' P Nn Dn Hd Hk HP E. unfold update in E.
    assert (X : exists f, update_budget T s = S f) by (exists (3 * (length (nodes T) + length (fnodes s)) + 5); unfold update_budget; lia).
    destruct X as (f & X). rewrite X in E. cbn [update_node] in E. unfold update_body in E. unfold fbind at 1, fget at 1 in E. cbv zeta in E.
    rewrite (proj2 (eqb_neq n (froot s))), Dn, Hd in E by auto. unfold update_hidden in E.
    unfold fbind at 1, paths_of at 1 in E. rewrite HP in E. destruct (disp_entry s n Dn) as (e & Ee & Ep & Ek).
    unfold fbind at 1, fnode_at at 1 in E. rewrite Ee in E. rewrite Ek, Hk in E. cbn [rev ffor] in E.
    unfold fbind at 1, fret at 1 in E. unfold fbind at 1, fnode_at at 1 in E. rewrite Ee in E.
    unfold fbind at 1, fmodify at 1 in E. unfold fbind at 1 in E.
    destruct (for_deleted n P (set_fnodes (ddel n (fnodes s)) s)) as (s1 & E1 & H1). rewrite E1 in E.
    match type of E with ?m s1 = _ => assert (B : blind m); [|pose proof (blind_extends _ m s1 B) as (l & L); rewrite E in L] end.
    { pose proof (blind_update_node ord T D f) as BU. repeat first [apply BU | bl1]. }
    exists l. simpl in L. rewrite L, H1. simpl. rewrite <- app_assoc. auto.
  Qed.

  Lemma down_last : forall ch n q p, downward ch p q -> In n q -> ch n = [] -> last q p = n.
  Proof.
    intros ch n q. induction q as [|x q IH]; intros p H I E; [destruct I|]. destruct H as [H1 H2]. rewrite last_cons.
    destruct I as [->|I]; [|apply IH; auto]. destruct q as [|y q]; auto. destruct H2 as [H2 _]. rewrite E in H2. destruct H2.
  Qed.

  (** The nodes on the paths that clients know while a node is announced. *)
  Lemma minds_event : forall {EAR : Ear} r root fl n s s' c, base r root fl (fun _ => True) s ->
    (forall x, is_displayed s x = true -> x = root \/ x = n \/ has_node T x = true) ->
    (forall x, D x = true -> has_node T x = true) ->
    (n <> root -> has_node T n = false -> kids s n = []) ->
    update ord T D n Both s = (s', Ok tt) -> hear_all [] (sent s') c -> forallb (liveb T) (news s s') = true ->
    mindsb T (heard (sent s)) (news s s') = true.
  Proof.
    intros EAR r root fl n s s' c B Hd HD Hk E Hc Hl. pose proof (b_g _ _ _ _ _ B) as G.
    destruct (gb_knows _ _ _ _ _ G) as (cs & (K & _) & _ & K1).
    pose proof (blind_extends _ _ s (blind_update ord T D n Both)) as (l & L). rewrite E in L. cbn [fst] in L.
    assert (N : news s s' = l) by (unfold news; rewrite L, skipn_app, skipn_all, Nat.sub_diag; auto). rewrite N in Hl |- *. clear N.
    rewrite L in Hc. apply hear_all_cut in Hc. destruct Hc as (m & M1 & M2).
    assert (m = cs) by (apply hear_all_learn in M1; apply hear_all_learn in K; congruence). subst m.
    unfold heard. rewrite <- (hear_all_learn _ _ _ K).
    assert (Dq : forall q x p, is_displayed s p = true -> downward (kids s) p q -> In x q -> is_displayed s x = true /\ r p < r x).
    { intros q x. induction q as [|y q IH]; intros p Dp H I; [destruct I|]. destruct H as [H1 H2]. destruct (base_kid _ _ _ _ _ _ _ B H1) as [Dy Ry].
      destruct I as [->|I]; auto. destruct (IH y Dy H2 I). split; auto. lia. }
    assert (Dx : forall q x, In q cs -> In x q -> x = n \/ has_node T x = true).
    { intros q x Hq Hx. apply K1 in Hq. destruct Hq as [_ Hq]. destruct (Dq q x root (gb_disp _ _ _ _ _ G) Hq Hx) as [H1 H2].
      destruct (Hd x H1) as [->|]; auto. lia. }
    destruct (has_node T n) eqn:Hn.
    { apply (minds_live T l cs c); auto. apply live_paths_iff. intros q x Hq Hx. destruct (Dx q x Hq Hx) as [->|]; auto. }
    destruct (is_displayed s n) eqn:Dn.
    - assert (Nn : n = root \/ n <> root) by (destruct (id_dec n root); auto). destruct Nn as [->|Nn].
      + apply (minds_live T l cs c); auto. apply live_paths_iff. intros q x Hq Hx. destruct (Dx q x Hq Hx) as [->|]; auto.
        apply K1 in Hq. destruct Hq as [_ Hq]. destruct (Dq q root root (gb_disp _ _ _ _ _ G) Hq Hx). lia.
      + destruct (gpaths r root (fun _ => True) (kids s) s n G (fun _ _ => I) Dn) as (P & EP & _ & IP).
        destruct (hidden_first n s s' P) as (l' & L'); auto.
        { rewrite (gb_root _ _ _ _ _ G). auto. }
        { destruct (D n) eqn:X; auto. apply HD in X. congruence. }
        rewrite L in L'. apply app_inv_head in L'. subst l. rewrite minds_dels. apply hear_all_cut in M2. destruct M2 as (m & M2 & M3).
        rewrite <- (hear_all_learn _ _ _ M2). apply (minds_live T l' m c); auto.
        { rewrite forallb_app in Hl. apply andb_prop in Hl. apply Hl. }
        apply live_paths_iff. intros q x Hq Hx. rewrite (hear_all_learn _ _ _ M2) in Hq. apply learn_dels in Hq. destruct Hq as [Hq Np].
        destruct (Dx q x Hq Hx) as [->|]; auto. exfalso. apply Np. apply IP. apply K1 in Hq. destruct Hq as [_ Hq]. split; auto.
        apply down_last with (ch := kids s); auto.
    - apply (minds_live T l cs c); auto. apply live_paths_iff. intros q x Hq Hx. destruct (Dx q x Hq Hx) as [->|]; auto.
      apply K1 in Hq. destruct Hq as [_ Hq]. destruct (Dq q n root (gb_disp _ _ _ _ _ G) Hq Hx). congruence.
  Qed.
End Mind.
