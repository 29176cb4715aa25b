(** Proofs about methods of nodes called by other threads: set_parent. *)
From Coq Require Import Lia Permutation.
From Verif Require Import Base BaseFacts MainTree Spec MainFacts MainEff MainReg MainTight Queue SpecQueue QueueFacts SpecBatch BatchFacts NodeThreads SpecNodes NodeFacts NodeCut.

Definition muts (n : id) (l : list id) (t : mtree) : mtree := fold_left (fun t q => upd_node n (orphan q) t) l t.
Definition cuts (n : id) (l : list id) (t : mtree) : mtree := fold_left (fun t q => parted q n t) l t.

Record pre (n : id) (nd : node) (t : mtree) : Prop := {
  p_get : dget n (nodes t) = Some nd;
  p_nodup : NoDup (par nd);
  p_pen : pen nd = true;
  p_name : n <> "";
  p_root : has_node t main_root = false;
  p_par : forall q, In q (par nd) -> q <> "" /\ q <> n /\ has_node t q = true
}.

Lemma pre_live : forall n nd t, pre n nd t -> has_node t n = true.
Proof. intros n nd t H. unfold has_node, dmem. rewrite (p_get _ _ _ H). auto. Qed.
Lemma pre_orphan : forall n nd t q, pre n nd t -> pre n (orphan q nd) (upd_node n (orphan q) t).
Proof.
  intros n nd t q H. destruct H as [A B C D E F]. constructor; auto.
  - rewrite upd_get, A. auto.
  - cbn. apply remove1_NoDup; auto.
  - rewrite upd_has. auto.
  - intros x Hx. rewrite upd_has. apply F. cbn in Hx. eapply remove1_In; eauto.
Qed.
Lemma pre_parted : forall n nd t q, pre n nd t -> In q (par nd) -> pre n (orphan q nd) (parted q n t).
Proof.
  intros n nd t q H Hq. pose proof (pre_live _ _ _ H) as L. destruct H as [A B C D E F]. destruct (F q Hq) as (F1 & F2 & F3). constructor; auto.
  - apply parted_get; auto.
  - cbn. apply remove1_NoDup; auto.
  - rewrite parted_has. auto.
  - intros x Hx. rewrite parted_has. apply F. cbn in Hx. eapply remove1_In; eauto.
Qed.

Lemma muts_orphan : forall n R q t, muts n R (upd_node n (orphan q) t) = upd_node n (orphan q) (muts n R t).
Proof.
  intros n R. induction R as [|r R IH]; intros q t; auto. unfold muts in *. cbn [fold_left]. rewrite <- IH. f_equal. rewrite !upd_fuse. apply upd_ext.
  intros v _. unfold orphan, set_par. cbn [par chi pen cen npend data]. rewrite remove1_swap. auto.
Qed.
Lemma parted_muts : forall n R q z nd t, pre n nd t -> In z (par nd) -> z <> q -> ~ In z R -> parted q n (muts n R t) = muts n R (parted q n t).
Proof.
  intros n R. induction R as [|r R IH]; intros q z nd t H Hz Nq NR; auto. unfold muts in *. cbn [fold_left].
  assert (Nr : z <> r) by (intros ->; apply NR; left; auto).
  rewrite (IH q z (orphan r nd)); [|apply pre_orphan; auto|cbn; apply remove1_In_neq; auto|auto|intros X; apply NR; right; auto].
  f_equal. destruct H as [A B C D E F]. apply (parted_orphan n q r z nd); auto. apply F; auto.
Qed.
Lemma pre_muts : forall n R nd t, pre n nd t -> exists nd', pre n nd' (muts n R t) /\ (forall x, In x (par nd) -> ~ In x R -> In x (par nd')).
Proof.
  intros n R. induction R as [|r R IH]; intros nd t H; [exists nd; auto|]. unfold muts. cbn [fold_left].
  destruct (IH _ _ (pre_orphan n nd t r H)) as (nd' & A & B). exists nd'. split; auto. intros x Hx N. apply B; [|intros X; apply N; right; auto].
  cbn. apply remove1_In_neq; auto. intros ->. apply N. left. auto.
Qed.

Lemma cuts_muts : forall n R nd t, pre n nd t -> NoDup R -> incl R (par nd) -> (length R <= 1 \/ exists z, In z (par nd) /\ ~ In z R) ->
  cuts n R (muts n R t) = cuts n R t.
Proof.
  intros n R. induction R as [|q R IH]; intros nd t H ND I Z; auto. inv ND.
  assert (Hq : In q (par nd)) by (apply I; left; auto).
  unfold cuts, muts. cbn [fold_left]. fold (muts n R (upd_node n (orphan q) t)). rewrite muts_orphan.
  destruct (pre_muts n R nd t H) as (nd' & P1 & P2). destruct (p_par _ _ _ H q Hq) as (Q1 & Q2 & Q3).
  assert (Hq' : In q (par nd')) by (apply P2; auto).
  rewrite (parted_again n q nd'); [|apply P1|apply P1|auto|apply H|auto|apply P1; auto|eapply pre_live; eauto].
  destruct Z as [Z|(z & Z1 & Z2)].
  - destruct R; [reflexivity|simpl in Z; lia].
  - assert (Nz : z <> q) by (intros ->; apply Z2; left; auto). assert (NR : ~ In z R) by (intros X; apply Z2; right; auto).
    rewrite (parted_muts n R q z nd t); auto.
    apply (IH (orphan q nd) (parted q n t)); auto.
    + apply pre_parted; auto.
    + intros x Hx. cbn. apply remove1_In_neq; [intros <-; contradiction|apply I; right; auto].
    + right. exists z. split; auto. cbn. apply remove1_In_neq; auto.
Qed.

(** The loop, on the list alone: the parents taken away, those left, the flag. *)
Fixpoint losing (fuel : nat) (p : id) (L : list id) (i : nat) (flag : bool) : list id * list id * bool :=
  match nth_error L i, fuel with
  | None, _ | _, 0 => ([], L, flag)
  | Some q, S f =>
      if String.eqb q p then losing f p L (S i) true
      else let '(R, L', fl) := losing f p (remove1 q L) (S i) flag in (q :: R, L', fl)
  end.

Lemma t_drop_losing : forall fuel n p i flag t nd, pre n nd t ->
  let '(R, L', fl) := losing fuel p (par nd) i flag in
  t_drop_other_parents fuel n p i flag t = ((muts n R t, map (fun q => RBreak q n) R), fl) /\
  exists nd', pre n nd' (muts n R t) /\ par nd' = L'.
Proof.
  induction fuel as [|f IH]; intros n p i flag t nd H; cbn [losing t_drop_other_parents]; rewrite (p_get _ _ _ H).
  - destruct (nth_error (par nd) i); split; auto; exists nd; auto.
  - destruct (nth_error (par nd) i) as [q|] eqn:En; [|split; auto; exists nd; auto].
    destruct (String.eqb q p); [apply (IH n p (S i) true t nd H)|].
    assert (Hq : In q (par nd)) by (eapply nth_error_In; eauto).
    unfold t_remove_parent. rewrite (p_get _ _ _ H), (p_pen _ _ _ H). rewrite (proj2 (mem_In q (par nd)) Hq). cbn [andb].
    specialize (IH n p (S i) flag _ _ (pre_orphan n nd t q H)).
    change (par (orphan q nd)) with (remove1 q (par nd)) in IH.
    destruct (losing f p (remove1 q (par nd)) (S i) flag) as [[R L'] fl]. destruct IH as [IH1 IH2].
    change (upd_node n (fun nd0 : node => set_par (remove1 q (par nd0)) nd0) t) with (upd_node n (orphan q) t). rewrite IH1. split; auto.
Qed.

Lemma drop_losing : forall fuel n p i flag t nd, pre n nd t -> length (par nd) < fuel + i ->
  let '(R, L', fl) := losing fuel p (par nd) i flag in
  (exists es, drop_other_parents fuel n p i flag t = (cuts n R t, es, Ok fl)) /\
  exists nd', pre n nd' (cuts n R t) /\ par nd' = L'.
Proof.
  induction fuel as [|f IH]; intros n p i flag t nd H Hl; cbn [losing drop_other_parents]; rewrite (bind_live _ n nd) by apply H.
  - assert (En : nth_error (par nd) i = None) by (apply nth_error_None; lia). rewrite En. split; [eexists; reflexivity|exists nd; auto].
  - destruct (nth_error (par nd) i) as [q|] eqn:En; [|split; [eexists; reflexivity|exists nd; auto]].
    destruct (String.eqb q p); [apply (IH n p (S i) true t nd H); lia|].
    assert (Hq : In q (par nd)) by (eapply nth_error_In; eauto). destruct (p_par _ _ _ H q Hq) as (Q1 & Q2 & Q3).
    pose proof (pre_live _ _ _ H) as Ln.
    assert (RM : exists es, remove_parent n q t = (parted q n t, es, Ok tt)).
    { unfold remove_parent. rewrite (bind_live _ n nd) by apply H. rewrite (p_pen _ _ _ H), (proj2 (mem_In q (par nd)) Hq). cbn [andb]. rewrite bind_modify.
      change (upd_node n (fun nd0 : node => set_par (remove1 q (par nd0)) nd0) t) with (upd_node n (orphan q) t).
      destruct (break_parted q n (upd_node n (orphan q) t)) as [B1 B2]; [rewrite upd_has; apply H|].
      destruct (break_relationship q n (upd_node n (orphan q) t)) as [[t2 es] r]. cbn [fst snd] in *. exists es. rewrite B1, B2.
      rewrite (parted_again n q nd); auto; apply H. }
    destruct RM as (es & RM).
    assert (Hl2 : length (par (orphan q nd)) < f + S i) by (cbn; pose proof (remove1_length q _ Hq); lia).
    specialize (IH n p (S i) flag _ _ (pre_parted n nd t q H Hq) Hl2).
    change (par (orphan q nd)) with (remove1 q (par nd)) in IH.
    destruct (losing f p (remove1 q (par nd)) (S i) flag) as [[R L'] fl]. destruct IH as [(es2 & IH1) IH2]. split; auto.
    unfold bind. rewrite RM, IH1. eexists. reflexivity.
Qed.

Lemma remove1_nth : forall (L : list id) i q j, NoDup L -> nth_error L i = Some q -> j < i -> nth_error (remove1 q L) j = nth_error L j.
Proof.
  induction L as [|x L IH]; intros i q j ND E H; [destruct i; discriminate|]. inv ND. destruct i as [|i]; [lia|]. cbn [nth_error] in E. cbn [remove1].
  assert (N : String.eqb q x = false) by (apply eqb_neq; intros ->; apply nth_error_In in E; contradiction). rewrite N.
  destruct j as [|j]; auto. cbn [nth_error]. apply (IH i); auto. lia.
Qed.
Lemma losing_facts : forall fuel p L i flag, NoDup L -> let '(R, L', fl) := losing fuel p L i flag in
  NoDup R /\ incl R L /\ ~ In p R /\ (forall j x, j < i -> nth_error L j = Some x -> ~ In x R) /\ (i >= length L -> R = []).
Proof.
  induction fuel as [|f IH]; intros p L i flag ND; cbn [losing].
  - destruct (nth_error L i); (split; [constructor|]; split; [intros x []|]; split; auto; split; auto).
  - destruct (nth_error L i) as [q|] eqn:En; [|split; [constructor|]; split; [intros x []|]; split; auto; split; auto].
    assert (Hi : i < length L) by (apply nth_error_Some; congruence).
    destruct (String.eqb q p) eqn:Eq.
    + specialize (IH p L (S i) true ND). destruct (losing f p L (S i) true) as [[R L'] fl]. destruct IH as (A & B & C & D & E).
      split; auto. split; auto. split; auto. split; [intros j x Hj; apply D; lia|intros; lia].
    + specialize (IH p (remove1 q L) (S i) flag (remove1_NoDup _ _ ND)). destruct (losing f p (remove1 q L) (S i) flag) as [[R L'] fl].
      destruct IH as (A & B & C & D & E). split; [|split; [|split; [|split; [|intros; lia]]]].
      * constructor; auto. intros X. apply B in X. apply remove1_iff in X; tauto.
      * intros x [<-|X]; [eapply nth_error_In; eauto|]. eapply remove1_In. apply B. eauto.
      * intros [X|X]; auto. apply eqb_neq in Eq. congruence.
      * intros j x Hj Hx [X|X]; [|revert X; apply (D j); auto; rewrite (remove1_nth L i q j); auto].
        subst x. pose proof (NoDup_nth_error L) as [G _]. specialize (G ND j i). rewrite Hx, En in G. assert (j = i) by (apply G; auto; lia). lia.
Qed.
Lemma losing_left : forall fuel p L, NoDup L -> let '(R, _, _) := losing fuel p L 0 false in length R <= 1 \/ exists z, In z L /\ ~ In z R.
Proof.
  intros [|f] p L ND; [destruct L; cbn; left; auto|].
  pose proof (losing_facts (S f) p L 0 false ND) as F. cbn [losing] in *. destruct L as [|q L]; [left; simpl; auto|]. cbn [nth_error] in *.
  destruct (String.eqb q p) eqn:Eq.
  - destruct (losing f p (q :: L) 1 true) as [[R L'] fl]. destruct F as (_ & _ & C & _). right. exists q. apply String.eqb_eq in Eq. subst. split; [left|]; auto.
  - pose proof (losing_facts f p (remove1 q (q :: L)) 1 false (remove1_NoDup _ _ ND)) as G. destruct (losing f p (remove1 q (q :: L)) 1 false) as [[R L'] fl].
    destruct G as (_ & _ & _ & D & E). cbn [remove1] in D, E. rewrite String.eqb_refl in D, E. inv ND. destruct L as [|z L].
    + left. rewrite E by (simpl; lia). auto.
    + right. exists z. split; [right; left; auto|]. intros [X|X]; [subst; apply H1; left; auto|]. apply (D 0 z) in X; auto.
Qed.

(** The other nodes keep their flags. *)
Lemma parted_cen : forall q n t x, option_map cen (dget x (nodes (parted q n t))) = option_map cen (dget x (nodes t)).
Proof.
  intros q n t x. unfold parted. destruct (_ || _ || _); auto. destruct (_ || _); auto.
  assert (G : option_map cen (dget x (nodes (cut_one q n t))) = option_map cen (dget x (nodes t))).
  { assert (U : forall a f (s : mtree), (forall v, cen (f v) = cen v) -> option_map cen (dget x (nodes (upd_node a f s))) = option_map cen (dget x (nodes s)))
      by (intros a f s Hf; rewrite dget_upd; deq x a; auto; subst; destruct (dget a (nodes s)) as [w|]; auto; cbn; rewrite Hf; auto).
    rewrite cut_one_upd, !U by reflexivity. reflexivity. }
  unfold to_root. destruct (get_parents _ n); auto. destruct (_ || _); auto. destruct (dget n _); auto. destruct (pen _); auto.
Qed.
Lemma cuts_cen : forall n R t x, option_map cen (dget x (nodes (cuts n R t))) = option_map cen (dget x (nodes t)).
Proof. intros n R. induction R as [|r R IH]; intros t x; auto. unfold cuts in *. cbn [fold_left]. rewrite IH. apply parted_cen. Qed.
Lemma muts_other : forall n R t x, x <> n -> dget x (nodes (muts n R t)) = dget x (nodes t).
Proof. intros n R. induction R as [|r R IH]; intros t x N; auto. unfold muts in *. cbn [fold_left]. rewrite IH by auto. rewrite dget_upd, (proj2 (eqb_neq x n)); auto. Qed.
Lemma cuts_root : forall n R t x, has_node (cuts n R t) x = has_node t x.
Proof. intros n R. induction R as [|r R IH]; intros t x; auto. unfold cuts in *. cbn [fold_left]. rewrite IH. apply parted_has. Qed.

(** *** Requests that break, and one more *)
Lemma through_breaks : forall n R t rest, has_node t main_root = false ->
  snd (through exec_request t (map (fun q => RBreak q n) R ++ rest)) = snd (through exec_request (cuts n R t) rest).
Proof.
  intros n R. induction R as [|q R IH]; intros t rest Hr; auto. cbn [map List.app through].
  assert (E : exec_request (RBreak q n) t = (parted q n t, false)).
  { unfold exec_request, after, outcome. cbn [op_of run_op]. destruct (break_parted q n t Hr) as [-> ->]. auto. }
  rewrite E. unfold cuts. cbn [fold_left]. fold (cuts n R (parted q n t)). rewrite <- IH by (rewrite parted_has; auto).
  destruct (map (fun q0 => RBreak q0 n) R ++ rest); destruct (through exec_request (parted q n t) _) as [[? ?] ?]; auto.
Qed.
Lemma firsts_id : forall l kept, (forall r, In r l -> existsb (request_eqb r) kept = false) -> (forall a r b, l = a ++ r :: b -> existsb (request_eqb r) a = false) ->
  firsts request_eqb kept l = kept ++ l.
Proof.
  induction l as [|r l IH]; intros kept H1 H2; [rewrite app_nil_r; auto|]. cbn [firsts]. rewrite (H1 r) by (left; auto). rewrite IH.
  - rewrite <- app_assoc. auto.
  - intros x Hx. rewrite existsb_app, (H1 x) by (right; auto). cbn [existsb orb]. rewrite orb_false_r. apply in_split in Hx. destruct Hx as (a & b & ->).
    specialize (H2 (r :: a) x b eq_refl). cbn [existsb] in H2. apply orb_false_iff in H2. tauto.
  - intros a x b ->. specialize (H2 (r :: a) x b eq_refl). cbn [existsb] in H2. apply orb_false_iff in H2. tauto.
Qed.
Lemma breaks_once : forall n R tail, NoDup R -> (tail = [] \/ exists x c, tail = [RNew x c]) ->
  firsts request_eqb [] (map (fun q => RBreak q n) R ++ tail) = map (fun q => RBreak q n) R ++ tail.
Proof.
  intros n R tail ND HT. apply (firsts_id (map (fun q => RBreak q n) R ++ tail) []); auto. intros a r b E. destruct (existsb (request_eqb r) a) eqn:X; auto. exfalso.
  apply existsb_exists in X. destruct X as (y & Hy & Ey). apply request_eqb_same in Ey.
  assert (Q : r = y) by (destruct Ey as [Ey|(o & n1 & d1 & n2 & d2 & pp & E1 & E2)]; auto; exfalso;
    assert (W : In r (map (fun q => RBreak q n) R ++ tail)) by (rewrite E; apply in_elt); apply in_app_iff in W; destruct W as [W|W];
    [apply in_map_iff in W; destruct W as (? & W & _); congruence|destruct HT as [->|(? & ? & ->)]; [destruct W|destruct W as [W|[]]; congruence]]).
  subst y. assert (N : NoDup (map (fun q => RBreak q n) R ++ tail)).
  { assert (N1 : NoDup (map (fun q => RBreak q n) R)) by (apply FinFun.Injective_map_NoDup; auto; intros u v Q; inv Q; auto).
    destruct HT as [->|(x & c & ->)]; [rewrite app_nil_r; auto|].
    clear -N1. induction R as [|q R IH]; [repeat constructor; auto|]. cbn [map List.app] in *. inv N1. constructor; auto. rewrite in_app_iff. intros [W|[W|[]]]; [contradiction|discriminate]. }
  rewrite E in N. apply NoDup_remove_2 in N. apply N. apply in_app_iff. auto.
Qed.
