(** Views: what the update after one event of the main tree does. *)
From Coq Require Import Permutation.
From Verif Require Import Base BaseFacts MainTree MainFacts Filters FTree SpecView FtBase FtWalk FtEdge FtUp FtFront FtDown FtNoop FtDel.
Open Scope f_scope.

(** [base] depends on the rank only through the stored parents. *)
Lemma base_rank : forall {EAR : Ear} r r' root fl s, base r root fl (fun _ => True) s -> (forall x p, In p (pars s x) -> r' p < r' x) ->
  base r' root fl (fun _ => True) s.
Proof.
  intros EAR r r' root fl s [[] ? ? ?] H. constructor; auto. constructor; auto.
  intros p c Hc. split; [apply (gb_ch p c Hc)|]. apply H. apply gb_sym; auto.
Qed.

Definition squeeze (r : id -> nat) (root : id) (L : list id) (x : id) : nat :=
  if String.eqb x root then 0 else S (length (filter (fun y => Nat.ltb (r y) (r x)) L)).

Lemma squeeze_lt : forall r root L p x, (forall x, x <> root -> r root < r x) -> r p < r x -> p = root \/ In p L -> squeeze r root L p < squeeze r root L x.
Proof.
  intros r root L p x Hr Hlt Hp. unfold squeeze. deq x root.
  { subst. exfalso. destruct (id_dec p root) as [->|Np]; [lia|]. apply Hr in Np. lia. }
  deq p root; [lia|]. destruct Hp as [|Hp]; [contradiction|]. apply -> Nat.succ_lt_mono. apply filter_length_lt with (p := p); auto.
  - intros y Hy. apply Nat.ltb_lt in Hy. apply Nat.ltb_lt. lia.
  - apply Nat.ltb_irrefl.
  - apply Nat.ltb_lt. auto.
Qed.

Lemma squeeze_le : forall r root L x, squeeze r root L x <= S (length L).
Proof.
  intros. unfold squeeze. destruct (String.eqb x root); [lia|]. apply -> Nat.succ_le_mono. induction L as [|y L IH]; simpl; auto.
  destruct (Nat.ltb (r y) (r x)); simpl; lia.
Qed.

Section Sync.
  Context {EAR : Ear}.
  Variable ord : nat -> list id -> list id.
  Variable T : mtree.
  Variable D : id -> bool.
  Variable root : id.
  Variable fl : bool.
  Variable r : id -> nat.
  Hypothesis EV : env ord T D root fl r.
  Hypothesis Hsym : forall p c, D c = true -> (In c (get_children T p) <-> In p (get_parents T c)).
  Hypothesis Hlive : forall p c, In p (get_parents T c) -> has_node T p = true.

  Notation sp := (sp T D root fl).

  Record insync (U : id -> Prop) (s : ft) : Prop := {
    in_base : base r root fl (fun _ => True) s;
    in_stale : nostale root D s;
    in_full : forall x, D x = true -> is_displayed s x = true;
    in_pars : forall x, D x = true -> ~ U x -> pars s x = sp x
  }.

  Let L (s : ft) := dkeys (nodes T) ++ dkeys (fnodes s).
  Let B (s : ft) := S (length (L s)).

  Lemma env_squeeze : forall s, env ord T D root fl (squeeze r root (L s)).
  Proof.
    intros s. destruct EV. constructor; auto.
    - intros x p Hp. apply squeeze_lt; auto. right. apply in_app_iff. left. apply has_node_In. eapply Hlive; eauto.
    - intros x Hx. unfold squeeze. rewrite eqb_refl, (proj2 (eqb_neq x root)); auto. lia.
  Qed.

  Lemma base_squeeze : forall s, base r root fl (fun _ => True) s -> base (squeeze r root (L s)) root fl (fun _ => True) s.
  Proof.
    intros s Hs. apply (base_rank r); auto. intros x p Hp. apply squeeze_lt.
    - apply (e_rroot _ _ _ _ _ _ EV).
    - apply (gb_pars _ _ _ _ _ (b_g _ _ _ _ _ Hs)). auto.
    - right. apply in_app_iff. right. apply (gb_sym _ _ _ _ _ (b_g _ _ _ _ _ Hs)) in Hp; auto.
      apply kids_disp in Hp. unfold is_displayed in Hp. apply dmem_In in Hp. auto.
  Qed.

  Lemma budget_ok : forall s, 2 * B s + 1 < update_budget T s /\ B s + 3 <= update_budget T s.
  Proof.
    intros s. unfold B, L, update_budget, dkeys. rewrite app_length, !map_length. lia.
  Qed.

  Lemma ev_down0 : forall n s, dpre T D root fl r n s ->
    fwp (update ord T D n Both) (fun _ s' => dpost T D root fl r n s s') s.
  Proof.
    intros n s P. pose proof (dn_base _ _ _ _ _ _ _ P) as Hb. unfold update. destruct (budget_ok s) as [Bu _].
    pose proof (base_squeeze s Hb) as Hb'.
    assert (HB : forall x, squeeze r root (L s) x <= B s) by (intros; apply squeeze_le).
    pose proof (update_down ord T D root fl (squeeze r root (L s)) (B s) (env_squeeze s) HB Hsym (update_budget T s) n Both s) as W.
    unfold fwp in *. assert (W' : match FTree.update_node ord T D (update_budget T s) n Both s with (s', Ok a) => dpost T D root fl (squeeze r root (L s)) n s s' | _ => False end).
    { destruct P. apply W; auto; [lia|]. constructor; auto. }
    destruct (FTree.update_node ord T D (update_budget T s) n Both s) as [s' [[]| |]]; auto. destruct W'. constructor; auto.
    apply (base_rank (squeeze r root (L s))); auto. intros x p Hx.
    assert (PR : pars s' x = pars s x \/ (pars s' x = sp x /\ x <> root)).
    { destruct (is_displayed s x) eqn:E.
      - destruct (id_dec x root) as [->|Nx].
        + left. rewrite (gb_top _ _ _ _ _ (b_g _ _ _ _ _ Hb)). apply (gb_top _ _ _ _ _ (b_g _ _ _ _ _ do_base)).
        + destruct (ev_keep _ _ _ _ _ _ do_ev x E) as [_ [|]]; auto.
      - destruct (is_displayed s' x) eqn:E'.
        + right. split; [apply (ev_new _ _ _ _ _ _ do_ev); auto|]. intros ->. rewrite (gb_disp _ _ _ _ _ (b_g _ _ _ _ _ Hb)) in E. discriminate.
        + left. rewrite (proj2 (not_disp _ _ E)), (proj2 (not_disp _ _ E')). auto. }
    destruct PR as [E|[E Nx]]; rewrite E in Hx.
    - apply (gb_pars _ _ _ _ _ (b_g _ _ _ _ _ Hb)). auto.
    - apply (sp_rank ord T D root fl r EV); auto.
  Qed.

  Lemma ev_down : forall U n s, base r root fl (fun _ => True) s -> nostale root D s ->
    (forall x, D x = true -> is_displayed s x = true \/ x = n) ->
    (forall x, D x = true -> ~ U x -> x <> n -> pars s x = sp x \/ (is_displayed s n = false /\ D n = true /\ In n (sp x))) ->
    fwp (update ord T D n Both) (fun _ s' => insync (fun x => U x /\ x <> n) s' /\ filters s' = filters s) s.
  Proof.
    intros U n s Hb Hs Hf Hp. eapply fwp_mono; [apply ev_down0; constructor; auto|].
    intros ? s' []. split; [|apply (ev_filters _ _ _ _ _ _ do_ev)].
    assert (FU : forall x, D x = true -> is_displayed s' x = true).
    { intros x Dx. destruct (Hf x Dx) as [E| ->]; [apply (ev_keep _ _ _ _ _ _ do_ev); auto|apply do_sync; auto]. }
    constructor; auto.
    intros x Dx HU. destruct (id_dec x n) as [->|Nx]; [apply do_sync; auto|].
    destruct (Hp x Dx) as [E|(E & Dn & Hn)]; auto.
    - destruct (Hf x Dx) as [Dx'|]; [|contradiction]. destruct (ev_keep _ _ _ _ _ _ do_ev x Dx') as [_ [->| ->]]; auto.
    - destruct (do_kids x Dn Dx Hn) as [|Hi]; auto. exfalso.
      apply (gb_sym _ _ _ _ _ (b_g _ _ _ _ _ Hb)) in Hi; auto. apply kids_disp in Hi. congruence.
  Qed.

  Lemma ev_hide : forall n s, hpre T D root fl r n s ->
    fwp (update ord T D n Both) (fun _ s' => insync (fun _ => False) s' /\ filters s' = filters s) s.
  Proof.
    intros n s H. unfold update. destruct (budget_ok s) as [_ Bu].
    assert (H' : hpre T D root fl (squeeze r root (L s)) n s).
    { destruct H. constructor; auto. apply base_squeeze; auto. }
    assert (HB : forall x, squeeze r root (L s) x <= B s) by (intros; apply squeeze_le).
    pose proof (update_hide ord T D root fl (squeeze r root (L s)) (env_squeeze s) (B s) HB Hsym n s H' (update_budget T s) Both Bu) as W.
    unfold fwp in *. destruct (FTree.update_node ord T D (update_budget T s) n Both s) as [s' [[]| |]]; auto. destruct W.
    split; auto.
    assert (ST : nostale root D s').
    { intros x. rewrite hp_disp. deq x n; [discriminate|]. simpl. intros Hx. destruct (h_stale _ _ _ _ _ _ _ H x Hx) as [|[|]]; tauto. }
    constructor; auto.
    - apply (base_rank (squeeze r root (L s))); auto. intros x p Hx.
      destruct (ST x (pars_disp _ _ _ Hx)) as [->|Dx].
      + rewrite (gb_top _ _ _ _ _ (b_g _ _ _ _ _ hp_base)) in Hx. destruct Hx.
      + rewrite hp_pars in Hx by auto. apply (sp_rank ord T D root fl r EV); auto. apply (D_root ord T D root fl r EV); auto.
    - intros x Dx. rewrite hp_disp. deq x n; [subst; rewrite (h_D _ _ _ _ _ _ _ H) in Dx; discriminate|]. simpl. apply (h_full _ _ _ _ _ _ _ H). auto.
  Qed.
End Sync.
