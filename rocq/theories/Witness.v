(** Concrete trees used by the examples and the refutations. *)
From Verif Require Import Base BaseFacts MainTree Spec.

(** The tree after a history, and how to see that it is reachable. *)
Definition hist (l : list mop) : mtree := run l empty_tree.

Fixpoint okP (P : mtree -> mop -> Prop) (l : list mop) (t : mtree) : Prop :=
  match l with [] => True | o :: r => P t o /\ okP P r (after o t) end.

Lemma reach_run : forall P l t, reach P t -> okP P l t -> reach P (run l t).
Proof.
  intros P. induction l as [|o l IH]; simpl; intros t R H; auto. destruct H. apply IH; auto. apply reach_call; auto.
Qed.

Lemma reachx_run : forall P l t, reachx P t -> okP P l t -> reachx P (run l t).
Proof.
  intros P. induction l as [|o l IH]; simpl; intros t R H; auto. destruct H. apply IH; auto. apply reachx_call; auto.
Qed.

Definition add (n : id) (p : option id) : mop := AddNode n (new_node 0) p.

(** Checks that a computer can do. *)
Definition newb (nd : node) : bool :=
  match nd with mkNode [] [] true true [] _ => true | _ => false end.
Definition unlistedb (t : mtree) (n : id) : bool := forallb (fun kv => negb (mem n (chi (snd kv)))) (nodes t).
Definition okb (r : res unit) : bool := match r with Ok _ => true | _ => false end.
Definition singleb (t : mtree) : bool := forallb (fun kv => Nat.leb (length (par (snd kv))) 1) (nodes t).

Definition anyb (t : mtree) (o : mop) : bool := match o with AddNode _ nd _ => newb nd | _ => true end.
Definition namedb (t : mtree) (o : mop) : bool := anyb t o && match o with AddNode n _ _ => negb (String.eqb n "") | _ => true end.
Definition plainb (t : mtree) (o : mop) : bool := namedb t o && match o with AddNode n _ _ => negb (String.eqb n main_root) | _ => true end.
Definition freelyb (t : mtree) (o : mop) : bool := namedb t o && match o with AddNode n _ _ => unlistedb t n | _ => true end.
Definition flagsb (o : mop) : bool := match o with SetParentsEnabled _ _ | SetChildrenEnabled _ _ => false | _ => true end.
Definition calmb (t : mtree) (o : mop) : bool :=
  plainb t o && flagsb o && freelyb t o && match o with AddNode _ _ _ | DelNode _ _ => okb (outcome o t) | _ => true end.
Definition tidyb (t : mtree) (o : mop) : bool :=
  plainb t o && flagsb o && match o with DelNode n _ => singleb t | AddNode _ _ _ => okb (outcome o t) | _ => true end.

Fixpoint checkb (b : mtree -> mop -> bool) (l : list mop) (t : mtree) : bool :=
  match l with [] => true | o :: r => b t o && checkb b r (after o t) end.

Lemma checkb_okP : forall b (P : mtree -> mop -> Prop), (forall t o, b t o = true -> P t o) -> forall l t, checkb b l t = true -> okP P l t.
Proof.
  intros b P H. induction l as [|o l IH]; simpl; intros t E; auto. apply andb_true_iff in E. destruct E. split; auto.
Qed.

Lemma newb_new : forall nd n, newb nd = true -> app_node n nd /\ pen nd = true /\ cen nd = true.
Proof.
  intros [[|? ?] [|? ?] [|] [|] [|? ?] v] n H; try discriminate. split; [apply (an_new n v)|auto].
Qed.

Lemma unlistedb_ok : forall t n, unlistedb t n = true -> forall q, ~ In n (childs t q).
Proof.
  intros t n H q Hi. unfold childs in Hi. destruct (dget q (nodes t)) as [nd|] eqn:E; [|destruct Hi].
  unfold unlistedb in H. rewrite forallb_forall in H. apply dget_In_pair in E. specialize (H _ E). simpl in H.
  apply negb_true_iff in H. apply mem_In in Hi. congruence.
Qed.

Lemma singleb_ok : forall t, singleb t = true -> forall x, length (parents t x) <= 1.
Proof.
  intros t H x. unfold parents. destruct (dget x (nodes t)) as [nd|] eqn:E; [|simpl; lia].
  unfold singleb in H. rewrite forallb_forall in H. apply dget_In_pair in E. specialize (H _ E). simpl in H. apply Nat.leb_le in H. auto.
Qed.

(** At most three parents each. *)
Definition fewb (t : mtree) : bool := forallb (fun kv => Nat.leb (length (par (snd kv))) 3) (nodes t).
Lemma tame_few : forall t n, (forall x, anc t n x -> length (parents t x) <= 3) -> tame t n.
Proof.
  intros t n H x p q Hx [i Hi] [j Hj] _ _. specialize (H x Hx).
  assert (I : 2 * i + 1 < length (parents t x)) by (apply nth_error_Some; congruence).
  assert (J : 2 * j + 1 < length (parents t x)) by (apply nth_error_Some; congruence).
  assert (i = 0) by lia. assert (j = 0) by lia. subst. congruence.
Qed.
Lemma fewb_ok : forall t n, fewb t = true -> tame t n.
Proof.
  intros t n H. apply tame_few. intros x _. unfold parents. destruct (dget x (nodes t)) as [nd|] eqn:E; [|simpl; lia].
  unfold fewb in H. rewrite forallb_forall in H. apply dget_In_pair in E. specialize (H _ E). simpl in H. apply Nat.leb_le in H. auto.
Qed.

Lemma okb_ok : forall r, okb r = true -> r = Ok tt.
Proof. intros [[]|e|] H; try discriminate. auto. Qed.

Ltac bools := repeat match goal with
  | H : _ && _ = true |- _ => apply andb_true_iff in H; destruct H
  | H : negb (String.eqb _ _) = true |- _ => apply negb_true_iff in H; apply eqb_neq in H
  end.

Lemma anyb_ok : forall t o, anyb t o = true -> any_fresh t o.
Proof. intros t o H. destruct o; simpl in *; unfold any_fresh; simpl; auto. apply newb_new; auto. Qed.
Lemma namedb_ok : forall t o, namedb t o = true -> fresh_named t o.
Proof.
  intros t o H. unfold namedb in H. bools. split; [apply (anyb_ok t); auto|]. destruct o; simpl in *; auto. bools; auto.
Qed.
Lemma plainb_ok : forall t o, plainb t o = true -> fresh_plain t o.
Proof.
  intros t o H. unfold plainb in H. bools. pose proof (namedb_ok _ _ H) as [A B]. split; auto. destruct o; simpl in *; auto. bools; auto.
Qed.
Lemma freelyb_ok : forall t o, freelyb t o = true -> fresh_unlisted t o.
Proof.
  intros t o H. unfold freelyb in H. bools. pose proof (namedb_ok _ _ H) as [A B]. split; auto. split; auto.
  destruct o; simpl in *; auto. intros _. apply unlistedb_ok; auto.
Qed.
Lemma plain_of : forall t o, plainb t o = true -> plain_add o.
Proof.
  intros t o H. unfold plainb, namedb in H. bools. destruct o; simpl in *; auto. bools.
  destruct (newb_new nd n H) as (A & B & C). auto.
Qed.
Lemma flagsb_ok : forall o, flagsb o = true -> no_flags o.
Proof. intros o H. destruct o; simpl in *; auto; discriminate. Qed.
Lemma calmb_ok : forall t o, calmb t o = true -> calm t o.
Proof.
  intros t o H. unfold calmb in H. bools. split; [eapply plain_of; eauto|]. split; [apply flagsb_ok; auto|].
  split; [apply freelyb_ok; auto|]. destruct o; simpl; auto; apply okb_ok; auto.
Qed.
Lemma tidyb_ok : forall t o, tidyb t o = true -> tidy t o.
Proof.
  intros t o H. unfold tidyb in H. bools. split; [eapply plain_of; eauto|]. split; [apply flagsb_ok; auto|].
  split; destruct o; simpl; auto; [|apply okb_ok; auto]. destruct recursive; intros; apply singleb_ok; auto.
Qed.

Lemma run_any : forall l, checkb anyb l empty_tree = true -> reachx any_fresh (hist l).
Proof. intros. apply reachx_run; [constructor|]. eapply checkb_okP; [apply anyb_ok|auto]. Qed.
Lemma run_named : forall l, checkb namedb l empty_tree = true -> reachx fresh_named (hist l).
Proof. intros. apply reachx_run; [constructor|]. eapply checkb_okP; [apply namedb_ok|auto]. Qed.
Lemma run_plain : forall l, checkb plainb l empty_tree = true -> reachx fresh_plain (hist l).
Proof. intros. apply reachx_run; [constructor|]. eapply checkb_okP; [apply plainb_ok|auto]. Qed.
Lemma run_freely : forall l, checkb freelyb l empty_tree = true -> reachx fresh_unlisted (hist l).
Proof. intros. apply reachx_run; [constructor|]. eapply checkb_okP; [apply freelyb_ok|auto]. Qed.
Lemma run_calm : forall l, checkb calmb l empty_tree = true -> reach calm (hist l).
Proof. intros. apply reach_run; [constructor|]. eapply checkb_okP; [apply calmb_ok|auto]. Qed.
Lemma run_tidy : forall l, checkb tidyb l empty_tree = true -> reach tidy (hist l).
Proof. intros. apply reach_run; [constructor|]. eapply checkb_okP; [apply tidyb_ok|auto]. Qed.

(** a above b and c, both above d. *)
Definition diamond_ops : list mop :=
  [add "a" None; add "b" (Some "a"); add "c" (Some "a"); add "d" (Some "b"); NewRelationship "c" "d"].
Definition diamond : mtree := hist diamond_ops.

Lemma diamond_any : reachx any_fresh diamond.
Proof. apply run_any. reflexivity. Qed.
Lemma diamond_named : reachx fresh_named diamond.
Proof. apply run_named. reflexivity. Qed.
Lemma diamond_plain : reachx fresh_plain diamond.
Proof. apply run_plain. reflexivity. Qed.
Lemma diamond_freely : reachx fresh_unlisted diamond.
Proof. apply run_freely. reflexivity. Qed.
Lemma diamond_calm : reach calm diamond.
Proof. apply run_calm. reflexivity. Qed.
Lemma diamond_tidy : reach tidy diamond.
Proof. apply run_tidy. reflexivity. Qed.

Lemma diamond_anc : anc diamond "a" "d".
Proof. apply anc_step with (p := "b"); [vm_compute; auto|]. apply anc_step with (p := "a"); [vm_compute; auto|apply anc_refl]. Qed.
Lemma diamond_ancestor : ancestor diamond "a" "d".
Proof. exists "b". split; [vm_compute; auto|]. apply anc_step with (p := "a"); [vm_compute; auto|apply anc_refl]. Qed.

(** p and q above c; c is deleted; q still lists it. *)
Definition stale_ops : list mop := [add "p" None; add "q" None; add "c" (Some "p"); NewRelationship "q" "c"; DelNode "c" false].
Definition stale : mtree := hist stale_ops.
Lemma stale_calm : reach calm stale.
Proof. apply run_calm. reflexivity. Qed.
(** And then a node of the same id is added again. *)
Definition again : mtree := hist (stale_ops ++ [add "c" None]).
Lemma again_any : reachx any_fresh again.
Proof. apply run_any. reflexivity. Qed.
Lemma again_plain : reachx fresh_plain again.
Proof. apply run_plain. reflexivity. Qed.

(** A node of which only q waits. *)
Definition half_built : mtree := hist [add "p" None; NewRelationship "p" "c"].
Lemma waiting_any : reachx any_fresh half_built.
Proof. apply run_any. reflexivity. Qed.

Lemma waiting_during : during "p" "c" half_built (after (add "q" (Some "p")) half_built).
Proof.
  apply during_call; [apply during_start|]. split; [apply an_new|]. split; [discriminate|]. split; [exact I|]. split; reflexivity.
Qed.

(** Refutations. *)
Lemma empty_id_unrelated : exists t c, reachx any_fresh t /\ has_node t "" = true /\ has_node t c = true /\
  c <> "" /\ outcome (NewRelationship "" c) t = Ok tt /\ ~ In "" (get_parents (after (NewRelationship "" c) t) c).
Proof.
  exists (hist [add "" None; add "b" None]), "b". split; [apply run_any; reflexivity|].
  repeat split; try discriminate. vm_compute. auto.
Qed.

Lemma refused_changes : exists t p c, reachx fresh_plain t /\ has_node t p = true /\ has_node t c = true /\
  p <> c /\ outcome (NewRelationship p c) t = Err Circular /\
  get_children (after (NewRelationship p c) t) p <> get_children t p.
Proof.
  exists (hist (stale_ops ++ [add "c" None; NewRelationship "c" "q"])), "q", "c".
  split; [apply run_plain; reflexivity|]. repeat split; vm_compute; discriminate.
Qed.

Lemma child_without_parent : exists t p c, reachx fresh_plain t /\ In c (get_children t p) /\ ~ In p (get_parents t c) /\
  parents_enabled t c = true.
Proof.
  exists again, "q", "c". split; [apply again_plain|]. split; [vm_compute; auto|]. split; [vm_compute; auto|reflexivity].
Qed.

Lemma parent_without_child : exists t p c, reachx fresh_plain t /\ In p (get_parents t c) /\ ~ In c (get_children t p).
Proof.
  exists (hist [add "p" None; NewRelationship "p" "c"; SetChildrenEnabled "p" false; add "c" None]), "p", "c".
  split; [apply run_plain; reflexivity|]. split; vm_compute; auto.
Qed.

Lemma twice_in_root : exists l, Forall no_flags l /\
  checkb (fun t o => plainb t o && okb (outcome o t)) l empty_tree = true /\ ~ NoDup (root_children (run l empty_tree)).
Proof.
  exists (stale_ops ++ [add "c" None; DelNode "q" false]). split; [repeat constructor|]. split; [reflexivity|].
  change (root_children (run (stale_ops ++ [add "c" None; DelNode "q" false]) empty_tree)) with ["p"; "c"; "c"].
  intros H. apply NoDup_cons_iff in H. destruct H as [_ H]. apply NoDup_cons_iff in H. destruct H as [H _]. apply H. left; auto.
Qed.

Lemma lost_from_root : exists t x, reachx fresh_plain t /\ has_node t x = true /\ parents_enabled t x = true /\
  get_parents t x = [] /\ ~ In x (root_children t).
Proof.
  exists (hist [add "a" (Some "a")]), "a". split; [apply run_plain; reflexivity|]. repeat split. vm_compute. auto.
Qed.

Lemma delete_raises : exists t n, reach calm t /\ has_node t n = true /\ outcome (DelNode n false) t = Err KeyError.
Proof. exists stale, "q". split; [apply stale_calm|]. split; reflexivity. Qed.

Lemma move_keeps_parent : exists t n p, reach calm t /\ has_node t n = true /\ has_node t p = true /\ ~ anc t n p /\
  outcome (MoveNode n (Some p)) t = Ok tt /\ get_parents (after (MoveNode n (Some p)) t) n <> [p].
Proof.
  exists (hist [add "a" None; add "b" None; add "z" None; add "n" (Some "a"); NewRelationship "b" "n"]), "n", "z".
  split; [apply run_calm; reflexivity|]. split; [reflexivity|]. split; [reflexivity|]. split.
  - intros H. inversion H as [|p x Hi _]. vm_compute in Hi. auto.
  - split; [reflexivity|]. vm_compute. discriminate.
Qed.

Lemma next_skips : exists t p i n, reach calm t /\ nth_error (get_children t p) i = Some n /\
  next_node t n (Some p) <> Ok (nth_error (get_children t p) (S i)).
Proof.
  exists (hist [add "p" None; add "q" None; add "a" (Some "q"); add "c" (Some "p"); NewRelationship "q" "c"; add "d" (Some "q"); DelNode "c" false]), "q", 0, "a".
  split; [apply run_calm; reflexivity|]. split; [reflexivity|]. vm_compute. discriminate.
Qed.

Lemma untold_addition : exists t o, reachx fresh_plain t /\ fresh_add o /\
  events o t = [] /\ get_all_nodes (after o t) <> get_all_nodes t.
Proof.
  exists empty_tree, (add "a" (Some "a")). split; [constructor|]. split; [apply an_new|]. split; [reflexivity|]. vm_compute. discriminate.
Qed.
