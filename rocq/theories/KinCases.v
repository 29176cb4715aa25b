(** Concrete views of nodes that are chosen by their children. *)
From Coq Require Import Permutation.
From Verif Require Import Base BaseFacts MainTree Spec Filters FTree SpecApi SpecView SpecViewing SpecLoose MainFacts Witness ApiWitness ViewWitness LooseCases SpecKin.

(** The leaves; tasks to be done (data 1) without child to be done; nodes that have data
    or a child with much data; nodes with data or with two children. *)
Definition leaves : ffun := fun t n _ => match get_children t n with [] => true | _ => false end.
Definition to_do (t : mtree) (n : id) : bool := match datum t n with Some v => Nat.eqb v 1 | None => false end.
Definition doable : ffun := fun t n _ => to_do t n && forallb (fun c => negb (to_do t c)) (get_children t n).
Definition rich : ffun := fun t n _ => match datum t n with Some v => Nat.leb 1 v | None => false end ||
  existsb (fun c => match datum t c with Some v => Nat.leb 2 v | None => false end) (get_children t n).
Definition branching : ffun := fun t n _ => to_do t n || Nat.leb 2 (length (get_children t n)).

Lemma leaves_near : near leaves.
Proof. intros t t' n d _ _ E. unfold leaves. rewrite E. auto. Qed.
Lemma leaves_blocking : blocking leaves.
Proof.
  exists (fun _ _ => true), (fun _ _ => true). split; auto. intros t n d v _. unfold leaves. simpl.
  destruct (get_children t n) as [|c l] eqn:E; auto. simpl. unfold datum. assert (H : has_node t c = true).
  { unfold get_children in E. destruct (dget n (nodes t)); [|discriminate]. destruct (cen n0); [|discriminate].
    assert (I : In c (c :: l)) by (left; auto). rewrite <- E in I. apply filter_In in I. tauto. }
  unfold has_node, dmem in H. destruct (dget c (nodes t)); [auto|discriminate].
Qed.
Lemma doable_blocking : blocking doable.
Proof.
  exists (fun _ v => Nat.eqb v 1), (fun _ v => Nat.eqb v 1). split; auto. intros t n d v E. unfold doable, to_do. rewrite E. f_equal.
  induction (get_children t n) as [|c l IH]; simpl; auto. rewrite IH. f_equal. destruct (datum t c); auto.
Qed.
Lemma rich_familial : familial rich.
Proof.
  intros t t' n d _ E1 E2 E3. unfold rich. rewrite <- E1, <- E2. f_equal. clear E2. revert E3. induction (get_children t n) as [|c l IH]; simpl; intros E3; auto.
  rewrite E3 by (left; auto). f_equal. apply IH. intros x Hx. apply E3. auto.
Qed.
Lemma branching_near : near branching.
Proof. intros t t' n d _ E1 E2. unfold branching, to_do. rewrite E1, E2. auto. Qed.
Lemma all_near : near all_nodes.
Proof. intros t t' n d _ _ _. auto. Qed.

Definition kbank : bank := bank_calls [BAdd "leaf" leaves None; BAdd "doable" doable None; BAdd "rich" rich None; BAdd "branching" branching None;
  BAdd "flat" all_nodes (Some (mkParams false true 0)); BAdd "inner" leaves (Some (mkParams true false 0))].

Lemma kbank_childwise : childwise kbank ["doable"] /\ childwise kbank ["leaf"] /\ childwise kbank ["inner"; "flat"] /\ childwise kbank ["branching"].
Proof.
  repeat split; intros name f H E; simpl in H; repeat (destruct H as [<-|H]); try contradiction; vm_compute in E; inv E.
  - right. split; [apply doable_blocking|auto].
  - right. split; [apply leaves_blocking|auto].
  - left. apply leaves_near.
  - left. apply all_near.
  - left. apply branching_near.
Qed.
Lemma kbank_flat : flattened kbank ["inner"; "flat"] /\ flattened kbank ["rich"; "flat"].
Proof.
  split; exists "flat", (mkFilt all_nodes (Some (mkParams false true 0))), (mkParams false true 0); (split; [simpl; auto|]); repeat split.
Qed.
Lemma kbank_levelled : levelled kbank ["doable"] /\ levelled kbank ["leaf"] /\ levelled kbank ["inner"; "flat"].
Proof.
  split; [|split].
  - right. exists "doable", (mkFilt doable None). split; [left; auto|]. split; [reflexivity|]. split; [apply doable_blocking|auto].
  - right. exists "leaf", (mkFilt leaves None). split; [left; auto|]. split; [reflexivity|]. split; [apply leaves_blocking|auto].
  - left. apply kbank_flat.
Qed.

Definition slimb (t : mtree) : bool := forallb (fun n => Nat.leb (length (parents t n)) 1) (dkeys (nodes t)).
Lemma slimb_single : forall t o, slimb t = true -> single t o.
Proof.
  intros t o H. assert (Q : forall x, length (parents t x) <= 1).
  { intros x. destruct (has_node t x) eqn:E.
    - unfold slimb in H. rewrite forallb_forall in H. apply Nat.leb_le. apply H. apply has_node_In. auto.
    - unfold parents. rewrite has_node_none by auto. simpl. lia. }
  destruct o; simpl; auto. destruct recursive; auto.
Qed.

Lemma watching_ltree : forall x o, watching keep x -> calmb (fst (fst x)) o = true -> single (fst (fst x)) o -> no_clashing_add (snd x) o -> watching keep (ltree o x).
Proof. intros [[t b] s] o H C S N. apply watching_tree; auto. apply calmb_ok; auto. Qed.
Definition kfilters (names : list id) (x : viewed) : viewed := fst (view_call keep VRefilter (fst (fst x), kbank, set_filters names (snd x))).
Lemma watching_kfilters : forall x names, watching keep x -> childwise kbank names -> levelled kbank names -> watching keep (kfilters names x).
Proof. intros [[t b] s] names H C L. apply (watching_filters keep t b); auto. Qed.

(** A project p with the tasks c and d, of which d is in q too; what can be done; c and d
    become done, a new task comes, q gets it too and is freed of d; then the leaves, and
    flat what has children. *)
Definition ktree_ops : list mop := [put "p" 1 None; put "q" 1 None; put "c" 1 (Some "p"); put "d" 1 (Some "p"); NewRelationship "q" "d"].
Definition kview0 : viewed := opened keep (hist ktree_ops) kbank (Some "v") ["doable"].
Definition kview1 : viewed := ltree (SetData "d" 0) (ltree (SetData "c" 0) kview0).
Definition kview2 : viewed := ltree (put "z" 1 (Some "p")) kview1.
Definition kview3 : viewed := kfilters ["leaf"] (ltree (BreakRelationship "q" "d") (ltree (NewRelationship "q" "z") kview2)).
Definition kview4 : viewed := ltree (DelNode "d" false) (ltree (BreakRelationship "p" "z") kview3).
Definition kview5 : viewed := ltree (DelNode "q" true) (kfilters ["inner"; "flat"] kview4).

Lemma kview_watching : watching keep kview0 /\ watching keep kview2 /\ watching keep kview3 /\ watching keep kview5.
Proof.
  pose proof kbank_childwise as (C1 & C2 & C3 & _). pose proof kbank_levelled as (L1 & L2 & L3).
  assert (H0 : watching keep kview0).
  { apply watching_open; auto; [apply run_calm; reflexivity|apply unreserved; reflexivity]. }
  assert (H2 : watching keep kview2).
  { apply watching_ltree; [apply watching_ltree; [apply watching_ltree; auto| | |]| | |]; try exact I; try (vm_compute; reflexivity).
    vm_compute. intuition discriminate. }
  assert (H3 : watching keep kview3).
  { apply watching_kfilters; auto. apply watching_ltree; [apply watching_ltree; auto| | |]; try exact I; vm_compute; reflexivity. }
  split; auto. split; auto. split; auto.
  apply watching_ltree; [apply watching_kfilters; auto; apply watching_ltree; [apply watching_ltree; auto| | |]| | |]; try exact I; try (vm_compute; reflexivity).
  - apply slimb_single. vm_compute. reflexivity.
Qed.
Lemma kview_shape : view_all_nodes (snd kview0) = ["c"; "d"] /\ view_all_nodes (snd kview1) = ["p"; "q"] /\ view_all_nodes (snd kview2) = ["q"; "z"] /\
  view_all_nodes (snd kview3) = ["c"; "d"; "z"] /\ view_all_nodes (snd kview4) = ["c"; "z"] /\
  view_all_nodes (snd kview5) = ["p"] /\ length (sent (snd kview5)) = 25.
Proof. vm_compute. auto 10. Qed.
Lemma kview_case : let '(t, b, s) := kview2 in let o := NewRelationship "q" "z" in
  watching keep (t, b, s) /\ calm t o /\ single t o /\ no_clashing_add s o /\ view_all_nodes s = ["q"; "z"] /\
  view_all_nodes (snd (fst (view_call keep (VTree o) (t, b, s)))) = ["z"].
Proof.
  pose proof (proj1 (proj2 kview_watching)) as H1. assert (H2 : calmb (fst (fst kview2)) (NewRelationship "q" "z") = true) by (vm_compute; reflexivity).
  assert (H3 : view_all_nodes (snd kview2) = ["q"; "z"] /\
    view_all_nodes (snd (fst (view_call keep (VTree (NewRelationship "q" "z")) (fst (fst kview2), snd (fst kview2), snd kview2)))) = ["z"]) by (vm_compute; auto).
  destruct kview2 as [[t b] s]. cbn [fst snd] in *. split; auto. split; [apply calmb_ok; auto|]. split; [exact I|]. split; [exact I|]. auto.
Qed.

(** A leaf of two nodes is deleted: one of them is not looked at. *)
Definition ktwo : viewed := opened keep (hist [put "p" 0 None; put "q" 0 None; put "n" 0 (Some "p"); NewRelationship "q" "n"]) kbank (Some "v") ["leaf"].
Lemma kin_delete_stale : exists t b s o, watching keep (t, b, s) /\ calm t o /\ no_clashing_add s o /\
  let '(t', b', s', r) := view_call keep (VTree o) (t, b, s) in r = Ok tt /\ In "q" (satisfying b' t' (filters s')) /\ view_all_nodes s' = ["p"].
Proof.
  pose proof kbank_childwise as (_ & C2 & _). pose proof kbank_levelled as (_ & L2 & _).
  assert (H : watching keep ktwo) by (apply watching_open; auto; [apply run_calm; reflexivity|apply unreserved; reflexivity]).
  assert (H2 : calmb (fst (fst ktwo)) (DelNode "n" false) = true) by (vm_compute; reflexivity).
  assert (H3 : let '(t', b', s', r) := view_call keep (VTree (DelNode "n" false)) (fst (fst ktwo), snd (fst ktwo), snd ktwo) in
    r = Ok tt /\ In "q" (satisfying b' t' (filters s')) /\ view_all_nodes s' = ["p"]) by (vm_compute; auto).
  destruct ktwo as [[t b] s]. cbn [fst snd] in *. exists t, b, s, (DelNode "n" false). split; auto. split; [apply calmb_ok; auto|]. split; [exact I|]. auto.
Qed.

(** A filter that looks at the data of the children, in a flat view. *)
Lemma kin_data_stale : exists t b names n v, reach calm t /\ no_clash t (new_ft (Some "v")) /\ flattened b names /\
  (forall name f, In name names -> get_filter b name = Some f -> familial (f_fun f)) /\
  let '(t', b', s', r) := view_call keep (VTree (SetData n v)) (opened keep t b (Some "v") names) in
    r = Ok tt /\ In "p" (satisfying b' t' (filters s')) /\ view_all_nodes s' = ["c"].
Proof.
  exists (hist [put "p" 0 None; put "c" 1 (Some "p")]), kbank, ["rich"; "flat"], "c", 2. split; [apply run_calm; reflexivity|].
  split; [apply unreserved; reflexivity|]. split; [apply kbank_flat|]. split; [|vm_compute; auto].
  intros name f H E. simpl in H. destruct H as [<-|[<-|[]]]; vm_compute in E; inv E; [apply rich_familial|]. intros t t' n d _ _ _ _. auto.
Qed.

(** A filter that looks at the children only, where displayed nodes have displayed children. *)
Lemma kin_structure_stale : exists t b names o, reach calm t /\ no_clash t (new_ft (Some "v")) /\ ~ flattened b names /\
  (forall name f, In name names -> get_filter b name = Some f -> near (f_fun f)) /\ calm t o /\ single t o /\
  let '(t', b', s', r) := view_call keep (VTree o) (opened keep t b (Some "v") names) in
    r = Ok tt /\ view_all_nodes s' = ["c"; "n"; "p"] /\ shown_parents t' (view_all_nodes s') (froot s') "c" = ["p"] /\ pars s' "c" = [froot s'] /\ pars s' "n" = ["p"].
Proof.
  exists (hist [put "p" 0 None; put "c" 1 (Some "p")]), kbank, ["branching"], (put "n" 1 (Some "p")). split; [apply run_calm; reflexivity|].
  split; [apply unreserved; reflexivity|]. split; [|split; [|split; [apply calmb_ok; vm_compute; reflexivity|split; [exact I|vm_compute; auto]]]].
  - intros (n & f & d & H & E & E1 & E2). simpl in H. destruct H as [<-|[]]. vm_compute in E. inv E. discriminate.
  - intros name f H E. simpl in H. destruct H as [<-|[]]. vm_compute in E. inv E. apply branching_near.
Qed.
