(** Concrete views with postponed refreshing and with filters that look at other nodes. *)
From Coq Require Import Permutation.
From Verif Require Import Base BaseFacts MainTree Spec Filters FTree SpecApi SpecView SpecViewing SpecLoose MainFacts Witness ApiWitness ViewWitness.

(** The diamond in a flat view, only nodes whose ancestors are calm; a stops being
    calm; the filters become others without refresh; d is moved and flags are used;
    z comes. *)
Definition lbank : bank := bank_calls [BAdd "quiet" quiet_tasks None; BAdd "work" above_zero None; BAdd "flat" all_nodes (Some (mkParams false true 0))].
Definition lstart : viewed := opened keep vtree lbank (Some "v") ["quiet"; "flat"].
Definition lrefiltered (names : list id) (x : viewed) : viewed := (fst (fst x), lbank, set_filters names (snd x)).
Definition ltree (o : mop) (x : viewed) : viewed := fst (view_call keep (VTree o) x).
Definition lflat1 : viewed := ltree (SetData "a" 9) lstart.
Definition lflat2 : viewed := lrefiltered ["work"; "unknown"] lflat1.
Definition lflat3 : viewed := ltree (SetParentsEnabled "d" false) (ltree (BreakRelationship "b" "d") lflat2).
Definition lflat : viewed := ltree (put "z" 3 (Some "d")) (lrefiltered ["work"] lflat3).

Lemma unreserved : forall t s, has_node t (froot s) = false -> forallb (fun x => negb (has_node t x)) reserved = true -> no_clash t s.
Proof. intros t s H1 H2. split; auto. intros x Hx. rewrite forallb_forall in H2. specialize (H2 x Hx). destruct (has_node t x); [discriminate|auto]. Qed.

Lemma loose_flat_ltree : forall x o, loose_flat keep x -> fresh_add o -> no_clashing_add (snd x) o -> loose_flat keep (ltree o x).
Proof. intros [[t b] s] o. intros. apply loose_flat_tree; auto. Qed.
Lemma loose_flat_lref : forall x names, loose_flat keep x -> loose_flat keep (lrefiltered names x).
Proof. intros [[t b] s] names H. apply (loose_flat_filters keep t b). auto. Qed.

Lemma lstart_loose : loose_flat keep lstart.
Proof.
  apply loose_flat_open; [apply vtree_calm|apply unreserved; reflexivity|].
  exists "flat", (mkFilt all_nodes (Some (mkParams false true 0))), (mkParams false true 0). vm_compute. intuition.
Qed.
Lemma lflat_loose : loose_flat keep lflat2 /\ loose_flat keep lflat.
Proof.
  assert (H2 : loose_flat keep lflat2) by (apply loose_flat_lref, loose_flat_ltree; [apply lstart_loose| |]; exact I).
  split; auto. apply loose_flat_ltree.
  - apply loose_flat_lref. apply loose_flat_ltree; try exact I. apply loose_flat_ltree; auto; exact I.
  - simpl; constructor.
  - vm_compute. intuition discriminate.
Qed.

Lemma lflat_case : let '(t, b, s) := lflat2 in let o := BreakRelationship "b" "d" in
  loose_flat keep (t, b, s) /\ any_fresh t o /\ no_clashing_add s o /\ view_all_nodes s = ["b"; "c"; "d"] /\ satisfying b t (filters s) = [] /\
  map ev_id (events o t) = ["b"; "d"] /\ view_all_nodes (snd (fst (view_call keep (VTree o) (t, b, s)))) = ["c"].
Proof.
  pose proof (proj1 lflat_loose) as H. destruct lflat2 as [[t b] s] eqn:E. split; auto. split; [exact I|]. split; [exact I|].
  assert (Et : t = fst (fst lflat2)) by (rewrite E; auto). assert (Eb : b = snd (fst lflat2)) by (rewrite E; auto).
  assert (Es : s = snd lflat2) by (rewrite E; auto). rewrite Et, Eb, Es. vm_compute. auto.
Qed.
Lemma lflat_end : loose_flat keep lflat /\ view_all_nodes (snd lflat) = ["z"; "d"] /\ pars (snd lflat) "z" = [froot (snd lflat)] /\
  parents (fst (fst lflat)) "z" = ["d"] /\ length (sent (snd lflat)) = 15.
Proof. split; [apply lflat_loose|]. vm_compute. auto. Qed.
Definition lflat4 : viewed := lrefiltered ["flat"; "quiet"] lflat1.
Lemma lflat4_tree : fst (fst lflat4) = hist (vtree_ops ++ [SetData "a" 9]).
Proof. vm_compute. reflexivity. Qed.
Lemma lflat4_flat : flattened (snd (fst lflat4)) (filters (snd lflat4)).
Proof.
  exists "flat", (mkFilt all_nodes (Some (mkParams false true 0))), (mkParams false true 0). split; [vm_compute; auto|].
  split; [vm_compute; reflexivity|]. split; reflexivity.
Qed.
Lemma lflat4_shape : view_all_nodes (snd lflat4) = ["b"; "c"; "d"] /\ satisfying (snd (fst lflat4)) (fst (fst lflat4)) (filters (snd lflat4)) = [].
Proof. vm_compute. auto. Qed.
Lemma lflat4_loose : loose_flat keep lflat4.
Proof. apply loose_flat_lref, loose_flat_ltree; [apply lstart_loose| |]; exact I. Qed.
Lemma lflat_refilter : let '(t, b, s) := lflat4 in
  loose_flat keep (t, b, s) /\ reach calm t /\ flattened b (filters s) /\ view_all_nodes s = ["b"; "c"; "d"] /\ satisfying b t (filters s) = [].
Proof.
  pose proof lflat4_loose as H1. pose proof lflat4_tree as H2. pose proof lflat4_flat as H3. pose proof lflat4_shape as H4.
  destruct lflat4 as [[t b] s]. cbn [fst snd] in *. split; auto. split; [|auto]. rewrite H2. apply run_calm. reflexivity.
Qed.

(** A forest; the filters become others without refresh, once such that nothing can be
    shown; nodes are hidden with all that is below them; a node comes back, moves and
    the rest is deleted. *)
Definition wood_ops : list mop := [put "a" 1 None; put "b" 1 (Some "a"); put "c" 0 (Some "b"); put "d" 2 (Some "b"); put "e" 1 None].
Definition wood : mtree := hist wood_ops.
Definition lwood0 : viewed := opened keep wood lbank (Some "v") ["quiet"].
Definition lwood1 : viewed := lrefiltered ["work"] (ltree (SetData "d" 9) (ltree (SetData "b" 0) (lrefiltered ["work"; "unknown"] lwood0))).
Definition lwood2 : viewed := ltree (BreakRelationship "b" "d") lwood1.
Definition lwood : viewed := ltree (DelNode "b" true) (ltree (NewRelationship "e" "d") lwood2).

Definition forestb (t : mtree) : bool := forallb (fun n => Nat.leb (length (get_parents t n)) 1) (dkeys (nodes t)).
Lemma forestb_ok : forall t, forestb t = true -> forest t.
Proof.
  intros t H n. unfold forestb in H. rewrite forallb_forall in H. unfold get_parents. destruct (dget n (nodes t)) as [nd|] eqn:E; [|simpl; lia].
  specialize (H n). rewrite Nat.leb_le in H. unfold get_parents in H. rewrite E in H. apply H. apply has_node_In. unfold has_node, dmem. rewrite E. auto.
Qed.
Lemma forestb_all : forall es, forallb (fun e => forestb (ev_tree e)) es = true -> Forall (fun e => forest (ev_tree e)) es.
Proof. intros es H. apply Forall_forall. rewrite forallb_forall in H. intros e He. apply forestb_ok. auto. Qed.

Lemma loose_forest_ltree : forall x o, loose_forest keep x -> calmb (fst (fst x)) o = true -> no_clashing_add (snd x) o ->
  forallb (fun e => forestb (ev_tree e)) (events o (fst (fst x))) = true -> loose_forest keep (ltree o x).
Proof. intros [[t b] s] o H C N F. apply loose_forest_tree; auto; [apply calmb_ok; auto|apply forestb_all; auto]. Qed.
Lemma loose_forest_lref : forall x names, loose_forest keep x -> loose_forest keep (lrefiltered names x).
Proof. intros [[t b] s] names H. apply (loose_forest_filters keep t b). auto. Qed.
Lemma lwood_loose : loose_forest keep lwood1 /\ loose_forest keep lwood.
Proof.
  assert (H0 : loose_forest keep lwood0).
  { apply loose_forest_open; [apply run_calm; reflexivity|apply forestb_ok; reflexivity|apply unreserved; reflexivity|].
    intros (n & f & d & H & E & E1 & E2). simpl in H. destruct H as [<-|[]]. vm_compute in E. inv E. discriminate. }
  assert (H1 : loose_forest keep lwood1).
  { apply loose_forest_lref. apply loose_forest_ltree; [apply loose_forest_ltree; [apply loose_forest_lref; auto| | |]| | |]; try exact I; vm_compute; reflexivity. }
  split; auto.
  apply loose_forest_ltree; [apply loose_forest_ltree; [apply loose_forest_ltree; auto| | |]| | |]; try exact I; vm_compute; reflexivity.
Qed.
Lemma lwood1_tree : fst (fst lwood1) = hist (wood_ops ++ [SetData "b" 0; SetData "d" 9]).
Proof. vm_compute. reflexivity. Qed.
Lemma lwood1_shape : view_all_nodes (snd lwood1) = ["e"] /\ satisfying (snd (fst lwood1)) (fst (fst lwood1)) (filters (snd lwood1)) = ["a"; "d"; "e"] /\
  map ev_id (events (BreakRelationship "b" "d") (fst (fst lwood1))) = ["b"; "d"] /\
  view_all_nodes (snd (fst (view_call keep (VTree (BreakRelationship "b" "d")) (fst (fst lwood1), snd (fst lwood1), snd lwood1)))) = ["e"; "a"; "d"].
Proof. vm_compute. auto. Qed.
Lemma lwood1_calm : calmb (fst (fst lwood1)) (BreakRelationship "b" "d") = true /\
  forallb (fun e => forestb (ev_tree e)) (events (BreakRelationship "b" "d") (fst (fst lwood1))) = true.
Proof. vm_compute. auto. Qed.
Lemma lwood1_thick : ~ flattened (snd (fst lwood1)) (filters (snd lwood1)).
Proof. intros (n & f & d & H & E & E1 & E2). vm_compute in H. destruct H as [<-|[]]. vm_compute in E. inv E. discriminate. Qed.
Lemma lwood_case : let '(t, b, s) := lwood1 in let o := BreakRelationship "b" "d" in
  loose_forest keep (t, b, s) /\ calm t o /\ no_clashing_add s o /\ Forall (fun e => forest (ev_tree e)) (events o t) /\
  view_all_nodes s = ["e"] /\ satisfying b t (filters s) = ["a"; "d"; "e"] /\
  map ev_id (events o t) = ["b"; "d"] /\ view_all_nodes (snd (fst (view_call keep (VTree o) (t, b, s)))) = ["e"; "a"; "d"].
Proof.
  pose proof (proj1 lwood_loose) as H1. pose proof lwood1_shape as H2. pose proof lwood1_calm as H3.
  destruct lwood1 as [[t b] s]. cbn [fst snd] in *. split; auto. split; [apply calmb_ok; apply H3|]. split; [exact I|]. split; auto.
  apply forestb_all. apply H3.
Qed.
Lemma lwood_end : loose_forest keep lwood /\ view_all_nodes (snd lwood) = ["e"; "a"; "d"] /\ pars (snd lwood) "d" = ["e"] /\
  get_all_nodes (fst (fst lwood)) = ["a"; "d"; "e"] /\ length (sent (snd lwood)) = 26.
Proof. split; [apply lwood_loose|]. vm_compute. auto. Qed.
Lemma lwood_refilter : let '(t, b, s) := lwood1 in
  loose_forest keep (t, b, s) /\ ~ flattened b (filters s) /\ view_all_nodes s = ["e"] /\ satisfying b t (filters s) = ["a"; "d"; "e"].
Proof.
  pose proof (proj1 lwood_loose) as H1. pose proof lwood1_thick as H3. pose proof lwood1_shape as (H4 & H5 & _).
  destruct lwood1 as [[t b] s]. cbn [fst snd] in *. auto.
Qed.
