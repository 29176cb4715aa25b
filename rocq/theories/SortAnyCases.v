(** Concrete cases of sorting with an allocator that gives out addresses again. *)
From Coq Require Import Permutation ZArith.
From Verif Require Import Base BaseFacts MainTree Spec SpecFrame Filters FTree SpecApi SpecView SpecViewing Gtk SpecGtk Widget Sort SpecHealthy
  Witness ApiWitness ViewWitness ViewCases GtkWitness SortCases.

(** The calls, as long as none of them raised. *)
Fixpoint healthyb (l : list vcall) (w : viewed * gtk) : bool :=
  match l with
  | [] => true
  | c :: rest => supportedb (fst w) c && match widget_call keep lowest c (fst w) (snd w) with (w1, Ok _) => healthyb rest w1 | _ => false end
  end.
Lemma healthy_calls : forall l w, healthy keep lowest (fst w) (snd w) -> healthyb l w = true ->
  healthy keep lowest (fst (widget_calls lowest l w)) (snd (widget_calls lowest l w)).
Proof.
  induction l as [|c l IH]; intros w V H; simpl in *; auto. apply andb_true_iff in H. destruct H as [H1 H2]. apply supportedb_ok in H1.
  destruct (widget_call keep lowest c (fst w) (snd w)) as [[x g] [[]|e|]] eqn:E; try discriminate. apply (IH (x, g)); auto.
  apply (healthy_call keep lowest (fst w) (snd w) c); auto.
Qed.
Lemma gend_healthy : healthy keep lowest (fst gend) (snd gend).
Proof.
  apply healthy_calls; [|vm_compute; reflexivity]. apply (healthy_start keep lowest gview); [exact gview_viewing|]. vm_compute. reflexivity.
Qed.
Lemma healthy_parts : forall pf x g, healthy keep pf x g -> healthy keep pf (fst (fst x), snd (fst x), snd x) g.
Proof. intros pf [[t b] s] g H. exact H. Qed.

(** The rows are not those of the view; W is added next to the row of the wrong place. *)
Definition gput : viewed * gtk := fst (widget_call keep lowest (VTree (put "W" 3 (Some "A"))) (fst gend) (snd gend)).
Definition grow_x : row := mkRow 4 (Some 0) "X" (Some 1).
Definition grow_w : row := mkRow 2 (Some 0) "W" (Some 3).
Lemma case_any_sorts : faithful lowest /\ healthy keep lowest (fst gend) (snd gend) /\ supported (fst gend) (VTree (put "W" 3 (Some "A"))) /\
  client_call keep (sort_signal (Some by_data) true lowest) (VTree (put "W" 3 (Some "A"))) (fst gend) (snd gend) = (gput, Ok tt) /\
  rows (snd gput) = grows ++ [grow_w] /\ sort_func (Some by_data) true (fst (fst (fst gput))) grow_x grow_w = Ok (-2)%Z /\ ~ view_path (snd (fst gput)) ["A"; "X"].
Proof.
  split; [exact lowest_fresh|]. split; [exact gend_healthy|]. split; [apply supportedb_ok; vm_compute; reflexivity|].
  split; [vm_compute; reflexivity|]. split; [vm_compute; reflexivity|]. split; [vm_compute; reflexivity|].
  intros [_ H]. vm_compute in H. intuition discriminate.
Qed.

Definition gfail : viewed * gtk := fst (widget_call keep lowest (VTree (DelNode "X" false)) (fst gend) (snd gend)).
Lemma case_any_raises : faithful lowest /\ healthy keep lowest (fst gend) (snd gend) /\ supported (fst gend) (VTree (DelNode "X" false)) /\
  client_call keep (sort_signal (Some by_data) true lowest) (VTree (DelNode "X" false)) (fst gend) (snd gend) = (gfail, Err PyException).
Proof.
  split; [exact lowest_fresh|]. split; [exact gend_healthy|]. split; [apply supportedb_ok; vm_compute; reflexivity|]. vm_compute. reflexivity.
Qed.

Lemma case_any_compares : faithful lowest /\ healthy keep lowest (fst (fst (fst gend)), snd (fst (fst gend)), snd (fst gend)) (snd gend) /\
  In grow_x (rows (snd gend)) /\ In (mkRow 1 None "Z" (Some 1)) (rows (snd gend)) /\
  sort_func (Some by_data) true (fst (fst (fst gend))) grow_x (mkRow 1 None "Z" (Some 1)) = Ok 0%Z.
Proof.
  split; [exact lowest_fresh|]. split; [exact (healthy_parts _ _ _ gend_healthy)|]. rewrite gend_rows. split; [unfold grows; simpl; auto 10|].
  split; [unfold grows; simpl; auto 10|vm_compute; reflexivity].
Qed.
Lemma case_any_separates : faithful lowest /\ healthy keep lowest (fst (fst (fst gend)), snd (fst (fst gend)), snd (fst gend)) (snd gend) /\
  In grow_x (rows (snd gend)) /\ separator_func (Some (Nat.eqb 1)) (fst (fst (fst gend))) grow_x = Ok true.
Proof.
  split; [exact lowest_fresh|]. split; [exact (healthy_parts _ _ _ gend_healthy)|]. rewrite gend_rows. split; [unfold grows; simpl; auto 10|vm_compute; reflexivity].
Qed.
Lemma case_any_connects : faithful lowest /\ viewing keep vshow /\
  client_connect (sort_signal (Some by_data) true lowest) vshow new_gtk = connect lowest vshow /\
  map (fun r => (r_addr r, r_id r)) (rows (snd (fst (connect lowest vshow)))) = [(0, "a"); (1, "b"); (2, "c"); (3, "d"); (4, "d")].
Proof. split; [exact lowest_fresh|]. split; [exact vshow_viewing|]. split; vm_compute; reflexivity. Qed.

Lemma case_unnamed : r_id (mkRow 7 None "" None) = "" /\ sort_func (Some by_data) true (fst (fst (fst gend))) grow_x grow_x = Ok 0%Z.
Proof. vm_compute. auto. Qed.
