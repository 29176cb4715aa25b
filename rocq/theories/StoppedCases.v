(** Concrete cases for functions of the application that raise. *)
From Coq Require Import Permutation.
From Verif Require Import Base BaseFacts MainTree Spec MainFacts Filters FTree ViewCount Api ViewApi SpecApi SpecView SpecViewing SpecSys
  Witness ApiWitness ViewWitness ViewCases SysCases Stopped SpecStopped.

(** A function on the main view that always raises; one on the count at position 2. *)
Definition main_raises : outcry := fun i e => if Nat.eqb i 0 then Some PyException else None.
Definition count_raises : outcry := fun i e => if Nat.eqb i 2 then Some PyException else None.

Definition cut (bad : outcry) (o : mop) (y : sys) : sys := fst (tree_call_x keep bad o y).

Lemma cut_exact_case : tree_call_x keep count_raises (put "n" 3 (Some "c")) lsys = (cut count_raises (put "n" 3 (Some "c")) lsys, Err PyException) /\
  view_all_nodes (view_at (cut count_raises (put "n" 3 (Some "c")) lsys) 1) = ["a"; "d"; "z"; "n"] /\
  vnodes (count_at (cut count_raises (put "n" 3 (Some "c")) lsys) 2) = ["a"; "d"; "z"; "n"] /\
  view_all_nodes (view_at (cut count_raises (put "n" 3 (Some "c")) lsys) 3) = ["a"; "d"; "c"; "z"].
Proof. vm_compute. auto. Qed.

Lemma lsys_one : library keep lsys /\ fits lsys (LTree (put "n" 3 (Some "c"))) /\ one_event (put "n" 3 (Some "c")) (s_tree lsys) (Ev EAdded "n" (after (put "n" 3 (Some "c")) (s_tree lsys))) /\
  snd (tree_call_x keep count_raises (put "n" 3 (Some "c")) lsys) = Err PyException /\ outcome (put "n" 3 (Some "c")) (s_tree lsys) = Ok tt.
Proof.
  split; [apply lsys_library|]. split; [apply fitsb_ok; [vm_compute; reflexivity|discriminate]|].
  split; [split; vm_compute; reflexivity|]. split; vm_compute; reflexivity.
Qed.

(** A deletion with two events, of which only the last makes a function raise. *)
Definition deletion_raises : outcry := fun i e => match ev_kind e with EDeleted => if Nat.eqb i 2 then Some PyException else None | _ => None end.
Lemma lsys_last : library keep lsys /\ fits lsys (LTree (DelNode "d" false)) /\
  ends_with (DelNode "d" false) (s_tree lsys) (Ev EDeleted "d" (after (DelNode "d" false) (s_tree lsys))) /\
  (forall i e, In e (removelast (events (DelNode "d" false) (s_tree lsys))) -> deletion_raises i e = None) /\
  snd (tree_call_x keep deletion_raises (DelNode "d" false) lsys) = Err PyException.
Proof.
  split; [apply lsys_library|]. split; [apply fitsb_ok; [vm_compute; reflexivity|discriminate]|].
  split; [exists (removelast (events (DelNode "d" false) (s_tree lsys))); split; vm_compute; reflexivity|].
  split; [|vm_compute; reflexivity].
  assert (Q : forallb (fun e => match ev_kind e with EDeleted => false | _ => true end) (removelast (events (DelNode "d" false) (s_tree lsys))) = true)
    by (vm_compute; reflexivity).
  intros i e H. rewrite forallb_forall in Q. specialize (Q e H). clear H. unfold deletion_raises. destruct (ev_kind e); try discriminate Q; reflexivity.
Qed.

Lemma later_behind : exists y bad o e i, library keep y /\ fits y (LTree o) /\ one_event o (s_tree y) e /\
  ~ shows (s_tree (fst (tree_call_x keep bad o y))) (s_bank y) (LView (view_at (fst (tree_call_x keep bad o y)) i)) /\
  nth_error (s_listeners (fst (tree_call_x keep bad o y))) i = Some (LView (view_at (fst (tree_call_x keep bad o y)) i)).
Proof.
  exists lsys, main_raises, (put "n" 3 (Some "c")), (Ev EAdded "n" (after (put "n" 3 (Some "c")) (s_tree lsys))), 1.
  split; [apply lsys_library|]. split; [apply lsys_one|]. split; [apply lsys_one|]. split; [|vm_compute; reflexivity].
  assert (A : mem "n" (satisfying (s_bank lsys) (s_tree (fst (tree_call_x keep main_raises (put "n" 3 (Some "c")) lsys)))
      (filters (view_at (fst (tree_call_x keep main_raises (put "n" 3 (Some "c")) lsys)) 1))) = true) by (vm_compute; reflexivity).
  assert (B : mem "n" (view_all_nodes (view_at (fst (tree_call_x keep main_raises (put "n" 3 (Some "c")) lsys)) 1)) = false) by (vm_compute; reflexivity).
  apply mem_In in A. apply mem_false in B. intros [_ U]. exact (B (proj2 (proj2 (proj2 (up_nodes _ _ _ U)) "n") A)).
Qed.

(** A node without relations. *)
Definition lone : sys := lib_calls (lsteps ++ [LTree (put "q" 3 None)]) new_sys.
Lemma lone_library : library keep lone.
Proof.
  apply lib_calls_library; [constructor|vm_compute; reflexivity|].
  intros n f d H. unfold lsteps in H. simpl in H. repeat (destruct H as [H|H]; [try discriminate H; inversion H; subst; first [apply above_zero_local|apply all_nodes_local]|]). destruct H.
Qed.
Lemma count_behind : exists y bad o e i v n, library keep y /\ fits y (LTree o) /\ one_event o (s_tree y) e /\
  nth_error (s_listeners (fst (tree_call_x keep bad o y))) i = Some (LCount v) /\
  let t := s_tree (fst (tree_call_x keep bad o y)) in let v' := fst (vc_unapply_filter (s_bank y) t n v) in
  vfilters v = [n] /\ snd (vc_unapply_filter (s_bank y) t n v) = Ok tt /\ vc_n_nodes v' = S (length (get_all_nodes t)).
Proof.
  exists lone, main_raises, (DelNode "q" false), (Ev EDeleted "q" (after (DelNode "q" false) (s_tree lone))), 2,
    (count_at (cut main_raises (DelNode "q" false) lone) 2), "work".
  split; [apply lone_library|]. split; [apply fitsb_ok; [vm_compute; reflexivity|discriminate]|].
  split; [split; vm_compute; reflexivity|]. split; [vm_compute; reflexivity|]. vm_compute. auto.
Qed.

Lemma cut_lost : exists y bad o i s s' x, library keep y /\ fits y (LTree o) /\
  nth_error (s_listeners (fst (tree_call_x keep bad o y))) i = Some (LView s) /\
  let t := s_tree (fst (tree_call_x keep bad o y)) in
  refilter keep (s_bank y) t s = (s', Ok tt) /\ In x (satisfying (s_bank y) t (filters s')) /\ ~ In x (view_all_nodes s').
Proof.
  exists lsys, main_raises, (DelNode "a" true), 1, (view_at (cut main_raises (DelNode "a" true) lsys) 1),
    (fst (refilter keep (s_bank lsys) (s_tree (cut main_raises (DelNode "a" true) lsys)) (view_at (cut main_raises (DelNode "a" true) lsys) 1))), "d".
  split; [apply lsys_library|]. split; [apply lsys_fits|]. split; [vm_compute; reflexivity|].
  split; [vm_compute; reflexivity|]. split; [vm_compute; tauto|]. vm_compute. intuition discriminate.
Qed.
