(** Concrete answers of views. *)
From Coq Require Import Permutation.
From Verif Require Import Base BaseFacts MainTree Spec Filters FTree ViewCount Api ViewApi SpecApi SpecView SpecViewing SpecSys SysFacts SpecAnswers Witness ApiWitness ViewWitness SysCases.

(** A view with a filter (position 1) that hides "c" between "a" and "d", and a flat
    one (position 2). "d" and "z" have two parents. *)
Definition asteps : list lcall :=
  [LBank (BAdd "work" above_zero None); LBank (BAdd "list" all_nodes (Some (mkParams false true 0))); LNewView (Some "v"); LNewView (Some "w");
   LTree (put "a" 1 None); LTree (put "c" 0 (Some "a")); LApply 1 "work" None false; LTree (put "d" 2 (Some "c")); LApply 2 "list" None false;
   LTree (NewRelationship "a" "d"); LTree (put "z" 3 (Some "d")); LTree (NewRelationship "a" "z")].
Definition asys : sys := lib_calls asteps new_sys.
Lemma asys_library : library keep asys.
Proof.
  apply lib_calls_library; [constructor|vm_compute; reflexivity|].
  intros n f d H. unfold asteps in H. repeat (destruct H as [H|H]; [try discriminate H; inversion H; subst; first [apply above_zero_local|apply all_nodes_local]|]). destruct H.
Qed.
Lemma asys_shows : forall i s, nth_error (s_listeners asys) i = Some (LView s) -> shows (s_tree asys) (s_bank asys) (LView s).
Proof. intros i s H. apply (all_show keep keep_perm asys asys_library). eapply nth_error_In. exact H. Qed.

Definition flatb (b : bank) (names : list id) : bool :=
  existsb (fun n => match get_filter b n with Some f => match f_dic f with Some d => p_flat d | None => false end | None => false end) names.
Lemma flatb_ok : forall b names, flatb b names = true <-> flattened b names.
Proof.
  intros b names. unfold flatb. rewrite existsb_exists. split.
  - intros (n & H & E). destruct (get_filter b n) as [f|] eqn:G; [|discriminate]. destruct (f_dic f) as [d|] eqn:F; [|discriminate]. exists n, f, d. auto.
  - intros (n & f & d & H & G & F & P). exists n. split; auto. rewrite G, F. auto.
Qed.
Lemma flat_is : forall b names fl, flatb b names = fl -> (fl = true <-> flattened b names).
Proof. intros b names fl <-. apply flatb_ok. Qed.

Lemma asys_tree : nth_error (s_listeners asys) 1 = Some (LView (view_at asys 1)) /\ shows (s_tree asys) (s_bank asys) (LView (view_at asys 1)) /\
  (false = true <-> flattened (s_bank asys) (filters (view_at asys 1))) /\
  satisfying (s_bank asys) (s_tree asys) (filters (view_at asys 1)) = ["a"; "d"; "z"] /\ get_parents (s_tree asys) "d" = ["c"; "a"].
Proof.
  split; [vm_compute; reflexivity|]. split; [apply (asys_shows 1); vm_compute; reflexivity|]. split; [apply flat_is; vm_compute; reflexivity|]. vm_compute. auto.
Qed.
Lemma asys_flat : nth_error (s_listeners asys) 2 = Some (LView (view_at asys 2)) /\ shows (s_tree asys) (s_bank asys) (LView (view_at asys 2)) /\
  (true = true <-> flattened (s_bank asys) (filters (view_at asys 2))) /\
  satisfying (s_bank asys) (s_tree asys) (filters (view_at asys 2)) = ["a"; "c"; "d"; "z"].
Proof.
  split; [vm_compute; reflexivity|]. split; [apply (asys_shows 2); vm_compute; reflexivity|]. split; [apply flat_is; vm_compute; reflexivity|]. vm_compute. auto.
Qed.
