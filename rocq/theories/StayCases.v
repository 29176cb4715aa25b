(** Concrete cases of what calls leave alone. *)
From Coq Require Import Permutation.
From Verif Require Import Base BaseFacts MainTree Spec Filters FTree SpecApi SpecView SpecViewing SpecStay Gtk SpecGtk Witness ApiWitness ViewWitness ViewCases GtkWitness.

(** d loses one of its two places. *)
Definition vless : viewed := fst (view_call keep (VTree (RemoveParent "d" "b")) vshow).
Definition less_news : list sig :=
  [SModified "a" ["a"]; SModified "b" ["a"; "b"]; SDeleted "d" ["a"; "b"; "d"]; SModified "a" ["a"];
   SModified "b" ["a"; "b"]; SModified "a" ["a"]; SModified "c" ["a"; "c"]; SModified "d" ["a"; "c"; "d"]].
Lemma case_less : viewing keep vshow /\ supported vshow (VTree (RemoveParent "d" "b")) /\
  view_call keep (VTree (RemoveParent "d" "b")) vshow = (vless, Ok tt) /\
  view_path (snd vshow) ["a"; "c"; "d"] /\ view_path (snd vless) ["a"; "c"; "d"] /\ view_path (snd vshow) ["a"; "b"; "d"] /\
  news (snd vshow) (snd vless) = less_news.
Proof.
  split; [apply vshow_viewing|]. split; [apply supportedb_ok; vm_compute; reflexivity|]. split; [vm_compute; reflexivity|].
  split; [split; [discriminate|vm_compute; tauto]|]. split; [split; [discriminate|vm_compute; tauto]|].
  split; [split; [discriminate|vm_compute; tauto]|]. vm_compute; reflexivity.
Qed.

(** b moves below c. *)
Definition vmove : viewed := fst (view_call keep (VTree (MoveNode "b" (Some "c"))) vshow).
Lemma case_elsewhere : viewing keep vshow /\ supported vshow (VTree (MoveNode "b" (Some "c"))) /\ about (MoveNode "b" (Some "c")) = Some "b" /\
  view_call keep (VTree (MoveNode "b" (Some "c"))) vshow = (vmove, Ok tt) /\
  view_path (snd vshow) ["a"; "c"; "d"] /\ ~ In "b" ["a"; "c"; "d"] /\
  In (SDeleted "d" ["a"; "b"; "d"]) (news (snd vshow) (snd vmove)) /\ length (news (snd vshow) (snd vmove)) = 17.
Proof.
  split; [apply vshow_viewing|]. split; [apply supportedb_ok; vm_compute; reflexivity|]. split; [reflexivity|]. split; [vm_compute; reflexivity|].
  split; [split; [discriminate|vm_compute; tauto]|]. split; [simpl; intuition discriminate|]. split; [vm_compute; tauto|vm_compute; reflexivity].
Qed.

Definition vagain : viewed := fst (view_call keep VRefilter vshow).
Lemma witness_rebuilt : exists t b s s' q n, viewing keep (t, b, s) /\ supported (t, b, s) VRefilter /\ view_call keep VRefilter (t, b, s) = (t, b, s', Ok tt) /\
  view_path s q /\ view_path s' q /\ In (SDeleted n q) (news s s') /\ In (SAdded n q) (news s s').
Proof.
  exists (fst (fst vshow)), (snd (fst vshow)), (snd vshow), (snd vagain), ["a"; "b"; "d"], "d".
  split; [apply (viewing_parts _ _ vshow_viewing)|]. split; [exact I|]. split; [vm_compute; reflexivity|].
  split; [split; [discriminate|vm_compute; tauto]|]. split; [split; [discriminate|vm_compute; tauto]|]. split; vm_compute; tauto.
Qed.

Lemma not_path : forall s x q, mem x (kids s (froot s)) = false -> ~ view_path s (x :: q).
Proof. intros s x q H [_ [I _]]. apply mem_In in I. congruence. Qed.
Lemma witness_passing : exists t b s s' o q n, viewing keep (t, b, s) /\ supported (t, b, s) (VTree o) /\ view_call keep (VTree o) (t, b, s) = (after o t, b, s', Ok tt) /\
  ~ view_path s q /\ ~ view_path s' q /\ In (SAdded n q) (news s s') /\ In (SDeleted n q) (news s s').
Proof.
  exists (fst (fst vshow)), (snd (fst vshow)), (snd vshow), (snd vmove), (MoveNode "b" (Some "c")), ["b"], "b".
  split; [apply (viewing_parts _ _ vshow_viewing)|]. split; [apply (supportedb_ok (fst (fst vshow), snd (fst vshow), snd vshow)); vm_compute; reflexivity|]. split; [vm_compute; reflexivity|].
  split; [apply not_path; vm_compute; reflexivity|]. split; [apply not_path; vm_compute; reflexivity|]. split; vm_compute; tauto.
Qed.

(** z gets a second place. *)
Definition wmore : viewed * gtk := fst (widget_call keep counting (VTree (NewRelationship "a" "z")) (fst wend) (snd wend)).
Definition wrows : list row := [mkRow 6 (Some 0) "c" (Some 5); mkRow 18 (Some 10) "z" (Some 3); mkRow 10 (Some 6) "d" (Some 2); mkRow 0 None "a" (Some 1)].
Lemma case_rows : faithful counting /\ never_reuses counting /\
  watching keep counting (fst (fst (fst wend)), snd (fst (fst wend)), snd (fst wend)) (snd wend) /\
  supported (fst wend) (VTree (NewRelationship "a" "z")) /\
  widget_call keep counting (VTree (NewRelationship "a" "z")) (fst wend) (snd wend) = (wmore, Ok tt) /\
  at_path (rows (snd wend)) (mkRow 18 (Some 10) "z" (Some 3)) ["a"; "c"; "d"; "z"] /\ view_path (snd (fst wmore)) ["a"; "c"; "d"; "z"] /\
  rows (snd wmore) = [mkRow 6 (Some 0) "c" (Some 5); mkRow 56 (Some 0) "z" (Some 3); mkRow 18 (Some 10) "z" (Some 3); mkRow 10 (Some 6) "d" (Some 2); mkRow 0 None "a" (Some 1)].
Proof.
  split; [exact counting_fresh|]. split; [exact counting_new|]. split; [exact (watching_parts _ _ _ wend_watching)|].
  split; [apply supportedb_ok; vm_compute; reflexivity|]. split; [vm_compute; reflexivity|]. split.
  - assert (E : rows (snd wend) = wrows) by (vm_compute; reflexivity). rewrite E.
    apply (at_below wrows (mkRow 18 (Some 10) "z" (Some 3)) (mkRow 10 (Some 6) "d" (Some 2)) ["a"; "c"; "d"]); [simpl; tauto|reflexivity|].
    apply (at_below wrows (mkRow 10 (Some 6) "d" (Some 2)) (mkRow 6 (Some 0) "c" (Some 5)) ["a"; "c"]); [simpl; tauto|reflexivity|].
    apply (at_below wrows (mkRow 6 (Some 0) "c" (Some 5)) (mkRow 0 None "a" (Some 1)) ["a"]); [simpl; tauto|reflexivity|].
    apply (at_top wrows (mkRow 0 None "a" (Some 1))); [simpl; tauto|reflexivity].
  - split; [split; [discriminate|vm_compute; tauto]|vm_compute; reflexivity].
Qed.

(** The wrong one of two rows of X is removed. *)
Definition gbefore : viewed * gtk := widget_calls lowest (removelast gsteps) (fst (connect lowest gview)).
Lemma gbefore_watching : watching keep lowest (fst gbefore) (snd gbefore).
Proof. apply watching_calls; [apply watching_connect; apply gview_viewing|]. vm_compute. reflexivity. Qed.
Definition grows_before : list row :=
  [mkRow 0 None "A" (Some 1); mkRow 3 None "B" (Some 1); mkRow 1 None "Z" (Some 1); mkRow 2 (Some 3) "X" (Some 1); mkRow 4 (Some 0) "X" (Some 1)].
Lemma gbefore_rows : rows (snd gbefore) = grows_before.
Proof. vm_compute. reflexivity. Qed.
Lemma witness_reuse : exists pf o t b s g t' b' s' g' r q, faithful pf /\ watching keep pf (t, b, s) g /\ supported (t, b, s) (VTree o) /\
  widget_call keep pf (VTree o) (t, b, s) g = (t', b', s', g', Ok tt) /\
  view_path s q /\ at_path (rows g) r q /\ view_path s' q /\ forall r', ~ at_path (rows g') r' q.
Proof.
  exists lowest, (BreakRelationship "A" "X"), (fst (fst (fst gbefore))), (snd (fst (fst gbefore))), (snd (fst gbefore)), (snd gbefore),
    (fst (fst (fst gend))), (snd (fst (fst gend))), (snd (fst gend)), (snd gend), (mkRow 2 (Some 3) "X" (Some 1)), ["B"; "X"].
  split; [exact lowest_fresh|]. split; [exact (watching_parts _ _ _ gbefore_watching)|].
  split; [apply supportedb_ok; vm_compute; reflexivity|]. split; [vm_compute; reflexivity|].
  split; [split; [discriminate|vm_compute; auto 10]|]. rewrite gbefore_rows, gend_rows. split; [|split; [|exact grows_BX]].
  - apply (at_below grows_before (mkRow 2 (Some 3) "X" (Some 1)) (mkRow 3 None "B" (Some 1)) ["B"]); [unfold grows_before; simpl; auto 10|reflexivity|].
    apply (at_top grows_before (mkRow 3 None "B" (Some 1))); [unfold grows_before; simpl; auto|reflexivity].
  - split; [discriminate|]. vm_compute. auto 10.
Qed.
