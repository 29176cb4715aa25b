(** Concrete cases of clients that look up what they know. *)
From Coq Require Import Permutation ZArith.
From Verif Require Import Base BaseFacts MainTree Spec Filters FTree SpecApi SpecView SpecViewing Gtk SpecGtk Widget Sort SpecSort
  Witness ApiWitness ViewWitness ViewCases GtkWitness.

(** b is deleted with d below it; d is also below c. *)
Definition acon : viewed * list (list id) := fst (client_connect attentive vshow []).
Definition adel : viewed * list (list id) := fst (client_call keep attentive (VTree (DelNode "b" true)) (fst acon) (snd acon)).
Definition adel_news : list sig :=
  [SModified "a" ["a"]; SDeleted "d" ["a"; "b"; "d"]; SDeleted "b" ["a"; "b"]; SModified "a" ["a"];
   SAdded "b" ["b"]; SAdded "d" ["b"; "d"]; SModified "b" ["b"]; SDeleted "d" ["b"; "d"]; SDeleted "d" ["a"; "c"; "d"];
   SModified "b" ["b"]; SModified "a" ["a"]; SModified "c" ["a"; "c"]; SDeleted "b" ["b"]].

Lemma acon_attended : attended keep (fst acon) (snd acon).
Proof. apply (attend_start keep vshow _ _ (Ok tt)); [apply vshow_viewing|]. vm_compute. reflexivity. Qed.

Lemma case_attend : attended keep (fst acon) (snd acon) /\ supported (fst acon) (VTree (DelNode "b" true)) /\
  snd acon = [["a"]; ["a"; "b"]; ["a"; "c"]; ["a"; "b"; "d"]; ["a"; "c"; "d"]] /\
  client_call keep attentive (VTree (DelNode "b" true)) (fst acon) (snd acon) = (adel, Ok tt) /\
  news (snd (fst acon)) (snd (fst adel)) = adel_news /\ snd adel = [["a"]; ["a"; "c"]].
Proof.
  split; [exact acon_attended|]. split; [apply supportedb_ok; vm_compute; reflexivity|]. split; [vm_compute; reflexivity|].
  split; [vm_compute; reflexivity|]. split; vm_compute; reflexivity.
Qed.

Lemma attended_parts : forall x cs, attended keep x cs -> attended keep (fst (fst x), snd (fst x), snd x) cs.
Proof. intros [[t b] s] cs H. exact H. Qed.
Lemma case_attended : attended keep (fst (fst (fst acon)), snd (fst (fst acon)), snd (fst acon)) (snd acon) /\ view_path (snd (fst acon)) ["a"; "c"; "d"].
Proof. split; [exact (attended_parts _ _ acon_attended)|]. split; [discriminate|vm_compute; tauto]. Qed.

Lemma case_connects : viewing keep vshow /\ snd (client_connect attentive vshow []) = Ok tt /\
  news (snd vshow) (snd (fst acon)) <> [].
Proof. split; [apply vshow_viewing|]. split; [vm_compute; reflexivity|]. vm_compute. discriminate. Qed.

(** Rows are compared by their data, in the order of the column. *)
Definition by_data : nat -> nat -> bool -> Z := fun x y o => if o then (Z.of_nat x - Z.of_nat y)%Z else (Z.of_nat y - Z.of_nat x)%Z.
Definition wpair : viewed * gtk := fst (widget_call keep counting (VTree (NewRelationship "a" "z")) (fst wend) (snd wend)).
Lemma case_sorts : faithful counting /\ never_reuses counting /\ watching keep counting (fst wend) (snd wend) /\
  supported (fst wend) (VTree (NewRelationship "a" "z")) /\
  client_call keep (sort_signal (Some by_data) true counting) (VTree (NewRelationship "a" "z")) (fst wend) (snd wend) = (wpair, Ok tt) /\
  sort_func (Some by_data) true (fst (fst (fst wpair))) (mkRow 6 (Some 0) "c" (Some 5)) (mkRow 56 (Some 0) "z" (Some 3)) = Ok 2%Z /\
  rows (snd wpair) = [mkRow 6 (Some 0) "c" (Some 5); mkRow 56 (Some 0) "z" (Some 3); mkRow 18 (Some 10) "z" (Some 3); mkRow 10 (Some 6) "d" (Some 2); mkRow 0 None "a" (Some 1)].
Proof.
  split; [exact counting_fresh|]. split; [exact counting_new|]. split; [exact wend_watching|].
  split; [apply supportedb_ok; vm_compute; reflexivity|]. split; [vm_compute; reflexivity|]. split; vm_compute; reflexivity.
Qed.

Lemma case_compares : faithful counting /\ never_reuses counting /\
  watching keep counting (fst (fst (fst wend)), snd (fst (fst wend)), snd (fst wend)) (snd wend) /\
  In (mkRow 18 (Some 10) "z" (Some 3)) (rows (snd wend)) /\ In (mkRow 6 (Some 0) "c" (Some 5)) (rows (snd wend)) /\
  sort_func (Some by_data) true (fst (fst (fst wend))) (mkRow 6 (Some 0) "c" (Some 5)) (mkRow 18 (Some 10) "z" (Some 3)) = Ok 2%Z.
Proof.
  split; [exact counting_fresh|]. split; [exact counting_new|]. split; [exact (watching_parts _ _ _ wend_watching)|].
  split; [vm_compute; tauto|]. split; vm_compute; tauto.
Qed.

Lemma case_separates : faithful counting /\ never_reuses counting /\
  watching keep counting (fst (fst (fst wend)), snd (fst (fst wend)), snd (fst wend)) (snd wend) /\
  In (mkRow 18 (Some 10) "z" (Some 3)) (rows (snd wend)) /\
  separator_func (Some (Nat.eqb 3)) (fst (fst (fst wend))) (mkRow 18 (Some 10) "z" (Some 3)) = Ok true.
Proof.
  split; [exact counting_fresh|]. split; [exact counting_new|]. split; [exact (watching_parts _ _ _ wend_watching)|].
  split; vm_compute; tauto.
Qed.

(** A row whose node is gone: comparing raises. *)
Definition gone_store : gtk := mkGtk [mkRow 0 None "a" (Some 1); mkRow 1 None "gone" (Some 2)] 2 [] [].
Lemma case_raises :
  In (mkRow 0 None "a" (Some 1)) (rows gone_store) /\ In (mkRow 1 None "gone" (Some 2)) (rows gone_store) /\
  has_node (fst (fst vshow)) "a" = true /\ has_node (fst (fst vshow)) "gone" = false /\
  compare_rows (Some by_data) true (fst (fst vshow)) gone_store = Err ValueError.
Proof. split; [left; reflexivity|]. split; [right; left; reflexivity|]. split; [vm_compute; reflexivity|]. split; vm_compute; reflexivity. Qed.

Definition sconn : viewed * gtk := fst (connect counting vshow).
Lemma case_sort_connects : faithful counting /\ never_reuses counting /\ viewing keep vshow /\
  client_connect (sort_signal (Some by_data) true counting) vshow new_gtk = (sconn, Ok tt) /\ map r_id (rows (snd sconn)) = ["c"; "d"; "d"; "a"; "b"].
Proof.
  split; [exact counting_fresh|]. split; [exact counting_new|]. split; [apply vshow_viewing|]. split; vm_compute; reflexivity.
Qed.
