(** A widget that shows a row below the wrong node, since an address was used again. *)
From Coq Require Import Permutation.
From Verif Require Import Base BaseFacts MainTree Spec Filters FTree SpecApi SpecView SpecViewing Gtk SpecGtk Widget SpecWidget
  Witness ApiWitness ViewWitness GtkWitness WidgetWitness LoneWidgetCases.

Definition wsteps : list ustep := map UCall gsteps ++ [UFold "A"].
Definition wend : viewed * panel := use_steps lowest wsteps (built lowest gview).
Lemma wend_use : in_use keep lowest anything ["A"] (fst wend) (snd wend).
Proof.
  apply (use_steps_ok lowest anything wsteps []); [|vm_compute; reflexivity].
  apply built_ok; [exact gview_viewing|constructor|]. intros n. reflexivity.
Qed.
Lemma wend_rows : rows (store (snd wend)) = grows.
Proof. vm_compute. reflexivity. Qed.
Lemma at_AX : at_path grows (mkRow 4 (Some 0) "X" (Some 1)) ["A"; "X"].
Proof. apply (at_below grows (mkRow 4 (Some 0) "X" (Some 1)) (mkRow 0 None "A" (Some 1)) ["A"]); [here|here|]. apply (at_top grows (mkRow 0 None "A" (Some 1))); here. Qed.
Lemma wrong_places : faithful lowest /\ in_use keep lowest anything ["A"] (fst (fst (fst wend)), snd (fst (fst wend)), snd (fst wend)) (snd wend) /\
  view_path (snd (fst wend)) ["B"; "X"] /\ rows (store (snd wend)) = grows /\
  indices 4 (store (snd wend)) = Some [0; 0] /\ option_map r_id (row_for [0; 0] (store (snd wend))) = Some "X" /\
  emitted [0; 0] (store (snd wend)) = Ok ["A"; "X"] /\
  map (fun ix => row_for ix (store (snd wend))) [[0; 0]; [2]] = map Some [mkRow 4 (Some 0) "X" (Some 1); mkRow 1 None "Z" (Some 1)].
Proof.
  split; [exact lowest_fresh|]. split; [exact (use_parts _ _ _ _ _ wend_use)|]. split; [split; [discriminate|vm_compute; auto 10]|]. split; [exact wend_rows|].
  split; [vm_compute; reflexivity|]. split; [vm_compute; reflexivity|]. split; vm_compute; reflexivity.
Qed.
Lemma wrong_called : faithful lowest /\ in_use keep lowest anything ["A"] (fst (fst (fst wend)), snd (fst (fst wend)), snd (fst wend)) (snd wend) /\
  nth_error (sources sources_set) 1 = Some ("tags", 9) /\ row_for [0; 0] (store (snd wend)) = Some (mkRow 4 (Some 0) "X" (Some 1)) /\
  at_path (rows (store (snd wend))) (mkRow 4 (Some 0) "X" (Some 1)) ["A"; "X"] /\ goes_to After ["A"; "X"] = Some "A" /\
  map (fun jx => row_for jx (store (snd lone))) [[0]; [1]] = map Some [mkRow 0 None "a" (Some 5); mkRow 2 None "'q'" (Some 4)] /\
  drop_external (dnd_after sources_set) 2 (Some ([0; 0], After)) [[0]; [1]] (store (snd wend)) (store (snd lone)) = Ok [(9, "a", "A"); (9, "'q'", "A")].
Proof.
  split; [exact lowest_fresh|]. split; [exact (use_parts _ _ _ _ _ wend_use)|]. split; [reflexivity|]. split; [vm_compute; reflexivity|].
  rewrite wend_rows. split; [exact at_AX|]. split; [reflexivity|]. split; vm_compute; reflexivity.
Qed.
(** The widget is not a picture of its view any more. *)
Lemma wrong_rows : exists pf t b s p, faithful pf /\ in_use keep pf anything ["A"] (t, b, s) p /\
  view_path s ["B"; "X"] /\ (forall r, ~ at_path (rows (store p)) r ["B"; "X"]) /\ ~ view_path s ["A"; "X"] /\ exists r, at_path (rows (store p)) r ["A"; "X"].
Proof.
  exists lowest, (fst (fst (fst wend))), (snd (fst (fst wend))), (snd (fst wend)), (snd wend). split; [exact lowest_fresh|]. split; [exact (use_parts _ _ _ _ _ wend_use)|].
  rewrite wend_rows. split; [split; [discriminate|vm_compute; auto 10]|]. split; [exact grows_BX|]. split.
  - intros [_ H]. vm_compute in H. intuition discriminate.
  - exists (mkRow 4 (Some 0) "X" (Some 1)). exact at_AX.
Qed.
(** Deleting X raises in the widget: it has no row below B. *)
Lemma wrong_raises : exists pf t b s p, faithful pf /\ in_use keep pf anything ["A"] (t, b, s) p /\
  supported (t, b, s) (VTree (DelNode "X" false)) /\ snd (view_call keep (VTree (DelNode "X" false)) (t, b, s)) = Ok tt /\
  snd (panel_call pf keep (VTree (DelNode "X" false)) (t, b, s) p) = Err PyException.
Proof.
  exists lowest, (fst (fst (fst wend))), (snd (fst (fst wend))), (snd (fst wend)), (snd wend). split; [exact lowest_fresh|]. split; [exact (use_parts _ _ _ _ _ wend_use)|].
  split; [apply supportedb_ok; vm_compute; reflexivity|]. split; vm_compute; reflexivity.
Qed.

Lemma case_missing : In [0; 9] [[0; 0]; [0; 9]; [2]] /\ row_for [0; 9] (store (snd wend)) = None /\ ids_at [[0; 0]; [2]] (store (snd wend)) = Ok ["X"; "Z"].
Proof. split; [right; left; reflexivity|]. vm_compute. auto. Qed.
