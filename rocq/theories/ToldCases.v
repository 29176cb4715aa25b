(** Concrete cases that meet the hypotheses of the theorems about modified signals and
    about the rows of the Gtk model. *)
From Coq Require Import Permutation.
From Verif Require Import Base BaseFacts MainTree Spec MainTight Filters FTree SpecApi SpecView SpecViewing SpecTold SpecFrame FtRead Gtk SpecGtk GtkView
  Witness ApiWitness ViewWitness ViewCases GtkWitness.

Definition shown (x : viewed) (n : id) : Prop :=
  reach calm (fst (fst x)) /\ no_clash (fst (fst x)) (snd x) /\ local_bank (snd (fst x)) /\ uptodate (fst (fst x)) (snd (fst x)) (snd x) /\ In n (view_all_nodes (snd x)).
Definition new_signals (x : viewed) (c : vcall) : list sig := skipn (length (sent (snd x))) (sent (snd (fst (view_call keep c x)))).

Lemma vshow_local : local_bank (snd (fst vshow)).
Proof. assert (E : snd (fst vshow) = vbank) by (vm_compute; reflexivity). rewrite E. exact vbank_local. Qed.
Lemma vshow_shown : shown vshow "d".
Proof.
  destruct (viewing_uptodate keep keep_perm _ _ _ (viewing_parts _ _ vshow_viewing)) as (A & B & C & _).
  split; [exact A|]. split; [exact B|]. split; [exact vshow_local|]. split; [exact C|]. vm_compute. auto.
Qed.
Lemma case_modify : shown vshow "d" /\ new_signals vshow (VTree (ModifyNode "d")) =
  [SModified "a" ["a"]; SModified "b" ["a"; "b"]; SModified "a" ["a"]; SModified "c" ["a"; "c"]; SModified "d" ["a"; "b"; "d"]; SModified "d" ["a"; "c"; "d"]].
Proof. split; [exact vshow_shown|]. vm_compute. reflexivity. Qed.
Lemma case_change : shown vshow "d" /\
  In "d" (satisfying (snd (fst vshow)) (after (SetData "d" 3) (fst (fst vshow))) (filters (snd vshow))) /\
  data_at (fst (fst vshow)) "d" = Some 2 /\
  new_signals vshow (VTree (SetData "d" 3)) = new_signals vshow (VTree (ModifyNode "d")).
Proof. split; [exact vshow_shown|]. split; [vm_compute; auto 10|]. split; vm_compute; reflexivity. Qed.
Lemma case_refresh : shown vshow "d" /\ length (new_signals vshow (VTree RefreshAll)) = 11 /\
  In (SModified "d" ["a"; "c"; "d"]) (new_signals vshow (VTree RefreshAll)).
Proof. split; [exact vshow_shown|]. split; [vm_compute; reflexivity|]. vm_compute. auto 20. Qed.

(** A row with a row below it is removed; two others stay. *)
Lemma case_subtree : faithful lowest /\ on_heard lowest gsignals new_gtk = (fst (on_heard lowest gsignals new_gtk), Ok tt) /\
  on_signal lowest gtree (SDeleted "X" ["B"; "X"]) (fst (on_heard lowest gsignals new_gtk)) =
    (fst (on_signal lowest gtree (SDeleted "X" ["B"; "X"]) (fst (on_heard lowest gsignals new_gtk))), Ok tt) /\
  map r_id (rows (fst (on_heard lowest gsignals new_gtk))) = ["A"; "B"; "X"; "Y"] /\
  map r_id (rows (fst (on_signal lowest gtree (SDeleted "X" ["B"; "X"]) (fst (on_heard lowest gsignals new_gtk))))) = ["A"; "B"].
Proof. split; [exact lowest_fresh|]. split; [vm_compute; reflexivity|]. split; [vm_compute; reflexivity|]. split; vm_compute; reflexivity. Qed.

(** The diamond with a Gtk model: the data of the node at two places changes. *)
Definition wdata : viewed * gtk := widget_calls counting [VTree (SetData "c" 5); VTree (SetData "d" 7)] wstart.
Lemma wdata_watching : watching keep counting (fst wdata) (snd wdata).
Proof. apply watching_calls; [apply watching_connect; apply vstart_viewing|]. vm_compute. reflexivity. Qed.
Lemma case_data : faithful counting /\ never_reuses counting /\ (forall d, column counting d <> None) /\
  watching keep counting (fst (fst (fst wdata)), snd (fst (fst wdata)), snd (fst wdata)) (snd wdata) /\
  map (fun r => (r_id r, r_col r)) (rows (snd wstart)) = [("d", Some 2); ("a", Some 1); ("b", Some 1)] /\
  map (fun r => (r_id r, r_col r)) (rows (snd wdata)) = [("d", Some 7); ("d", Some 7); ("c", Some 5); ("b", Some 1); ("a", Some 1)].
Proof.
  split; [exact counting_fresh|]. split; [exact counting_new|]. split; [discriminate|]. split; [exact (watching_parts _ _ _ wdata_watching)|].
  split; vm_compute; reflexivity.
Qed.

(** With addresses given out again a row keeps old data. *)
Definition gstale : viewed * gtk := widget_calls lowest (removelast gsteps ++ [VTree (SetData "X" 9)]) (fst (connect lowest gview)).
Lemma gstale_watching : watching keep lowest (fst gstale) (snd gstale).
Proof. apply watching_calls; [apply watching_connect; apply gview_viewing|]. vm_compute. reflexivity. Qed.
Lemma stale_row : exists pf t b s g r, faithful pf /\ watching keep pf (t, b, s) g /\
  view_path s ["A"; "X"] /\ In r (rows g) /\ r_id r = "X" /\ r_col r = Some 1 /\ data_at t "X" = Some 9.
Proof.
  exists lowest, (fst (fst (fst gstale))), (snd (fst (fst gstale))), (snd (fst gstale)), (snd gstale), (mkRow 4 (Some 0) "X" (Some 1)).
  split; [exact lowest_fresh|]. split; [exact (watching_parts _ _ _ gstale_watching)|]. split; [split; [discriminate|vm_compute; auto 10]|].
  split; [vm_compute; auto 10|]. split; [reflexivity|]. split; [reflexivity|]. vm_compute. reflexivity.
Qed.

(** A column that becomes empty keeps its old value. *)
Definition forgetful : platform := mkPlatform new_address (fun _ l => l) (fun d => if Nat.ltb d 5 then Some d else None).
Lemma forgetful_faithful : faithful forgetful /\ never_reuses forgetful.
Proof. split; [split; [exact (proj1 counting_fresh)|intros; apply Permutation_refl]|exact counting_new]. Qed.
Definition wempty : viewed * gtk := widget_calls forgetful [VTree (SetData "d" 7)] (fst (connect forgetful vstart)).
Lemma wempty_watching : watching keep forgetful (fst wempty) (snd wempty).
Proof. apply watching_calls; [apply watching_connect; apply vstart_viewing|]. vm_compute. reflexivity. Qed.
Lemma empty_column : exists pf t b s g r, faithful pf /\ never_reuses pf /\ watching keep pf (t, b, s) g /\
  In r (rows g) /\ r_col r = Some 2 /\ data_at t (r_id r) = Some 7 /\ column pf 7 = None.
Proof.
  exists forgetful, (fst (fst (fst wempty))), (snd (fst (fst wempty))), (snd (fst wempty)), (snd wempty), (mkRow 4 (Some 2) "d" (Some 2)).
  split; [apply forgetful_faithful|]. split; [apply forgetful_faithful|]. split; [exact (watching_parts _ _ _ wempty_watching)|].
  split; [vm_compute; auto 10|]. split; [reflexivity|]. split; vm_compute; reflexivity.
Qed.
