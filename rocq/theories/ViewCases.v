(** Concrete cases that meet the hypotheses of the theorems about views. *)
From Coq Require Import Permutation.
From Verif Require Import Base BaseFacts MainTree Spec MainTight Filters FTree SpecApi SpecView SpecViewing FtView FtThm FtSignals FtHist FtQuiet FtRead
  Witness ApiWitness ViewWitness.

Lemma vend_facts : reach calm (fst (fst vend)) /\ no_clash (fst (fst vend)) (snd vend) /\ uptodate (fst (fst vend)) (snd (fst vend)) (snd vend) /\
  sound (snd vend) /\ proper (snd vend).
Proof. exact (viewing_uptodate keep keep_perm _ _ _ (viewing_parts _ _ vend_viewing)). Qed.

(** The diamond with all four nodes. *)
Definition vshow : viewed := view_calls keep [VTree (SetData "c" 5)] vstart.
Lemma vshow_viewing : viewing keep vshow.
Proof. apply viewing_calls; [apply vstart_viewing|]. apply supportedsb_ok. vm_compute. reflexivity. Qed.
Lemma vshow_facts : sound (snd vshow) /\ proper (snd vshow) /\ idle (snd vshow).
Proof.
  pose proof (viewing_parts _ _ vshow_viewing) as V. destruct (viewing_uptodate keep keep_perm _ _ _ V) as (_ & _ & _ & A & B).
  split; auto. split; auto. destruct (viewing_ready keep keep_perm _ vshow_viewing) as [_ R]. exact R.
Qed.
Definition vall : viewed := opened keep vtree vbank (Some "v") [].
Lemma vall_viewing : viewing keep vall.
Proof. apply viewing_start, vwelcome. Qed.
Definition vwait : viewed := view_calls keep [VQueue "z" 7; VQueue "y" 1; VQueue "z" 8] vstart.
Lemma vwait_viewing : viewing keep vwait.
Proof. apply viewing_calls; [apply vstart_viewing|]. apply supportedsb_ok. vm_compute. reflexivity. Qed.

Lemma case_rebuild : let t := fst (fst vend) in let b := qbank in let s := snd vend in let c := VApply "quiet" None true in
  reach calm t /\ no_clash t s /\ sound s /\ proper s /\ supported (t, b, s) c /\ rebuilding s c /\
  view_all_nodes (snd (fst (view_call keep c (t, b, s)))) = ["a"; "c"; "d"; "z"].
Proof.
  intros t b s c. destruct vend_facts as (A & B & _ & D & E). split; [exact A|]. split; [exact B|]. split; [exact D|]. split; [exact E|].
  split; [exact I|]. split; [right; left; reflexivity|]. vm_compute. reflexivity.
Qed.
Lemma case_nodes : viewing keep vend /\ view_all_nodes (snd vend) = ["a"; "d"; "c"; "z"] /\
  satisfying (snd (fst vend)) (fst (fst vend)) (filters (snd vend)) = ["a"; "c"; "d"; "z"].
Proof. split; [apply vend_viewing|]. split; vm_compute; reflexivity. Qed.
Lemma case_structure : viewing keep vend /\ pars (snd vend) "d" = ["c"] /\ pars (snd vend) "a" = [froot (snd vend)] /\
  kids (snd vend) "a" = ["c"].
Proof. split; [apply vend_viewing|]. split; [|split]; vm_compute; reflexivity. Qed.
Lemma case_signals : viewing keep vstart /\ onward keep vstart vend /\ sent (snd vend) = sent (snd vstart) ++ heard /\
  In (SAdded "d" ["a"; "c"; "d"]) heard /\ In (SDeleted "z" ["a"; "b"; "d"; "z"]) heard /\ length heard = 25.
Proof.
  destruct vstart_vend as [A B]. destruct heard_parts as (C & _ & D & E). pose proof heard_sent as H. split; [exact A|]. split; [exact B|]. split; [exact H|]. split; [exact C|]. split; [exact D|exact E].
Qed.
Lemma case_delete : viewing keep vshow /\ supported vshow (VTree (DelNode "a" true)) /\ pars (snd vshow) "d" = ["b"; "c"] /\
  parents (fst (fst vshow)) "d" = ["b"; "c"] /\ view_all_nodes (snd (fst (view_call keep (VTree (DelNode "a" true)) vshow))) = [].
Proof.
  split; [apply vshow_viewing|]. split; [apply supportedb_ok; vm_compute; reflexivity|]. split; [vm_compute; reflexivity|].
  split; vm_compute; reflexivity.
Qed.
Lemma case_paths : sound (snd vshow) /\ In "d" (view_all_nodes (snd vshow)) /\ view_paths (snd vshow) "d" = Ok [["a"; "b"; "d"]; ["a"; "c"; "d"]].
Proof. split; [apply vshow_facts|]. split; [vm_compute; auto|vm_compute; reflexivity]. Qed.
Lemma case_lookup : sound (snd vshow) /\ view_node_for_path (snd vshow) ["a"; "c"; "d"] = Ok (Some "d") /\
  view_node_for_path (snd vshow) ["c"; "d"] = Ok None.
Proof. split; [apply vshow_facts|]. split; vm_compute; reflexivity. Qed.
Lemma case_valid : sound (snd vshow) /\ is_path_valid (snd vshow) ["root_v"; "a"; "c"] = true.
Proof. split; [apply vshow_facts|]. vm_compute; reflexivity. Qed.
Lemma case_state : sound (snd vshow) /\ proper (snd vshow) /\ idle (snd vshow) /\
  skipn (length (sent (snd vshow))) (sent (fst (get_current_state (snd vshow)))) =
  [SAdded "a" ["a"]; SAdded "b" ["a"; "b"]; SAdded "c" ["a"; "c"]; SAdded "d" ["a"; "b"; "d"]; SAdded "d" ["a"; "c"; "d"]].
Proof. destruct vshow_facts as (A & B & C). split; [exact A|]. split; [exact B|]. split; [exact C|]. vm_compute. reflexivity. Qed.
Lemma case_quiet : let '(t, b, s) := vend in reach calm t /\ no_clash t s /\ uptodate t b s /\ announcing RefreshAll /\
  length (events RefreshAll t) = 4.
Proof.
  pose proof vend_facts as F. assert (L : length (events RefreshAll (fst (fst vend))) = 4) by (vm_compute; reflexivity).
  destruct vend as [[t b] s]. cbn [fst snd] in *. destruct F as (A & B & C & _). split; auto. split; auto. split; auto. split; auto. left; auto.
Qed.
Lemma case_counts : sound (snd vshow) /\ view_n_children (snd vshow) None true = Ok 5 /\ view_n_children (snd vshow) (Some "a") true = Ok 4.
Proof. split; [apply vshow_facts|]. split; vm_compute; reflexivity. Qed.
Lemma case_direct : view_n_children (snd vshow) (Some "a") false = Ok 2.
Proof. vm_compute. reflexivity. Qed.
Lemma case_with : let '(t, b, s) := vall in sound s /\ (forall n, In n (view_all_nodes s) -> has_node t n = true) /\
  view_all_nodes s = ["a"; "b"; "d"; "c"] /\ view_nodes b t s ["work"; "unknown"] = ["a"; "b"; "d"].
Proof.
  pose proof (viewing_parts _ _ vall_viewing) as V. destruct (viewing_uptodate keep keep_perm _ _ _ V) as (_ & _ & _ & A & _).
  assert (E : view_all_nodes (snd vall) = ["a"; "b"; "d"; "c"] /\ view_nodes (snd (fst vall)) (fst (fst vall)) (snd vall) ["work"; "unknown"] = ["a"; "b"; "d"]) by (vm_compute; auto).
  assert (H : forallb (has_node (fst (fst vall))) (view_all_nodes (snd vall)) = true) by (vm_compute; auto). rewrite forallb_forall in H.
  destruct vall as [[t b] s]. cbn [fst snd] in *. split; [exact A|]. split; [exact H|exact E].
Qed.
Definition fscript : list fcall :=
  [FApply "work" None false true; FApply "other" None false false; FApply "work" (Some (mkParams true false 0)) false true;
   FApply "flat" None false true; FUnapply "work" true; FUnapply "missing" true; FApply "flat" None false true].
Lemma case_filters : (forall n d rs rf, In (FApply n (Some d) rs rf) fscript -> get_filter vbank n <> None) /\
  filters (snd (fold_left (filter_call keep vtree) fscript (vbank, new_ft None))) = ["other"; "flat"].
Proof.
  split; [|vm_compute; reflexivity]. intros n d rs rf H. simpl in H. repeat (destruct H as [H|H]; [inversion H; subst; vm_compute; discriminate|]). destruct H.
Qed.
Lemma case_order : (forall n, In n ["work"; "flat"] <-> In n ["flat"; "work"; "flat"]) /\ satisfying vbank vtree ["work"; "flat"] = ["a"; "b"; "d"].
Proof. split; [intros n; simpl; tauto|vm_compute; reflexivity]. Qed.
Lemma case_unknown : In "other" ["work"; "other"] /\ get_filter vbank "other" = None.
Proof. split; [simpl; auto|reflexivity]. Qed.
Definition f_dic_of (b : bank) (n : id) : option params := match get_filter b n with Some f => f_dic f | None => None end.
Lemma case_independent : ~ In "flat" ["work"] /\
  f_dic_of (fst (fst (apply_filter keep vtree "flat" (Some (mkParams true true 5)) false true vbank (snd vstart)))) "flat" = Some (mkParams true true 5).
Proof. split; [simpl; intuition discriminate|vm_compute; reflexivity]. Qed.
Lemma case_actions : viewing keep vwait /\ supported vwait (VTree (put "z" 3 (Some "d"))) /\ waiting (snd vwait) "z" = [7; 8] /\
  skipn (length (sent (snd vwait))) (sent (snd (fst (view_call keep (VTree (put "z" 3 (Some "d"))) vwait)))) =
  [SRun "z" 7; SRun "z" 8; SAdded "z" ["a"; "b"; "d"; "z"]; SModified "a" ["a"]; SModified "b" ["a"; "b"]; SModified "d" ["a"; "b"; "d"]].
Proof. split; [apply vwait_viewing|]. split; [apply supportedb_ok; vm_compute; reflexivity|]. split; vm_compute; reflexivity. Qed.
Lemma case_queue : viewing keep vwait /\ is_displayed (snd vwait) "z" = false /\ is_displayed (snd vwait) "d" = true.
Proof. split; [apply vwait_viewing|]. split; vm_compute; reflexivity. Qed.
Lemma case_ids : viewing keep vend /\ calm (fst (fst vend)) (AddNode "runonce" (new_node 1) (Some "d")) /\
  "runonce" <> froot (snd vend) /\ ~ In "runonce" reserved.
Proof.
  split; [apply vend_viewing|]. split; [apply calmb_ok; vm_compute; reflexivity|]. split; [vm_compute; discriminate|simpl; intuition discriminate].
Qed.
