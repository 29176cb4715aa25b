(** Concrete widgets whose rows are opened and closed by calls. *)
From Verif Require Import Base BaseFacts MainTree Spec Filters FTree SpecApi SpecView SpecViewing Gtk SpecGtk Widget SpecWidget SpecLone SpecExpand SpecExpandLone
  FtTree FtMind Witness ApiWitness ViewWitness GtkWitness GtkFacts GtkView MainPaths WidgetPlaces WidgetWitness LoneCases LoneWidget LoneWidgetCases ExpandCases CloseCases WidgetExpandLone ExpandLoneCases.

Lemma spared : forall q l, forallb (fun x => match x with SDeleted _ q' => negb (path_eqb (removelast q') q) | _ => true end) l = true -> forall m, ~ In (SDeleted m (q ++ [m])) l.
Proof.
  intros q l H m I. rewrite forallb_forall in H. apply H in I. cbn beta iota in I. rewrite removelast_last in I. apply negb_true_iff in I.
  apply not_true_iff_false in I. apply I. apply path_eqb_eq. reflexivity.
Qed.

(** a and all nodes below it are deleted: e stays open. *)
Definition wcall : vcall := VTree (DelNode "a" true).
Definition wrest : viewed * panel := fst (panel_call counting keep wcall (parts kopen) (snd kopen)).
Lemma case_lasts : faithful counting /\ never_reuses counting /\ handled keep counting (parts kopen) (snd kopen) /\ supported (parts kopen) wcall /\
  at_path (rows (store (snd kopen))) row_e ["e"] /\ is_open (snd kopen) row_e /\ has_below (rows (store (snd kopen))) row_e /\
  (forall m, ~ In (SDeleted m (["e"] ++ [m])) (news (snd (parts kopen)) (snd (fst wrest)))) /\
  length (rows (store (snd kopen))) = 8 /\ map r_id (rows (store (snd wrest))) = ["e"; "f"; "g"] /\ is_open (snd wrest) row_e.
Proof.
  destruct case_open as (A & B & _). split; [exact A|]. split; [exact B|]. split; [exact kopen_handled|]. split; [apply supportedb_ok; vm_compute; reflexivity|].
  split; [apply (at_top _ row_e); [vm_compute; tauto|reflexivity]|]. split; [vm_compute; tauto|]. split; [exists row_f; split; [vm_compute; tauto|reflexivity]|].
  split; [apply spared; vm_compute; reflexivity|]. split; [vm_compute; reflexivity|]. split; [vm_compute; reflexivity|]. vm_compute; tauto.
Qed.

(** A node that is displayed gets its first node below: its row is opened. *)
Definition wopen : vcall := VTree (put "y" 1 (Some "z")).
Definition wadded : viewed * panel := hand_steps [HNode true "e"; HNode false "'b'"; HCall (VTree (put "z" 1 None))] uend.
Definition wnext : viewed * panel := fst (panel_call counting keep wopen (parts wadded) (snd wadded)).
Lemma wadded_handled : handled keep counting (parts wadded) (snd wadded).
Proof. eapply hands_ok; [|unfold wadded; reflexivity]. vm_compute. reflexivity. Qed.
Lemma case_first : faithful counting /\ never_reuses counting /\ handled keep counting (parts wadded) (snd wadded) /\ rows_open (snd wadded) /\ supported (parts wadded) wopen /\
  at_path (rows (store (snd wnext))) row_z ["z"] /\ is_open (snd wnext) row_z /\ ~ is_open (snd wadded) row_z /\
  In (SAdded "y" ["z"; "y"]) (news (snd (parts wadded)) (snd (fst wnext))) /\ In ["a"; "b"] (collapsed_paths (snd wadded)).
Proof.
  destruct case_open as (A & B & _). split; [exact A|]. split; [exact B|]. split; [exact wadded_handled|]. split; [apply rows_openb; vm_compute; reflexivity|].
  split; [apply supportedb_ok; vm_compute; reflexivity|]. split; [apply (at_top _ row_z); [vm_compute; tauto|reflexivity]|]. split; [vm_compute; tauto|].
  split; [vm_compute; intuition discriminate|]. split; vm_compute; tauto.
Qed.

(** The same with addresses that are used again. *)
Definition lcall : vcall := VTree (DelNode "B" true).
Definition lrest : viewed * panel := fst (panel_call lowest keep lcall (parts lopen) (snd lopen)).
Lemma lcase_lasts : faithful lowest /\ handled_single keep lowest (parts lopen) (snd lopen) /\ supported (parts lopen) lcall /\ one_parent (base_tree (fst lrest)) /\
  at_path (rows (store (snd lopen))) row_A ["A"] /\ is_open (snd lopen) row_A /\ has_below (rows (store (snd lopen))) row_A /\
  (forall m, ~ In (SDeleted m (["A"] ++ [m])) (news (snd (parts lopen)) (snd (fst lrest)))) /\
  map r_id (rows (store (snd lrest))) = ["A"; "Y"; "V"; "X"; "U"] /\ is_open (snd lrest) row_A.
Proof.
  split; [exact lowest_fresh|]. split; [exact lopen_handled|]. split; [apply supportedb_ok; vm_compute; reflexivity|]. split; [apply one_parentb; vm_compute; reflexivity|].
  split; [apply (at_top _ row_A); [vm_compute; tauto|reflexivity]|]. split; [vm_compute; tauto|]. split; [exists row_Y; split; [vm_compute; tauto|reflexivity]|].
  split; [apply spared; vm_compute; reflexivity|]. split; [vm_compute; reflexivity|]. vm_compute; tauto.
Qed.
Definition lbare : viewed * panel := lhands [HNode true "Y"; HCall (VTree (put "z" 1 None))] lend.
Definition lfull : viewed * panel := fst (panel_call lowest keep wopen (parts lbare) (snd lbare)).
Lemma lbare_handled : handled_single keep lowest (parts lbare) (snd lbare).
Proof. eapply lhands_end; [|unfold lbare; reflexivity]. vm_compute. reflexivity. Qed.
Lemma lcase_first : faithful lowest /\ handled_single keep lowest (parts lbare) (snd lbare) /\ rows_open (snd lbare) /\ supported (parts lbare) wopen /\ one_parent (base_tree (fst lfull)) /\
  at_path (rows (store (snd lfull))) lrow_z ["z"] /\ is_open (snd lfull) lrow_z /\ ~ is_open (snd lbare) lrow_z /\
  In (SAdded "y" ["z"; "y"]) (news (snd (parts lbare)) (snd (fst lfull))) /\ In ["B"] (collapsed_paths (snd lbare)).
Proof.
  split; [exact lowest_fresh|]. split; [exact lbare_handled|]. split; [apply rows_openb; vm_compute; reflexivity|]. split; [apply supportedb_ok; vm_compute; reflexivity|].
  split; [apply one_parentb; vm_compute; reflexivity|]. split; [apply (at_top _ lrow_z); [vm_compute; tauto|reflexivity]|]. split; [vm_compute; tauto|].
  split; [vm_compute; intuition discriminate|]. split; vm_compute; tauto.
Qed.

Lemma case_only : faithful counting /\ never_reuses counting /\ handled keep counting (parts kend) (snd kend) /\ rows_open (snd kend) /\ supported (parts kend) (VTree (DelNode "z" true)) /\
  is_open (snd kend) row_z /\ ~ In 34 (expanded (snd (fst (panel_call counting keep (VTree (DelNode "z" true)) (parts kend) (snd kend))))) /\
  idle_calls (snd kend) = [("z", false)].
Proof.
  destruct case_open as (A & B & _). split; [exact A|]. split; [exact B|]. split; [exact kend_handled|]. split; [apply rows_openb; vm_compute; reflexivity|].
  split; [apply supportedb_ok; vm_compute; reflexivity|]. split; [vm_compute; tauto|]. split; [vm_compute; intuition discriminate|]. vm_compute; reflexivity.
Qed.

(** A row that is closed by a call loses its address to a new row, which is closed. *)
Definition lgone : viewed * panel := lhands [HNode true "Y"; HCall (VTree (DelNode "V" true)); HCall (VTree (DelNode "Y" true))] lend.
Definition lnew : viewed * panel := fst (panel_call lowest keep (VTree (put "Q" 1 None)) (parts lgone) (snd lgone)).
Lemma lgone_handled : handled_single keep lowest (parts lgone) (snd lgone).
Proof. eapply lhands_end; [|unfold lgone; reflexivity]. vm_compute. reflexivity. Qed.
Lemma lcase_only : faithful lowest /\ handled_single keep lowest (parts lgone) (snd lgone) /\ rows_open (snd lgone) /\ supported (parts lgone) (VTree (put "Q" 1 None)) /\
  one_parent (base_tree (fst lnew)) /\ is_open (snd lopen) row_Y /\ In (mkRow (r_addr row_Y) None "Q" (Some 1)) (rows (store (snd lnew))) /\ ~ In (r_addr row_Y) (expanded (snd lnew)).
Proof.
  split; [exact lowest_fresh|]. split; [exact lgone_handled|]. split; [apply rows_openb; vm_compute; reflexivity|]. split; [apply supportedb_ok; vm_compute; reflexivity|].
  split; [apply one_parentb; vm_compute; reflexivity|]. split; [vm_compute; tauto|]. split; [vm_compute; tauto|]. vm_compute. intuition discriminate.
Qed.
