(** Concrete cases of colours. *)
From Coq Require Import Permutation NArith.
From Verif Require Import Base BaseFacts MainTree Spec Filters FTree SpecApi SpecView SpecViewing SpecFrame Gtk SpecGtk Cells SpecPaint
  Witness ApiWitness ViewWitness ViewCases GtkWitness.

(** Colour 1 is black, 2 a dark red, all others up to 10 are white; further names are
    unknown. *)
Definition palette (c : color) : option (N * N * N) :=
  match c with 1 => Some (0, 0, 0)%N | 2 => Some (60000, 0, 0)%N | _ => if Nat.leb c 10 then Some (65535, 65535, 65535)%N else None end.
Definition by_parity (d : nat) : option nat := Some (if Nat.even d then 2 else 3).

(** The function of the column is exchanged; the rows keep their values until
    refresh_all is called. *)
Definition pset' : viewed * gtk := fst (connect (repainted counting Some) vshow).
Definition pdone : viewed * gtk := fst (widget_call keep (repainted counting by_parity) (VTree RefreshAll) (fst pset') (snd pset')).

Lemma pset_painting : painting keep counting by_parity false (fst pset') (snd pset').
Proof.
  apply (paint_set keep counting Some by_parity true). apply (paint_start keep counting Some vshow _ _ (Ok tt)); [apply vshow_viewing|]. vm_compute. reflexivity.
Qed.
Lemma pdone_painting : painting keep counting by_parity true (fst pdone) (snd pdone).
Proof.
  apply (paint_refresh keep counting by_parity false _ _ _ _ (Ok tt) pset_painting). vm_compute. reflexivity.
Qed.
Lemma painting_parts : forall f k x g, painting keep counting f k x g -> painting keep counting f k (fst (fst x), snd (fst x), snd x) g.
Proof. intros f k [[t b] s] g H. exact H. Qed.

Definition colours (g : gtk) : list (id * option nat) := map (fun r => (r_id r, r_col r)) (rows g).

Lemma case_paint : faithful counting /\ never_reuses counting /\ (forall d, by_parity d <> None) /\
  painting keep counting by_parity true (fst (fst (fst pdone)), snd (fst (fst pdone)), snd (fst pdone)) (snd pdone) /\
  colours (snd pset') = [("c", Some 5); ("d", Some 2); ("d", Some 2); ("a", Some 1); ("b", Some 1)] /\ colours (snd pdone) = [("b", Some 3); ("a", Some 3); ("c", Some 3); ("d", Some 2); ("d", Some 2)].
Proof.
  split; [exact counting_fresh|]. split; [exact counting_new|]. split; [discriminate|]. split; [exact (painting_parts _ _ _ _ pdone_painting)|].
  split; vm_compute; reflexivity.
Qed.

Lemma case_paint_call : faithful counting /\ never_reuses counting /\ painting keep counting by_parity false (fst pset') (snd pset') /\
  supported (fst pset') (VTree (SetData "c" 8)) /\
  snd (widget_call keep (repainted counting by_parity) (VTree (SetData "c" 8)) (fst pset') (snd pset')) = Ok tt /\
  colours (snd (fst (widget_call keep (repainted counting by_parity) (VTree (SetData "c" 8)) (fst pset') (snd pset')))) = [("a", Some 3); ("d", Some 2); ("d", Some 2); ("c", Some 2); ("b", Some 1)].
Proof.
  split; [exact counting_fresh|]. split; [exact counting_new|]. split; [exact pset_painting|]. split; [apply supportedb_ok; vm_compute; reflexivity|].
  split; vm_compute; reflexivity.
Qed.

Lemma not_repainted : exists pf f t b s g r, faithful pf /\ never_reuses pf /\ (forall d, f d <> None) /\ painting keep pf f false (t, b, s) g /\
  In r (rows g) /\ data_at t (r_id r) = Some 5 /\ f 5 = Some 3 /\ r_col r = Some 5.
Proof.
  exists counting, by_parity, (fst (fst (fst pset'))), (snd (fst (fst pset'))), (snd (fst pset')), (snd pset'), (mkRow 4 (Some 0) "c" (Some 5)).
  split; [exact counting_fresh|]. split; [exact counting_new|]. split; [discriminate|]. split; [exact (painting_parts _ _ _ _ pset_painting)|].
  split; [vm_compute; auto 10|]. split; [vm_compute; reflexivity|]. split; reflexivity.
Qed.

(** A text cell that draws a dark row and then a bright one. *)
Definition before_draw : list (cell * option color) := [(mkCell true false None, Some 2); (mkCell false false None, Some 11); (mkCell true false None, Some 3)].
Lemma case_look :
  cell_data palette true (Some 2) (cells_data palette before_draw []) (mkCell true false (Some 3)) =
    ([(2, 127560000%N); (3, 655350000%N)], mkCell true true (Some 2), Ok tt) /\
  cell_data palette true (Some 3) (cells_data palette before_draw []) (mkCell true true (Some 2)) =
    ([(2, 127560000%N); (3, 655350000%N)], mkCell true false (Some 3), Ok tt) /\
  dark palette 2.
Proof.
  split; [vm_compute; reflexivity|]. split; [vm_compute; reflexivity|]. exists 60000%N, 0%N, 0%N. split; reflexivity.
Qed.

Lemma case_row_look : (forall d, exists c, by_parity d = Some c /\ palette c <> None) /\
  painting keep counting by_parity true (fst (fst (fst pdone)), snd (fst (fst pdone)), snd (fst pdone)) (snd pdone) /\
  In (mkRow 6 (Some 2) "d" (Some 2)) (rows (snd pdone)) /\
  snd (fst (cell_data palette true (Some 2) (cells_data palette before_draw []) (mkCell true false None))) = mkCell true true (Some 2).
Proof.
  split; [intros d; unfold by_parity; destruct (Nat.even d); eexists; split; try reflexivity; discriminate|].
  split; [exact (painting_parts _ _ _ _ pdone_painting)|]. split; [vm_compute; auto 10|vm_compute; reflexivity].
Qed.

Lemma colour_unknown : exists parse k v cache k', cell_data parse true (Some v) (cells_data parse [(k, c_background k)] []) k = (cache, k', Err AttributeError) /\
  c_background k <> None /\ c_background k' <> Some v /\ c_background k' = c_background k.
Proof.
  exists palette, (mkCell true true (Some 2)), 11, [(2, 127560000%N)], (mkCell true true (Some 2)). split; [vm_compute; reflexivity|]. split; [discriminate|].
  split; [discriminate|reflexivity].
Qed.
