(** Property theorems about modified signals and about the data shown by the Gtk model. *)
From Coq Require Import Permutation.
From Verif Require Import Base MainTree Spec Filters FTree SpecApi SpecFrame SpecView SpecViewing SpecTold Gtk SpecGtk FtTold GtkRemove GtkData
  ApiWitness ViewWitness ViewCases GtkWitness ToldCases.

(** C57. Announcing a displayed node sends a modified signal for each of its places
    and for each place of a node above it on the way, nothing else, and changes
    nothing in the view. *)
Theorem C57_modify : forall ord, (forall k l, Permutation (ord k l) l) -> forall t b s n, reach calm t -> no_clash t s -> uptodate t b s -> In n (view_all_nodes s) ->
  exists s' l, view_call ord (VTree (ModifyNode n)) (t, b, s) = (t, b, s', Ok tt) /\ fnodes s' = fnodes s /\ sent s' = sent s ++ l /\ announces s n l.
Proof. exact modify_announces. Qed.
Print Assumptions C57_modify.
Example C57_modify_example : shown vshow "d" /\ new_signals vshow (VTree (ModifyNode "d")) =
  [SModified "a" ["a"]; SModified "b" ["a"; "b"]; SModified "a" ["a"]; SModified "c" ["a"; "c"]; SModified "d" ["a"; "b"; "d"]; SModified "d" ["a"; "c"; "d"]].
Proof. exact case_modify. Qed.

(** C57. The same when the data of a displayed node change and it stays displayed. *)
Theorem C57_change : forall ord, (forall k l, Permutation (ord k l) l) -> forall t b s n v, reach calm t -> no_clash t s -> local_bank b -> uptodate t b s -> In n (view_all_nodes s) ->
  In n (satisfying b (after (SetData n v) t) (filters s)) ->
  exists s' l, view_call ord (VTree (SetData n v)) (t, b, s) = (after (SetData n v) t, b, s', Ok tt) /\ fnodes s' = fnodes s /\ sent s' = sent s ++ l /\ announces s n l.
Proof. exact change_announces. Qed.
Print Assumptions C57_change.
Example C57_change_example : shown vshow "d" /\
  In "d" (satisfying (snd (fst vshow)) (after (SetData "d" 3) (fst (fst vshow))) (filters (snd vshow))) /\
  data_at (fst (fst vshow)) "d" = Some 2 /\
  new_signals vshow (VTree (SetData "d" 3)) = new_signals vshow (VTree (ModifyNode "d")).
Proof. exact case_change. Qed.

(** C57. refresh_all sends modified signals for all paths of the view. *)
Theorem C57_refresh : forall ord, (forall k l, Permutation (ord k l) l) -> forall t b s, reach calm t -> no_clash t s -> uptodate t b s ->
  exists s' l, view_call ord (VTree RefreshAll) (t, b, s) = (t, b, s', Ok tt) /\ fnodes s' = fnodes s /\ sent s' = sent s ++ l /\
    forall y, In y l <-> exists q x, y = SModified x (q ++ [x]) /\ view_path s (q ++ [x]).
Proof. exact refresh_announces. Qed.
Print Assumptions C57_refresh.
Example C57_refresh_example : shown vshow "d" /\ length (new_signals vshow (VTree RefreshAll)) = 11 /\
  In (SModified "d" ["a"; "c"; "d"]) (new_signals vshow (VTree RefreshAll)).
Proof. exact case_refresh. Qed.

(** C46. Whatever the allocator and the signals before: a deleted signal that is
    obeyed removes one row of this node with all rows below it, and no others. *)
Theorem C46_whole_subtree : forall pf l g o T n p g', faithful pf -> on_heard pf l new_gtk = (g, o) -> on_signal pf T (SDeleted n p) g = (g', Ok tt) ->
  exists r, In r (rows g) /\ r_id r = n /\ forall q, In q (rows g') <-> In q (rows g) /\ ~ under (rows g) (r_addr r) q.
Proof. exact whole_subtree. Qed.
Print Assumptions C46_whole_subtree.
Example C46_whole_subtree_example : faithful lowest /\ on_heard lowest gsignals new_gtk = (fst (on_heard lowest gsignals new_gtk), Ok tt) /\
  on_signal lowest gtree (SDeleted "X" ["B"; "X"]) (fst (on_heard lowest gsignals new_gtk)) =
    (fst (on_signal lowest gtree (SDeleted "X" ["B"; "X"]) (fst (on_heard lowest gsignals new_gtk))), Ok tt) /\
  map r_id (rows (fst (on_heard lowest gsignals new_gtk))) = ["A"; "B"; "X"; "Y"] /\
  map r_id (rows (fst (on_signal lowest gtree (SDeleted "X" ["B"; "X"]) (fst (on_heard lowest gsignals new_gtk))))) = ["A"; "B"].
Proof. exact case_subtree. Qed.

(** C58. Every row of a connected Gtk model shows what the application's function
    makes of the current data of its node, however the rows are sorted. What is
    missing: allocators that give the address of a removed row to a new one, and
    functions that return None (both false, see below). *)
Theorem C58_data_partial : forall ord pf, (forall k l, Permutation (ord k l) l) -> faithful pf -> never_reuses pf ->
  (forall d, column pf d <> None) ->
  forall t b s g r, watching ord pf (t, b, s) g -> In r (rows g) -> option_map (column pf) (data_at t (r_id r)) = Some (r_col r).
Proof. exact watching_current_data. Qed.
Print Assumptions C58_data_partial.
Example C58_example : faithful counting /\ never_reuses counting /\ (forall d, column counting d <> None) /\
  watching keep counting (fst (fst (fst wdata)), snd (fst (fst wdata)), snd (fst wdata)) (snd wdata) /\
  map (fun r => (r_id r, r_col r)) (rows (snd wstart)) = [("d", Some 2); ("a", Some 1); ("b", Some 1)] /\
  map (fun r => (r_id r, r_col r)) (rows (snd wdata)) = [("d", Some 7); ("d", Some 7); ("c", Some 5); ("b", Some 1); ("a", Some 1)].
Proof. exact case_data. Qed.

(** C58 fails when addresses are given out again: a row keeps old data. *)
Theorem C58_reuse_refuted : exists pf t b s g r, faithful pf /\ watching keep pf (t, b, s) g /\
  view_path s ["A"; "X"] /\ In r (rows g) /\ r_id r = "X" /\ r_col r = Some 1 /\ data_at t "X" = Some 9.
Proof. exact stale_row. Qed.
Print Assumptions C58_reuse_refuted.

(** C58 fails when the function returns None for the new data: the row keeps the
    value it had. *)
Theorem C58_none_refuted : exists pf t b s g r, faithful pf /\ never_reuses pf /\ watching keep pf (t, b, s) g /\
  In r (rows g) /\ r_col r = Some 2 /\ data_at t (r_id r) = Some 7 /\ column pf 7 = None.
Proof. exact empty_column. Qed.
Print Assumptions C58_none_refuted.
